(** ErrFormat.v -- messages for errors (lib/json/errorformatting.h) *)
From Coq Require Import String List NArith ZArith Bool Lia DecimalN DecimalString.
From Verif Require Import Base BaseFacts Types GenModel GenSem GenSpec GenSelect GenMarkers GenText JsonModel.
Import ListNotations.
Local Open Scope list_scope.
Local Open Scope N_scope.

(* ------------------------------------------------------------------ *)
(** * Model *)

(** jsonTypeToString (lib/json/errorformatting.h:18-36) *)
Definition type_name (t : jtype) : bytes :=
  bs match t with JTNull => "null" | JTNumber => "number" | JTBool => "bool" | JTString => "string" | JTArray => "array" | JTObject => "object" end.

(** formatJsonDeserializationError (lib/json/errorformatting.h:38-74). [record] and [member] are C strings. The index is
    printed in decimal by CppUtilities' string builder. *)
Definition kind_name (k : ekind) : bytes :=
  bs match k with
  | TypeMismatch => "type mismatch" | ArraySizeMismatch => "array size mismatch" | ConversionError => "conversion error"
  | UnexpectedDuplicate => "unexpected duplicate" | InvalidVariantObject => "invalid variant object" | InvalidVariantIndex => "invalid variant index"
  end.
Definition additional (x : jerror) : bytes :=
  match e_kind x with
  | TypeMismatch => bs ": expected """ ++ type_name (e_expected x) ++ bs """, got """ ++ type_name (e_actual x) ++ quote
  | _ => []
  end.
Definition format_error (x : jerror) : bytes :=
  match e_record x, e_member x, e_index x with
  | Some r, Some m, _ => kind_name (e_kind x) ++ bs " within record """ ++ cstr r ++ bs """ and member """ ++ cstr m ++ quote ++ additional x
  | Some r, None, Some i => kind_name (e_kind x) ++ bs " within record """ ++ cstr r ++ bs """ and index """ ++ dec i ++ quote ++ additional x
  | Some r, None, None => kind_name (e_kind x) ++ bs " within record """ ++ cstr r ++ quote ++ additional x
  | None, _, _ => kind_name (e_kind x) ++ bs " in document" ++ additional x
  end.

(* ------------------------------------------------------------------ *)
(** * Specification *)

(** [s] occurs in [t] *)
Definition occurs (s t : bytes) : Prop := exists a b, t = a ++ s ++ b.
(** a name without quote and NUL *)
Definition plain_name (s : bytes) : Prop := ~ In Byte.x22 s /\ ~ In Byte.x00 s.
Definition plain_context (x : jerror) : Prop :=
  (forall r, e_record x = Some r -> plain_name r) /\ (forall m, e_member x = Some m -> plain_name m).

(** what a reader of the message can tell about the error: the kind; if it is a mismatch the types; the record; and if
    there is a record the member or - if there is no member - the index *)
Definition same_message (x y : jerror) : Prop :=
  e_kind x = e_kind y
  /\ (e_kind x = TypeMismatch -> e_expected x = e_expected y /\ e_actual x = e_actual y)
  /\ e_record x = e_record y
  /\ (e_record x <> None -> e_member x = e_member y /\ (e_member x = None -> e_index x = e_index y)).

(* ------------------------------------------------------------------ *)
(** * Lemmas *)

Lemma cstr_plain s : ~ In Byte.x00 s -> cstr s = s.
Proof.
  induction s as [|b s IH]; intros H; [reflexivity|]. cbn [cstr]. destruct (beqb b Byte.x00) eqn:E.
  - apply Byte.byte_dec_bl in E. subst. exfalso. apply H. left; reflexivity.
  - f_equal. apply IH. intros Q. apply H. right; exact Q.
Qed.

Lemma quote_split a b x y : ~ In Byte.x22 a -> ~ In Byte.x22 b -> a ++ Byte.x22 :: x = b ++ Byte.x22 :: y -> a = b /\ x = y.
Proof.
  revert b. induction a as [|c a IH]; intros [|d b] Ha Hb E; cbn in E.
  - inversion E; auto.
  - inversion E; subst. exfalso; apply Hb; left; reflexivity.
  - inversion E; subst. exfalso; apply Ha; left; reflexivity.
  - inversion E; subst. destruct (IH b) as [-> ->]; auto; intros Q; [apply Ha|apply Hb]; right; exact Q.
Qed.
Lemma dec_no_quote n : ~ In Byte.x22 (dec n).
Proof.
  intros H. pose proof (plain_dec n) as P. unfold plain in P. rewrite forallb_forall in P. specialize (P _ H). discriminate P.
Qed.

Lemma to_uint_nonnil n : N.to_uint n <> Decimal.Nil.
Proof. intros E. pose proof (DecimalN.Unsigned.of_to n) as Q. rewrite E in Q. cbn in Q. subst n. discriminate E. Qed.
Lemma dec_inj a b : dec a = dec b -> a = b.
Proof.
  unfold dec, bs. intros H. apply (f_equal string_of_list_byte) in H. rewrite !string_of_list_byte_of_string in H.
  apply (f_equal NilZero.uint_of_string) in H. rewrite !NilZero.usu in H by apply to_uint_nonnil. inversion H as [Q].
  rewrite <- (DecimalN.Unsigned.of_to a), <- (DecimalN.Unsigned.of_to b), Q. reflexivity.
Qed.

(** the part after the kind *)
Definition context (x : jerror) : bytes :=
  match e_record x, e_member x, e_index x with
  | Some r, Some m, _ => bs " within record """ ++ cstr r ++ bs """ and member """ ++ cstr m ++ quote
  | Some r, None, Some i => bs " within record """ ++ cstr r ++ bs """ and index """ ++ dec i ++ quote
  | Some r, None, None => bs " within record """ ++ cstr r ++ quote
  | None, _, _ => bs " in document"
  end.
Lemma format_split x : format_error x = kind_name (e_kind x) ++ context x ++ additional x.
Proof. unfold format_error, context. destruct (e_record x), (e_member x), (e_index x); rewrite <- ?app_assoc; reflexivity. Qed.

Lemma additional_head x : additional x = [] \/ exists t, additional x = Byte.x3a :: t.
Proof. unfold additional. destruct (e_kind x); auto. right. eexists. reflexivity. Qed.
Lemma context_head x : exists t, context x = Byte.x20 :: t.
Proof. unfold context. destruct (e_record x), (e_member x), (e_index x); eexists; reflexivity. Qed.

Lemma kind_prefix k1 k2 t1 t2 : kind_name k1 ++ t1 = kind_name k2 ++ t2 -> k1 = k2 /\ t1 = t2.
Proof. destruct k1, k2; intros H; try (vm_compute in H; discriminate H); (split; [reflexivity|]); eapply app_inv_head; exact H. Qed.

Lemma type_name_inj a b x y : type_name a ++ Byte.x22 :: x = type_name b ++ Byte.x22 :: y -> a = b /\ x = y.
Proof. destruct a, b; intros H; try (vm_compute in H; discriminate H); (split; [reflexivity|]); apply app_inv_head in H; inversion H; reflexivity. Qed.
Lemma additional_inj x y : e_kind x = e_kind y -> additional x = additional y ->
  e_kind x = TypeMismatch -> e_expected x = e_expected y /\ e_actual x = e_actual y.
Proof.
  unfold additional. intros E H K. rewrite <- E, K in H. apply app_inv_head in H.
  change (bs """, got """) with (Byte.x22 :: tl (bs """, got """)) in H. cbn [app] in H. apply type_name_inj in H. destruct H as [-> H]. split; [reflexivity|].
  apply app_inv_head in H. unfold quote in H. apply type_name_inj in H. apply H.
Qed.

Ltac head q := change (bs q) with (Byte.x22 :: tl (bs q)).
Lemma context_inj x y : plain_context x -> plain_context y -> e_kind x = e_kind y -> context x ++ additional x = context y ++ additional y ->
  additional x = additional y /\ e_record x = e_record y /\ (e_record x <> None -> e_member x = e_member y /\ (e_member x = None -> e_index x = e_index y)).
Proof.
  intros [PX1 PX2] [PY1 PY2] EK. unfold context.
  assert (AH: forall z, additional z = [] \/ exists t, additional z = Byte.x3a :: t) by apply additional_head.
  destruct (e_record x) as [r|], (e_record y) as [r'|].
  2: { destruct (e_member x), (e_index x); cbn; discriminate. }
  2: { destruct (e_member y), (e_index y); cbn; discriminate. }
  2: { intros H. apply app_inv_head in H. split; [exact H|]. split; [reflexivity|]. intros X; contradiction. }
  destruct (PX1 r eq_refl) as [QR NR]. destruct (PY1 r' eq_refl) as [QR' NR'].
  rewrite !(cstr_plain r), !(cstr_plain r') by assumption.
  destruct (e_member x) as [m|], (e_member y) as [m'|].
  - destruct (PX2 m eq_refl) as [QM NM]. destruct (PY2 m' eq_refl) as [QM' NM']. rewrite !(cstr_plain m), !(cstr_plain m') by assumption.
    rewrite <- !app_assoc. intros H. apply app_inv_head in H. revert H. head """ and member """%string. cbn [app]. intros H.
    apply quote_split in H; auto. destruct H as [-> H]. apply app_inv_head in H. unfold quote in H. cbn [app] in H. apply quote_split in H; auto. destruct H as [-> H].
    split; [exact H|]. split; [reflexivity|]. intros _. split; [reflexivity|discriminate].
  - intros H. exfalso. destruct (e_index y) as [i|]; rewrite <- !app_assoc in H; apply app_inv_head in H; revert H; head """ and member """%string; unfold quote; [head """ and index """%string|];
      cbn [app]; intros H; apply quote_split in H; auto; destruct H as [_ H]; [vm_compute in H; discriminate H|]. destruct (AH y) as [Q|[t Q]]; rewrite Q in H; vm_compute in H; discriminate H.
  - intros H. exfalso. destruct (e_index x) as [i|]; rewrite <- !app_assoc in H; apply app_inv_head in H; revert H; head """ and member """%string; unfold quote; [head """ and index """%string|];
      cbn [app]; intros H; apply quote_split in H; auto; destruct H as [_ H]; [vm_compute in H; discriminate H|]. destruct (AH x) as [Q|[t Q]]; rewrite Q in H; vm_compute in H; discriminate H.
  - destruct (e_index x) as [i|], (e_index y) as [i'|]; rewrite <- !app_assoc; intros H; apply app_inv_head in H; revert H; try head """ and index """%string; unfold quote; cbn [app]; intros H;
      apply quote_split in H; auto; destruct H as [-> H].
    + apply app_inv_head in H. apply quote_split in H; try apply dec_no_quote. destruct H as [D H]. split; [exact H|]. split; [reflexivity|]. intros _. split; [reflexivity|]. intros _. f_equal. apply dec_inj, D.
    + exfalso. destruct (AH y) as [Q|[t Q]]; rewrite Q in H; vm_compute in H; discriminate H.
    + exfalso. destruct (AH x) as [Q|[t Q]]; rewrite Q in H; vm_compute in H; discriminate H.
    + auto.
Qed.

Lemma format_inj x y : plain_context x -> plain_context y -> (format_error x = format_error y <-> same_message x y).
Proof.
  intros PX PY. rewrite !format_split. split.
  - intros H. apply kind_prefix in H. destruct H as [K H]. destruct (context_inj x y PX PY K H) as (A & R & M). split; [exact K|]. split; [|auto]. apply additional_inj; assumption.
  - intros (K & T & R & M). rewrite K. f_equal.
    assert (C: context x = context y).
    { unfold context. destruct (e_record x) as [r|]; rewrite <- R; [|reflexivity]. destruct M as [M1 M2]; [discriminate|]. rewrite <- M1. destruct (e_member x); [reflexivity|]. rewrite <- M2 by reflexivity. reflexivity. }
    rewrite C. f_equal. unfold additional. rewrite <- K. destruct (e_kind x); auto. destruct T as [-> ->]; reflexivity.
Qed.
