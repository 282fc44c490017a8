(** TypesFacts.v -- induction principles, decidable equality, initial values *)
From Coq Require Import List NArith ZArith Bool Lia Permutation.
From Verif Require Import Base BaseFacts Types.
Import ListNotations.

(** ** induction on types through the nested lists *)
Section TyInd.
  Variable P : ty -> Prop.
  Hypothesis h_bool : P TBool.
  Hypothesis h_int : forall k, P (TInt k).
  Hypothesis h_f32 : P TF32.
  Hypothesis h_f64 : P TF64.
  Hypothesis h_enum : forall k, P (TEnum k).
  Hypothesis h_string : P TString.
  Hypothesis h_seq : forall t, P t -> P (TSeq t).
  Hypothesis h_set : forall o m t, P t -> P (TSet o m t).
  Hypothesis h_map : forall o m k t, P k -> P t -> P (TMap o m k t).
  Hypothesis h_pair : forall a b, P a -> P b -> P (TPair a b).
  Hypothesis h_tuple : forall ts, Forall P ts -> P (TTuple ts).
  Hypothesis h_unique : forall t, P t -> P (TUnique t).
  Hypothesis h_optional : forall t, P t -> P (TOptional t).
  Hypothesis h_shared : forall t, P t -> P (TShared t).
  Hypothesis h_variant : forall ts, Forall P ts -> P (TVariant ts).
  Hypothesis h_mono : P TMono.
  Hypothesis h_struct : forall c, P (TStruct c).
  Hypothesis h_dt : P TDateTime.
  Hypothesis h_ts : P TTimeSpan.
  Hypothesis h_view : P TView.
  Hypothesis h_cstr : P TCStr.

  Fixpoint ty_ind' (t : ty) : P t :=
    match t with
    | TBool => h_bool | TInt k => h_int k | TF32 => h_f32 | TF64 => h_f64
    | TEnum k => h_enum k | TString => h_string
    | TSeq t => h_seq t (ty_ind' t)
    | TSet o m t => h_set o m t (ty_ind' t)
    | TMap o m k t => h_map o m k t (ty_ind' k) (ty_ind' t)
    | TPair a b => h_pair a b (ty_ind' a) (ty_ind' b)
    | TTuple ts => h_tuple ts ((fix go l : Forall P l := match l with
                                 | [] => Forall_nil _ | x :: l' => Forall_cons x (ty_ind' x) (go l') end) ts)
    | TUnique t => h_unique t (ty_ind' t)
    | TOptional t => h_optional t (ty_ind' t)
    | TShared t => h_shared t (ty_ind' t)
    | TVariant ts => h_variant ts ((fix go l : Forall P l := match l with
                                 | [] => Forall_nil _ | x :: l' => Forall_cons x (ty_ind' x) (go l') end) ts)
    | TMono => h_mono | TStruct c => h_struct c | TDateTime => h_dt | TTimeSpan => h_ts
    | TView => h_view | TCStr => h_cstr
    end.
End TyInd.

Section ValInd.
  Variable P : val -> Prop.
  Hypothesis h_undef : P VUndef.
  Hypothesis h_bool : forall b, P (VBool b).
  Hypothesis h_int : forall z, P (VInt z).
  Hypothesis h_f32 : forall n, P (VF32 n).
  Hypothesis h_f64 : forall n, P (VF64 n).
  Hypothesis h_str : forall s, P (VStr s).
  Hypothesis h_list : forall l, Forall P l -> P (VList l).
  Hypothesis h_pair : forall a b, P a -> P b -> P (VPair a b).
  Hypothesis h_none : P (VOpt None).
  Hypothesis h_some : forall v, P v -> P (VOpt (Some v)).
  Hypothesis h_shared : forall o, P (VShared o).
  Hypothesis h_var : forall i v, P v -> P (VVar i v).
  Hypothesis h_valueless : P VValueless.
  Hypothesis h_mono : P VMono.
  Hypothesis h_obj : forall fs, Forall (fun kv => P (snd kv)) fs -> P (VObj fs).

  Fixpoint val_ind' (v : val) : P v :=
    match v with
    | VUndef => h_undef | VBool b => h_bool b | VInt z => h_int z | VF32 n => h_f32 n | VF64 n => h_f64 n
    | VStr s => h_str s
    | VList l => h_list l ((fix go l : Forall P l := match l with
                             | [] => Forall_nil _ | x :: l' => Forall_cons x (val_ind' x) (go l') end) l)
    | VPair a b => h_pair a b (val_ind' a) (val_ind' b)
    | VOpt None => h_none
    | VOpt (Some v) => h_some v (val_ind' v)
    | VShared o => h_shared o
    | VVar i v => h_var i v (val_ind' v)
    | VValueless => h_valueless | VMono => h_mono
    | VObj fs => h_obj fs ((fix go l : Forall (fun kv => P (snd kv)) l := match l with
                             | [] => Forall_nil _ | x :: l' => Forall_cons x (val_ind' (snd x)) (go l') end) fs)
    end.
End ValInd.

Lemma ikind_eqb_eq a b : ikind_eqb a b = true <-> a = b.
Proof. destruct a, b; cbn; split; intros H; try reflexivity; discriminate. Qed.

Lemma ty_eqb_eq a : forall b, ty_eqb a b = true <-> a = b.
Proof.
  assert (L: forall (ts us : list ty), Forall (fun t => forall b, ty_eqb t b = true <-> t = b) ts ->
    ((fix go (l m : list ty) := match l, m with
        | [], [] => true | x :: l', y :: m' => ty_eqb x y && go l' m' | _, _ => false end) ts us = true <-> ts = us)).
  { induction ts as [|x ts IH]; intros [|y us] HF.
    - split; reflexivity.
    - split; intros HH; discriminate HH.
    - split; intros HH; discriminate HH.
    - inversion HF; subst. rewrite andb_true_iff, H1, IH by assumption.
      split; [intros [-> ->]; reflexivity|intros E; inversion E; split; reflexivity]. }
  induction a using ty_ind'; intros b; destruct b; cbn [ty_eqb];
    try (split; intros HH; [discriminate|discriminate]);
    try (split; reflexivity);
    rewrite ?andb_true_iff, ?Bool.eqb_true_iff, ?ikind_eqb_eq, ?N.eqb_eq.
  all: try (rewrite IHa; split; [intros ->; reflexivity|intros E; inversion E; reflexivity]).
  all: try (rewrite IHa; split; [intros [[-> ->] ->]; reflexivity|intros E; inversion E; repeat split; reflexivity]).
  all: try (split; [intros ->; reflexivity|intros E; inversion E; reflexivity]).
  - rewrite IHa1, IHa2. split; [intros [[[-> ->] ->] ->]; reflexivity|intros E; inversion E; repeat split; reflexivity].
  - rewrite IHa1, IHa2. split; [intros [-> ->]; reflexivity|intros E; inversion E; repeat split; reflexivity].
  - rewrite (L ts ts0 H). split; [intros ->; reflexivity|intros E; inversion E; reflexivity].
  - rewrite (L ts ts0 H). split; [intros ->; reflexivity|intros E; inversion E; reflexivity].
Qed.

Lemma ty_eqb_refl t : ty_eqb t t = true.
Proof. apply ty_eqb_eq; reflexivity. Qed.

Lemma ty_eqb_neq a b : a <> b -> ty_eqb a b = false.
Proof. intros H. destruct (ty_eqb a b) eqn:E; [apply ty_eqb_eq in E; contradiction|reflexivity]. Qed.

Lemma fkey_eqb_eq a b : fkey_eqb a b = true <-> a = b.
Proof.
  unfold fkey_eqb. rewrite andb_true_iff, N.eqb_eq, bytes_eqb_eq.
  destruct a, b; cbn. split; [intros [-> ->]; reflexivity|intros E; inversion E; split; reflexivity].
Qed.

Lemma fkey_eq_dec (a b : fkey) : {a = b} + {a <> b}.
Proof.
  destruct (fkey_eqb a b) eqn:E; [left; apply fkey_eqb_eq; exact E|right].
  intros ->. assert (fkey_eqb b b = true) by (apply fkey_eqb_eq; reflexivity). congruence.
Qed.

(** ** integer ranges *)
Lemma in_range_spec k z : in_range k z = true <-> (kmin k <= z <= kmax k)%Z.
Proof. unfold in_range. rewrite andb_true_iff, !Z.leb_le. reflexivity. Qed.

(** ** heap *)
Lemma hget_hset_same h a c : hget (hset h a c) a = Some c.
Proof. unfold hget, hset; cbn. rewrite N.eqb_refl. reflexivity. Qed.

Lemma hget_hset_other h a b c : a <> b -> hget (hset h a c) b = hget h b.
Proof. unfold hget, hset; cbn. intros H. destruct (N.eqb_spec b a); [congruence|reflexivity]. Qed.

Lemma hget_not_in h a : ~ In a (map fst h) -> hget h a = None.
Proof. unfold hget. apply alookup_none. apply N.eqb_eq. Qed.

(** ** emplace *)
Lemma ins_uniq_snoc {A} (lt : A -> A -> bool) x l :
  (forall y, In y l -> lt y x = true) -> ins_uniq lt x l = (l ++ [x], true).
Proof.
  induction l as [|y l IH]; intros H; cbn; [reflexivity|].
  rewrite (H y (or_introl eq_refl)). rewrite IH by (intros z Hz; apply H; right; exact Hz). reflexivity.
Qed.

Lemma ins_multi_snoc {A} (lt : A -> A -> bool) x l :
  (forall y, In y l -> lt x y = false) -> ins_multi lt x l = l ++ [x].
Proof.
  induction l as [|y l IH]; intros H; cbn; [reflexivity|].
  rewrite (H y (or_introl eq_refl)). rewrite IH by (intros z Hz; apply H; right; exact Hz). reflexivity.
Qed.

Lemma ins_uniq_perm {A} (lt : A -> A -> bool) x l l' :
  ins_uniq lt x l = (l', true) -> Permutation (x :: l) l'.
Proof.
  revert l'; induction l as [|y l IH]; intros l'; cbn.
  - intros E; inversion E; subst. apply Permutation_refl.
  - destruct (lt y x).
    + destruct (ins_uniq lt x l) as [r b] eqn:E. intros E2; inversion E2; subst.
      rewrite perm_swap. apply perm_skip. apply IH. reflexivity.
    + destruct (lt x y); intros E; inversion E; subst. apply Permutation_refl.
Qed.

Lemma ins_uniq_false {A} (lt : A -> A -> bool) x l l' :
  ins_uniq lt x l = (l', false) -> l' = l.
Proof.
  revert l'; induction l as [|y l IH]; intros l'; cbn; [discriminate|].
  destruct (lt y x).
  - destruct (ins_uniq lt x l) as [r b] eqn:E. intros E2; inversion E2; subst. f_equal. apply IH. reflexivity.
  - destruct (lt x y); intros E; inversion E; subst. reflexivity.
Qed.

Lemma ins_multi_perm {A} (lt : A -> A -> bool) x l : Permutation (x :: l) (ins_multi lt x l).
Proof.
  induction l as [|y l IH]; cbn; [apply Permutation_refl|].
  destruct (lt x y); [apply Permutation_refl|]. rewrite perm_swap. apply perm_skip. exact IH.
Qed.

(** the placement oracle is a rearrangement of the old elements and the new one *)
Definition place_ok (G : genv) : Prop := forall t l x, Permutation (x :: l) (g_place G t l x).

Lemma emplace_cases G ismap ord multi t x l :
  place_ok G ->
  (snd (emplace G ismap ord multi t x l) = true /\ Permutation (x :: l) (fst (emplace G ismap ord multi t x l)))
  \/ (snd (emplace G ismap ord multi t x l) = false /\ fst (emplace G ismap ord multi t x l) = l /\ multi = false).
Proof.
  intros HP. unfold emplace. destruct ord, multi.
  - left. split; [reflexivity|]. apply ins_multi_perm.
  - destruct (ins_uniq (fun a b => g_lt G t (keyof ismap a) (keyof ismap b)) x l) as [l' b] eqn:E. destruct b.
    + left. split; [reflexivity|]. exact (ins_uniq_perm _ _ _ _ E).
    + right. repeat split. exact (ins_uniq_false _ _ _ _ E).
  - left. split; [reflexivity|]. apply HP.
  - destruct (existsb (fun y => g_eq G t (keyof ismap y) (keyof ismap x)) l).
    + right. repeat split.
    + left. split; [reflexivity|]. apply HP.
Qed.

Lemma emplace_in G ismap ord multi t x l y :
  place_ok G -> In y (fst (emplace G ismap ord multi t x l)) -> y = x \/ In y l.
Proof.
  intros HP Hin. destruct (emplace_cases G ismap ord multi t x l HP) as [[_ Hp]|[_ [E _]]].
  - apply (Permutation_in _ (Permutation_sym Hp)) in Hin. destruct Hin; auto.
  - rewrite E in Hin. auto.
Qed.
