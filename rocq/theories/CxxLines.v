(** CxxLines.v -- the statements which the lines of generated functions are *)
From Coq Require Import String List NArith ZArith Bool Lia DecimalString DecimalN.
From Verif Require Import Base BaseFacts Types GenModel GenSem GenSpec GenFacts GenMarkers GenSelect GenText JsonModel CxxText CxxFacts.
Import ListNotations.
Local Open Scope list_scope.
Local Open Scope N_scope.

(* ------------------------------------------------------------------ *)
(** * Grouping *)

Lemma group_app a : forall g b, group_tokens g (a ++ b) = match group_tokens g a with Some g' => group_tokens g' b | None => None end.
Proof.
  induction a as [|t a IH]; intros g b; [reflexivity|]. change ((t :: a) ++ b) with (t :: (a ++ b)). cbn [group_tokens].
  destruct (group_token g t); [apply IH|reflexivity].
Qed.
Definition inert (t : token) : Prop := match t with Punct [b] => b <> Byte.x3b /\ b <> Byte.x7b /\ b <> Byte.x7d | _ => True end.
Lemma group_inert1 g t : inert t -> group_token g t = Some {| gs_cur := t :: gs_cur g; gs_done := gs_done g; gs_open := gs_open g |}.
Proof.
  destruct t as [s|s|s|s|s]; try reflexivity. destruct s as [|b s]; [reflexivity|]. destruct s; [|destruct b; reflexivity].
  intros (H1 & H2 & H3). destruct b; try reflexivity; congruence.
Qed.
Lemma group_inert ts : Forall inert ts -> forall g, group_tokens g ts = Some {| gs_cur := rev ts ++ gs_cur g; gs_done := gs_done g; gs_open := gs_open g |}.
Proof.
  induction 1 as [|t ts Ht _ IH]; intros g; [destruct g; reflexivity|]. cbn [group_tokens]. rewrite group_inert1 by exact Ht. rewrite IH. cbn [gs_cur gs_done gs_open rev].
  rewrite <- app_assoc. reflexivity.
Qed.

(** text which is a sequence of statements, the beginning of a block, the end of a block *)
Definition lexed (s : bytes) (ts : list token) : Prop := forall r, lex_text PNone (s ++ r) = prepend ts (lex_text PNone r).
Definition chunk (s : bytes) (ns : list node) : Prop := exists ts, lexed s ts
  /\ forall d o, group_tokens {| gs_cur := []; gs_done := d; gs_open := o |} ts = Some {| gs_cur := []; gs_done := rev ns ++ d; gs_open := o |}.
Definition opens (s : bytes) (h : list token) : Prop := exists ts, lexed s ts
  /\ forall d o, group_tokens {| gs_cur := []; gs_done := d; gs_open := o |} ts = Some {| gs_cur := []; gs_done := []; gs_open := (h, d) :: o |}.
Definition closes (s : bytes) : Prop := exists ts, lexed s ts
  /\ forall d h d' o, group_tokens {| gs_cur := []; gs_done := d; gs_open := (h, d') :: o |} ts
                      = Some {| gs_cur := []; gs_done := Block h (rev d) :: d'; gs_open := o |}.

Lemma lexed_nil : lexed [] []. Proof. intros r. symmetry. apply prepend_nil. Qed.
Lemma lexed_app a b ta tb : lexed a ta -> lexed b tb -> lexed (a ++ b) (ta ++ tb).
Proof. intros HA HB r. rewrite <- app_assoc, HA, HB. apply prepend_app. Qed.
Lemma chunk_nil : chunk [] [].
Proof. exists []. split; [apply lexed_nil|]. intros d o. reflexivity. Qed.
Lemma chunk_app a b na nb : chunk a na -> chunk b nb -> chunk (a ++ b) (na ++ nb).
Proof.
  intros (ta & LA & GA) (tb & LB & GB). exists (ta ++ tb). split; [apply lexed_app; assumption|].
  intros d o. rewrite group_app, GA, GB, rev_app_distr, <- app_assoc. reflexivity.
Qed.
Lemma chunk_concat {A} (f : A -> bytes) (g : A -> list node) l : (forall x, In x l -> chunk (f x) (g x)) -> chunk (concat (map f l)) (flat_map g l).
Proof.
  induction l as [|x l IH]; intros H; cbn; [apply chunk_nil|]. apply chunk_app; [apply H; left; reflexivity|apply IH; intros; apply H; right; assumption].
Qed.
Lemma chunk_block a h b ns c : opens a h -> chunk b ns -> closes c -> chunk (a ++ b ++ c) [Block h ns].
Proof.
  intros (ta & LA & GA) (tb & LB & GB) (tc & LC & GC). exists (ta ++ tb ++ tc). split; [repeat apply lexed_app; assumption|].
  intros d o. rewrite !group_app, GA, group_app, GB, GC. rewrite app_nil_r, rev_involutive. reflexivity.
Qed.
Lemma chunk_group s ns : chunk s ns -> exists ts, tokens s = Some ts /\ group ts = Some ns.
Proof.
  intros (ts & L & Gr). exists ts. unfold tokens, group. specialize (L []). rewrite app_nil_r in L. rewrite L. cbn [lex_text prepend fst snd].
  rewrite app_nil_r. split; [reflexivity|]. unfold gs0. rewrite Gr. cbn [gs_cur gs_open gs_done]. rewrite app_nil_r, rev_involutive. reflexivity.
Qed.

(** comments and blanks *)
Lemma lexed_note a w : lex_text PNone a = (PComment, []) -> no_newline w -> lexed (a ++ w ++ nl) [].
Proof. intros E H r. rewrite prepend_nil, <- !app_assoc. apply lex_note; assumption. Qed.
Lemma chunk_silent s : lexed s [] -> chunk s [].
Proof. intros L. exists []. split; [exact L|reflexivity]. Qed.
Lemma lexed_const s ts : lex_text PNone s = (PNone, ts) -> lexed s ts.
Proof. intros E r. apply lex_fix, E. Qed.

(** a statement: inert tokens and a semicolon *)
Lemma chunk_simple s ts : lexed s (ts ++ [Punct [Byte.x3b]]) -> Forall inert ts -> chunk s [Simple ts].
Proof.
  intros L I. eexists. split; [exact L|]. intros d o. rewrite group_app, (group_inert _ I). cbn. rewrite app_nil_r, rev_involutive. reflexivity.
Qed.
Lemma opens_head s ts : lexed s (ts ++ [Punct [Byte.x7b]]) -> Forall inert ts -> opens s ts.
Proof.
  intros L I. eexists. split; [exact L|]. intros d o. rewrite group_app, (group_inert _ I). cbn. rewrite app_nil_r, rev_involutive. reflexivity.
Qed.
Lemma closes_brace s : lexed s [Punct [Byte.x7d]] -> closes s.
Proof. intros L. eexists. split; [exact L|]. reflexivity. Qed.

(* ------------------------------------------------------------------ *)
(** * Tokens of the names *)

Lemma letter_sep b s : letter b = true -> ~ sep (b :: s). Proof. cbn. intros ->. discriminate. Qed.
Lemma identifier_plain n : identifier n -> forallb string_char n = true.
Proof.
  intros [H _]. destruct n as [|b n]; [destruct H|]. destruct H as [Hb Hn]. cbn [forallb]. apply andb_true_iff. split; [destruct b; try discriminate Hb; reflexivity|].
  rewrite forallb_forall in Hn |- *. intros x Hx. specialize (Hn _ Hx). destruct x; try discriminate Hn; reflexivity.
Qed.
Lemma qualified_plain q : qualified_name q -> forallb string_char q = true.
Proof.
  intros (l & _ & F & ->). induction l as [|x l IH]; [reflexivity|]. inversion F; subst. destruct l as [|y l]; [apply identifier_plain; assumption|].
  change (join (x :: y :: l)) with (x ++ bs "::" ++ join (y :: l)). rewrite !forallb_app. rewrite identifier_plain, IH by assumption. reflexivity.
Qed.
Lemma string_no_newline s : forallb string_char s = true -> no_newline s.
Proof.
  unfold no_newline. rewrite !forallb_forall. intros H x Hx. specialize (H _ Hx). unfold string_char in H. apply andb_true_iff in H. apply H.
Qed.

Lemma inert_qtoks l : Forall inert (qtoks l).
Proof.
  induction l as [|x l IH]; [constructor|]. destruct l as [|y l]; [repeat constructor|].
  change (qtoks (x :: y :: l)) with (Id x :: Punct (bs "::") :: qtoks (y :: l)). repeat constructor. exact IH.
Qed.
Lemma inert_word s : inert (word s). Proof. unfold word. destruct (keyword s); exact I. Qed.
Lemma inert_begin b : type_char b = true -> Forall inert (snd (begin_token b)).
Proof.
  intros H. unfold begin_token. destruct (letter b) eqn:L; [constructor|]. destruct (digit b) eqn:D; [constructor|].
  unfold type_char in H. rewrite L, D in H. cbn [orb] in H. destruct b; try discriminate H; cbn; repeat constructor; discriminate.
Qed.
Lemma inert_step p b : tstate p -> type_char b = true -> Forall inert (snd (lex_char p b)).
Proof.
  intros T H. pose proof (inert_begin b H) as IB. destruct p as [|acc|acc|a| |acc|]; cbn [lex_char tstate] in *; try contradiction.
  - exact IB.
  - destruct (letter b || digit b); [constructor|]. cbn [emit snd]. constructor; [apply inert_word|exact IB].
  - destruct (letter b || digit b); [constructor|]. cbn [emit snd]. constructor; [exact I|exact IB].
  - destruct (pair_of a b) eqn:P; [repeat constructor|]. destruct T as [-> | [-> | ->]];
    change (beqb Byte.x3a Byte.x2f) with false; change (beqb Byte.x3c Byte.x2f) with false; change (beqb Byte.x3e Byte.x2f) with false;
    cbn [andb emit snd]; (constructor; [cbn; repeat split; discriminate|exact IB]).
Qed.
Lemma inert_text s : forall p, tstate p -> forallb type_char s = true -> Forall inert (snd (lex_text p s)).
Proof.
  induction s as [|b s IH]; cbn [forallb]; intros p T H; [constructor|]. apply andb_true_iff in H. destruct H as [Hb Hs].
  rewrite lex_cons. cbn [prepend snd]. apply Forall_app. split; [apply inert_step; assumption|]. apply IH; [apply tstate_step; assumption|exact Hs].
Qed.
Lemma inert_type s : type_name s -> Forall inert (ttoks s).
Proof.
  intros [_ H]. pose proof (tstate_text s PNone I H) as T. pose proof (inert_text s PNone I H) as F. unfold ttoks, tokens.
  destruct (lex_text PNone s) as [p ts]. cbn [fst snd] in *. destruct p as [|acc|acc|a| |acc|]; cbn [tstate] in T; try contradiction; try exact F;
  apply Forall_app; (split; [exact F|]); repeat constructor.
  - apply inert_word.
  - destruct T as [-> | [-> | ->]]; discriminate.
  - destruct T as [-> | [-> | ->]]; discriminate.
  - destruct T as [-> | [-> | ->]]; discriminate.
Qed.

(* ------------------------------------------------------------------ *)
(** * Symbolic execution of the lexer *)

Definition T (s : string) : list token := snd (lex_text PNone (bs s)).

(** after an opening angle bracket *)
Lemma lex_angle a ta s r : lex_text PNone a = (PSym Byte.x3c, ta) -> type_name s ->
  lex_text PNone (a ++ s ++ Byte.x3e :: r) = prepend (ta ++ Punct [Byte.x3c] :: ttoks s) (lex_text PNone (Byte.x3e :: r)).
Proof.
  intros E TN. rewrite lex_app, E. cbn [fst snd]. pose proof (lex_type s r TN) as Q. destruct TN as [H _]. destruct s as [|b s]; [destruct H|].
  change ((b :: s) ++ Byte.x3e :: r) with (b :: (s ++ Byte.x3e :: r)) in *. rewrite lex_cons.
  assert (L: lex_char (PSym Byte.x3c) b = emit (Punct [Byte.x3c]) (begin_token b)) by (destruct b; try discriminate H; reflexivity).
  rewrite L. rewrite lex_cons in Q. cbn [lex_char] in Q. cbn [emit fst snd].
  change (Punct [Byte.x3c] :: snd (begin_token b)) with ([Punct [Byte.x3c]] ++ snd (begin_token b)). rewrite <- prepend_app, Q, !prepend_app.
  rewrite <- app_assoc. reflexivity.
Qed.

(** one piece of text: constant, or one of the names *)
Ltac lexstep :=
  match goal with
  | |- context [lex_text PNone (bs ?x ++ ?n ++ nl ++ ?r)] => rewrite (lex_note (bs x) n r) by (first [reflexivity | assumption])
  | |- context [lex_text PNone (bs ?x ++ ?b ++ bs ?y ++ ?r)] =>
      change (lex_text PNone (bs x ++ b ++ bs y ++ r)) with (lex_text PNone (bs x ++ b ++ Byte.x3e :: (tl (bs y) ++ r)));
      erewrite (lex_angle (bs x) _ b) by (first [assumption | vm_compute; reflexivity]);
      change (Byte.x3e :: (tl (bs y) ++ r)) with (bs y ++ r)
  | |- context [lex_text PNone (bs ?x ++ ?r)] => rewrite (lex_fix (bs x) (T x)) by (vm_compute; reflexivity)
  | |- context [lex_text PNone (nl ++ ?r)] => rewrite (lex_fix nl []) by reflexivity; rewrite prepend_nil
  | |- context [lex_text PNone (quote ++ ?w ++ quote ++ ?r)] => rewrite (lex_string w r) by assumption
  | |- context [lex_text PNone (join ?l ++ ?r)] => rewrite (lex_qualified l r) by (first [assumption | reflexivity])
  | |- context [lex_text PNone (dec ?n ++ ?r)] => rewrite (lex_dec n r) by reflexivity
  | |- context [lex_text PNone (?n ++ ?r)] => rewrite (lex_name n r) by (first [assumption | reflexivity])
  end.
Ltac lexrun := let r := fresh "r" in intros r; rewrite <- ?app_assoc; repeat lexstep; rewrite ?prepend_app.

Lemma inertb_ok ts : forallb (fun t => match t with Punct [b] => negb (beqb b Byte.x3b || beqb b Byte.x7b || beqb b Byte.x7d) | _ => true end) ts = true -> Forall inert ts.
Proof.
  intros H. apply Forall_forall. rewrite forallb_forall in H. intros t Ht. specialize (H _ Ht). destruct t as [s|s|s|s|s]; try exact I.
  destruct s as [|b s]; [exact I|]. destruct s; [|exact I]. cbn. destruct b; try discriminate H; repeat split; discriminate.
Qed.

(* ------------------------------------------------------------------ *)
(** * Matching *)

Lemma beqb_refl' b : beqb b b = true. Proof. apply Byte.byte_dec_lb. reflexivity. Qed.
Lemma bytes_eqb_refl' s : bytes_eqb s s = true. Proof. induction s; cbn; [reflexivity|]. rewrite beqb_refl'. assumption. Qed.
Lemma token_eqb_refl t : token_eqb t t = true. Proof. destruct t; apply bytes_eqb_refl'. Qed.
Lemma tokens_eqb_refl ts : tokens_eqb ts ts = true. Proof. induction ts; cbn; [reflexivity|]. rewrite token_eqb_refl. assumption. Qed.

Definition no_hole (t : token) : bool := match hole_of t with Some _ => false | None => true end.
Lemma fits_pre p p' ts : forallb no_hole p = true -> fits (p ++ p') (p ++ ts) = fits p' ts.
Proof.
  induction p as [|t p IH]; cbn [forallb]; intros H; [reflexivity|]. apply andb_true_iff in H. destruct H as [Ht Hp].
  change ((t :: p) ++ p') with (t :: (p ++ p')). change ((t :: p) ++ ts) with (t :: (p ++ ts)). cbn [fits]. unfold no_hole in Ht.
  destruct (hole_of t); [discriminate|]. rewrite token_eqb_refl. apply IH, Hp.
Qed.
Lemma fits_same p : forallb no_hole p = true -> fits p p = Some [].
Proof. intros H. pose proof (fits_pre p [] [] H) as Q. rewrite !app_nil_r in Q. exact Q. Qed.

Definition hname : token := Punct [Byte.x24].
Definition hstring : token := Punct [Byte.x7e].
Definition hqual : token := Punct [Byte.x40].
Definition hany : token := Punct [Byte.x25].
Lemma fits_name p n ts : fits (hname :: p) (Id n :: ts) = option_map (cons [Id n]) (fits p ts). Proof. reflexivity. Qed.
Lemma fits_string p n ts : fits (hstring :: p) (Str n :: ts) = option_map (cons [Str n]) (fits p ts). Proof. reflexivity. Qed.
Definition no_colons (ts : list token) : bool := match ts with Punct c :: _ => negb (bytes_eqb c (bs "::")) | _ => true end.
Lemma qualified_qtoks l ts : l <> [] -> no_colons ts = true -> qualified (qtoks l ++ ts) = (qtoks l, ts).
Proof.
  intros NE NC. induction l as [|x l IH]; [congruence|]. destruct l as [|y l].
  - cbn [qtoks app qualified]. destruct ts as [|[s|s|s|s|s] ts]; try reflexivity. destruct ts as [|[s'|s'|s'|s'|s'] ts]; try reflexivity.
    cbn [no_colons] in NC. apply negb_true_iff in NC. rewrite NC. reflexivity.
  - change (qtoks (x :: y :: l)) with (Id x :: Punct (bs "::") :: qtoks (y :: l)). cbn [app]. specialize (IH ltac:(discriminate)).
    assert (Y: exists z, qtoks (y :: l) ++ ts = Id y :: z) by (destruct l; eexists; reflexivity). destruct Y as [z Y]. rewrite Y in *. cbn [qualified]. rewrite bytes_eqb_refl'.
    cbn [qualified] in IH. rewrite IH. reflexivity.
Qed.
Lemma fits_qualified p l ts : l <> [] -> no_colons ts = true -> fits (hqual :: p) (qtoks l ++ ts) = option_map (cons (qtoks l)) (fits p ts).
Proof.
  intros NE NC. cbn [fits hole_of hqual]. rewrite qualified_qtoks by assumption. destruct l as [|x [|y l]]; [congruence|reflexivity..].
Qed.
Lemma fits_any_last t x : no_hole t = true -> fits [hany; t] (x ++ [t]) = Some [x].
Proof.
  intros H. cbn [fits hole_of hany].
  assert (P: forall pre, (fix any (pre ts : list token) : option (list (list token)) :=
             match (match hole_of t with
                | Some HName => match ts with Id n :: ts' => option_map (cons [Id n]) (match ts' with [] => Some [] | _ => None end) | _ => None end
                | Some HString => match ts with Str s :: ts' => option_map (cons [Str s]) (match ts' with [] => Some [] | _ => None end) | _ => None end
                | Some HQualified => let (q, ts') := qualified ts in match q with [] => None | _ => option_map (cons q) (match ts' with [] => Some [] | _ => None end) end
                | Some HAny => (fix any0 (pre0 ts0 : list token) : option (list (list token)) :=
                     match match ts0 with [] => Some [] | _ => None end with
                     | Some r => Some (rev pre0 :: r)
                     | None => match ts0 with u :: ts' => any0 (u :: pre0) ts' | [] => None end
                     end) [] ts
                | None => match ts with u :: ts' => if token_eqb t u then match ts' with [] => Some [] | _ => None end else None | [] => None end
                end) with
             | Some r => Some (rev pre :: r)
             | None => match ts with u :: ts' => any (u :: pre) ts' | [] => None end
             end) pre (x ++ [t]) = Some [rev pre ++ x]).
  { unfold no_hole in H. destruct (hole_of t); [discriminate|]. induction x as [|u x IH]; intros pre.
    - cbn [app]. rewrite token_eqb_refl, app_nil_r. reflexivity.
    - cbn [app]. assert (N: match x ++ [t] with [] => Some (@nil (list token)) | _ :: _ => None end = None) by (destruct x; reflexivity).
      rewrite N. destruct (token_eqb t u); rewrite IH; cbn [rev]; rewrite <- app_assoc; reflexivity. }
  apply P.
Qed.
Lemma fits_any_end x : fits [hany] x = Some [x].
Proof.
  cbn [fits hole_of hany].
  assert (P: forall pre, (fix any (pre ts : list token) : option (list (list token)) :=
             match match ts with [] => Some [] | _ :: _ => None end with
             | Some r => Some (rev pre :: r)
             | None => match ts with u :: ts' => any (u :: pre) ts' | [] => None end
             end) pre x = Some [rev pre ++ x]).
  { induction x as [|u x IH]; intros pre; [rewrite app_nil_r; reflexivity|]. rewrite IH. cbn [rev]. rewrite <- app_assoc. reflexivity. }
  apply P.
Qed.

Lemma choose_miss {A} p (f : list (list token) -> option A) l ts : fits (pat p) ts = None -> choose ((p, f) :: l) ts = choose l ts.
Proof. intros H. cbn [choose]. rewrite H. reflexivity. Qed.
Lemma choose_hit {A} p (f : list (list token) -> option A) l ts c : fits (pat p) ts = Some c -> choose ((p, f) :: l) ts = f c.
Proof. intros H. cbn [choose]. rewrite H. reflexivity. Qed.
(** patterns which do not match are recognised by their first tokens *)
Ltac misses := repeat (rewrite choose_miss by reflexivity).
Ltac fitall :=
  repeat first
    [ rewrite fits_pre by reflexivity
    | rewrite fits_name | rewrite fits_string
    | rewrite fits_qualified by (first [assumption | reflexivity])
    | rewrite fits_any_last by reflexivity
    | rewrite fits_same by reflexivity ]; try reflexivity.

Ltac inerts := repeat (apply Forall_app; split); repeat (apply Forall_cons; [exact I|]);
  first [apply inert_qtoks | apply inert_type; assumption | apply Forall_nil | apply inertb_ok; reflexivity].

(* ------------------------------------------------------------------ *)
(** * Lines of the binary functions *)

Definition stmt_text (s : bytes) (st : bstmt) : Prop := exists ts, chunk s [Simple ts] /\ bstatement ts = Some st.

Lemma w_base q : qualified_name q -> stmt_text (wtext (LBase q)) (WriteBase q).
Proof.
  intros (l & NE & F & ->). exists (T "serializer.write(static_cast<const ::" ++ qtoks l ++ T " &>(customObject), version)"). split.
  - apply chunk_simple; [|inerts]. cbn [wtext]. lexrun. rewrite <- !app_assoc. reflexivity.
  - unfold bstatement. erewrite choose_hit.
    2: { change (pat "serializer.write(static_cast<const ::@ &>(customObject), version)")
           with (T "serializer.write(static_cast<const ::" ++ hqual :: T " &>(customObject), version)"). fitall. }
    cbn [one]. rewrite spell_qtoks. reflexivity.
Qed.
Ltac by_pieces p := change p; fitall.

Lemma spell_one_id n : spell [Id n] = n. Proof. unfold spell. cbn. apply app_nil_r. Qed.
Lemma spell_one_str n : spell [Str n] = n. Proof. unfold spell. cbn. apply app_nil_r. Qed.

Lemma w_member n t : identifier n -> stmt_text (wtext (LMember n t)) (WriteMember n).
Proof.
  intros H. exists (T "serializer.write(customObject." ++ Id n :: T ", version)"). split.
  - apply chunk_simple; [|inerts]. cbn [wtext]. lexrun. rewrite <- !app_assoc. reflexivity.
  - unfold bstatement. misses. erewrite choose_hit.
    2: { change (pat "serializer.write(customObject.$, version)") with (T "serializer.write(customObject." ++ hname :: T ", version)"). fitall. }
    cbn [one]. rewrite spell_one_id. reflexivity.
Qed.
Lemma r_base cls q : qualified_name q -> stmt_text (rtext cls (LBase q)) (ReadBase q).
Proof.
  intros (l & NE & F & ->). exists (T "deserializer.read(static_cast<::" ++ qtoks l ++ T " &>(customObject), version)"). split.
  - apply chunk_simple; [|inerts]. cbn [rtext]. lexrun. rewrite <- !app_assoc. reflexivity.
  - unfold bstatement. misses. erewrite choose_hit.
    2: { change (pat "deserializer.read(static_cast<::@ &>(customObject), version)")
           with (T "deserializer.read(static_cast<::" ++ hqual :: T " &>(customObject), version)"). fitall. }
    cbn [one]. rewrite spell_qtoks. reflexivity.
Qed.
Lemma r_member cls n t : identifier n -> stmt_text (rtext cls (LMember n t)) (ReadMember n).
Proof.
  intros H. exists (T "deserializer.read(customObject." ++ Id n :: T ", version)"). split.
  - apply chunk_simple; [|inerts]. cbn [rtext]. lexrun. rewrite <- !app_assoc. reflexivity.
  - unfold bstatement. misses. erewrite choose_hit.
    2: { change (pat "deserializer.read(customObject.$, version)") with (T "deserializer.read(customObject." ++ hname :: T ", version)"). fitall. }
    cbn [one]. rewrite spell_one_id. reflexivity.
Qed.
Definition using_toks : list token := T "using V = Versioning " ++ [Punct [Byte.x3c]].
Lemma using_text b : type_name b -> stmt_text (bs "    using V = Versioning<" ++ b ++ bs ">;" ++ nl) (UsingVersioning (ttoks b)).
Proof.
  intros H. exists (using_toks ++ ttoks b ++ [Punct [Byte.x3e]]). split.
  - apply chunk_simple.
    + lexrun. rewrite <- !app_assoc. reflexivity.
    + repeat (apply Forall_app; split); try (apply inertb_ok; reflexivity). apply inert_type, H.
  - unfold bstatement. misses. erewrite choose_hit.
    2: { change (pat "using V = Versioning<%>") with (using_toks ++ [hany; Punct [Byte.x3e]]). fitall. }
    reflexivity.
Qed.
Lemma const_stmt s st ts : lex_text PNone s = (PNone, ts ++ [Punct [Byte.x3b]]) -> forallb (fun t => match t with Punct [b] => negb (beqb b Byte.x3b || beqb b Byte.x7b || beqb b Byte.x7d) | _ => true end) ts = true ->
  bstatement ts = Some st -> stmt_text s st.
Proof. intros L I B. exists ts. split; [|exact B]. apply chunk_simple; [apply lexed_const, L|apply inertb_ok, I]. Qed.
Ltac const_stmt := match goal with |- stmt_text ?s _ =>
  let r := eval vm_compute in (snd (lex_text PNone s)) in
  let ts := eval vm_compute in (removelast r) in apply (const_stmt _ _ ts); vm_compute; reflexivity end.

Lemma w_version_stmt : stmt_text (bs "        serializer.writeVariableLengthUIntBE(V::applyDefault(version));" ++ nl) WriteVersion.
Proof. const_stmt. Qed.
Lemma r_version_stmt cls : qualified_name cls ->
  stmt_text (bs "        V::assertVersion(version = deserializer.readVariableLengthUIntBE(), " ++ quote ++ cls ++ quote ++ bs ");" ++ nl) (ReadVersion cls).
Proof.
  intros H. apply qualified_plain in H. exists (T "V::assertVersion(version = deserializer.readVariableLengthUIntBE(), " ++ Str cls :: T ")"). split.
  - apply chunk_simple; [|inerts]. lexrun. rewrite <- !app_assoc. reflexivity.
  - unfold bstatement. misses. erewrite choose_hit.
    2: { change (pat "V::assertVersion(version = deserializer.readVariableLengthUIntBE(), ~)")
           with (T "V::assertVersion(version = deserializer.readVariableLengthUIntBE(), " ++ hstring :: T ")"). fitall. }
    cbn [one]. rewrite spell_one_str. reflexivity.
Qed.

Lemma opens_const s ts : lex_text PNone s = (PNone, ts ++ [Punct [Byte.x7b]]) -> forallb (fun t => match t with Punct [b] => negb (beqb b Byte.x3b || beqb b Byte.x7b || beqb b Byte.x7d) | _ => true end) ts = true -> opens s ts.
Proof. intros L I. apply opens_head; [apply lexed_const, L|apply inertb_ok, I]. Qed.

Definition h_enabled : list token := pat "if constexpr (V::enabled)".
Lemma opens_enabled : opens (bs "    if constexpr (V::enabled) {" ++ nl) h_enabled.
Proof. apply opens_const; reflexivity. Qed.
Lemma closes_brace_nl : closes (bs "    }" ++ nl). Proof. apply closes_brace, lexed_const. reflexivity. Qed.

(** the version block *)
Definition version_text (s b : bytes) (st : bstmt) : Prop := exists t1 t2,
  chunk s [Simple t1; Block h_enabled [Simple t2]] /\ bstatement t1 = Some (UsingVersioning (ttoks b)) /\ bstatement t2 = Some st.
Lemma w_version b : type_name b -> version_text (wtext (LVersion b)) b WriteVersion.
Proof.
  intros H. destruct (using_text b H) as (t1 & C1 & B1). destruct w_version_stmt as (t2 & C2 & B2). exists t1, t2. split; [|auto]. cbn [wtext].
  replace (bs "    using V = Versioning<" ++ b ++ bs ">;" ++ nl ++ _) with
    ((bs "    using V = Versioning<" ++ b ++ bs ">;" ++ nl) ++ ((bs "    if constexpr (V::enabled) {" ++ nl)
      ++ (bs "        serializer.writeVariableLengthUIntBE(V::applyDefault(version));" ++ nl) ++ (bs "    }" ++ nl))) by (rewrite <- !app_assoc; reflexivity).
  apply (chunk_app _ _ [Simple t1]); [exact C1|]. apply chunk_block; [apply opens_enabled|exact C2|apply closes_brace_nl].
Qed.
Lemma r_version cls b : qualified_name cls -> type_name b -> version_text (rtext cls (LVersion b)) b (ReadVersion cls).
Proof.
  intros Q H. destruct (using_text b H) as (t1 & C1 & B1). destruct (r_version_stmt cls Q) as (t2 & C2 & B2). exists t1, t2. split; [|auto]. cbn [rtext].
  replace (bs "    using V = Versioning<" ++ b ++ bs ">;" ++ nl ++ _) with
    ((bs "    using V = Versioning<" ++ b ++ bs ">;" ++ nl) ++ ((bs "    if constexpr (V::enabled) {" ++ nl)
      ++ (bs "        V::assertVersion(version = deserializer.readVariableLengthUIntBE(), " ++ quote ++ cls ++ quote ++ bs ");" ++ nl) ++ (bs "    }" ++ nl))) by (rewrite <- !app_assoc; reflexivity).
  apply (chunk_app _ _ [Simple t1]); [exact C1|]. apply chunk_block; [apply opens_enabled|exact C2|apply closes_brace_nl].
Qed.

(** conditions *)
Definition cond_toks (a u : N) : list token :=
  (if a =? 0 then [] else [Id (bs "version"); Punct (bs ">="); Num (dec a)] ++ (if u =? 0 then [] else [Punct (bs "&&")]))
  ++ (if u =? 0 then [] else [Id (bs "version"); Punct (bs "<="); Num (dec u)]).
Definition h_cond (a u : N) : list token := T "if (" ++ cond_toks a u ++ [Punct [Byte.x29]].
Lemma opens_cond a u : opens (wtext (LIf a u)) (h_cond a u).
Proof.
  apply opens_head.
  - cbn [wtext]. unfold h_cond, cond_toks. destruct (a =? 0), (u =? 0); rewrite ?app_nil_r, ?app_nil_l; lexrun; rewrite <- ?app_assoc; reflexivity.
  - unfold h_cond, cond_toks. destruct (a =? 0), (u =? 0); cbn [app]; repeat (apply Forall_app; split); try (apply inertb_ok; reflexivity).
Qed.
Lemma comparisons_cond a u ver : (a =? 0) && (u =? 0) = false -> a < 2 ^ 63 -> u < 2 ^ 63 -> comparisons ver (cond_toks a u) = Some (condition a u ver).
Proof.
  intros NZ HA HU. unfold cond_toks, condition. destruct (a =? 0), (u =? 0); try discriminate NZ; cbn [app comparisons]; rewrite bytes_eqb_refl';
  rewrite ?literal_dec by assumption.
  - reflexivity.
  - change (compare (bs ">=") ver a) with (Some (a <=? ver)). cbv iota. rewrite andb_true_r. reflexivity.
  - change (compare (bs ">=") ver a) with (Some (a <=? ver)). change (compare (bs "<=") ver u) with (Some (ver <=? u)). cbv iota. rewrite !bytes_eqb_refl'. cbv iota. reflexivity.
Qed.
Lemma guard_cond vmax a u V ver : (a =? 0) && (u =? 0) = false -> a < 2 ^ 63 -> u < 2 ^ 63 -> guard vmax (h_cond a u) V ver = Some (condition a u ver).
Proof.
  intros NZ HA HU. unfold guard. replace (fits (pat "if constexpr (V::enabled)") (h_cond a u)) with (@None (list (list token))) by reflexivity.
  replace (fits (pat "if (%)") (h_cond a u)) with (Some [cond_toks a u]); [apply comparisons_cond; assumption|].
  unfold h_cond. change (pat "if (%)") with (T "if (" ++ [hany; Punct [Byte.x29]]). rewrite fits_pre by reflexivity. rewrite fits_any_last by reflexivity. reflexivity.
Qed.
Lemma guard_enabled vmax T' ver : guard vmax h_enabled (Some T') ver = Some (enabled vmax T'). Proof. reflexivity. Qed.

Lemma silent_note s : no_newline s -> chunk (wtext (LNote s)) [].
Proof. intros H. apply chunk_silent. cbn [wtext]. apply lexed_note; [reflexivity|exact H]. Qed.
Lemma silent_pad : chunk (wtext LPad) []. Proof. apply chunk_silent, lexed_const. reflexivity. Qed.
Lemma return_text : stmt_text (wtext LReturn) ReturnVersion. Proof. cbn [wtext]. const_stmt. Qed.

Lemma w_void : exists t1 t2 t3, chunk (wtext LVoid) [Simple t1; Simple t2; Simple t3] /\ bstatement t1 = Some (Discard (bs "serializer"))
  /\ bstatement t2 = Some (Discard (bs "customObject")) /\ bstatement t3 = Some (Discard (bs "version")).
Proof.
  assert (H1: stmt_text (bs "    (void)serializer;" ++ nl) (Discard (bs "serializer"))) by const_stmt.
  assert (H2: stmt_text (bs "    (void)customObject;" ++ nl) (Discard (bs "customObject"))) by const_stmt.
  assert (H3: stmt_text (bs "    " ++ nl ++ bs "(void)version;") (Discard (bs "version"))) by const_stmt.
  destruct H1 as (t1 & C1 & B1), H2 as (t2 & C2 & B2), H3 as (t3 & C3 & B3). exists t1, t2, t3. split; [|auto].
  change (wtext LVoid) with ((bs "    (void)serializer;" ++ nl) ++ (bs "    (void)customObject;" ++ nl) ++ (bs "    " ++ nl ++ bs "(void)version;")).
  apply (chunk_app _ _ [Simple t1]); [exact C1|]. apply (chunk_app _ _ [Simple t2] [Simple t3]); assumption.
Qed.
Lemma r_void cls : exists t1 t2, chunk (rtext cls LVoid) [Simple t1; Simple t2] /\ bstatement t1 = Some (Discard (bs "deserializer"))
  /\ bstatement t2 = Some (Discard (bs "customObject")).
Proof.
  assert (H1: stmt_text (bs "    (void)deserializer;" ++ nl) (Discard (bs "deserializer"))) by const_stmt.
  assert (H2: stmt_text (bs "    (void)customObject;" ++ nl) (Discard (bs "customObject"))) by const_stmt.
  destruct H1 as (t1 & C1 & B1), H2 as (t2 & C2 & B2). exists t1, t2. split; [|auto].
  change (rtext cls LVoid) with ((bs "    (void)deserializer;" ++ nl) ++ (bs "    (void)customObject;" ++ nl)).
  apply (chunk_app _ _ [Simple t1] [Simple t2]); assumption.
Qed.
