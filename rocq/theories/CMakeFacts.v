(** CMakeFacts.v -- lemmas about CMakeModel *)
From Coq Require Import String List NArith ZArith Bool Lia.
From Verif Require Import Base BaseFacts Types GenModel ToolModel ToolFacts CMakeModel CMakeSpec.
Import ListNotations.
Local Open Scope list_scope.
Local Open Scope N_scope.

Lemma beqb_eq a b : beqb a b = true <-> a = b.
Proof. split; [apply Byte.byte_dec_bl|apply Byte.byte_dec_lb]. Qed.
Lemma beqb_neq a b : beqb a b = false <-> a <> b.
Proof. rewrite <- beqb_eq. destruct (beqb a b); split; congruence. Qed.

(* ------------------------------------------------------------------ *)
(** * Lists *)
Section Lists.
Context {A : Type} (sym : A -> Byte.byte) (sc : A).
Hypothesis sym_sc : sym sc = semicolon.

Definition splain (s : list A) : Prop := Forall (fun c => ~ In (sym c) [Byte.x3b; Byte.x5b; Byte.x5d; Byte.x5c]) s.

Lemma split_plain s : splain s -> forall cur rest, split_list sym 0 cur (s ++ rest) = split_list sym 0 (cur ++ s) rest.
Proof.
  induction 1 as [|c s C F IH]; intros cur rest; [rewrite app_nil_r; reflexivity|].
  cbn [app split_list]. 
  replace (beqb (sym c) Byte.x5c) with false by (symmetry; apply beqb_neq; intros E; apply C; rewrite E; cbn; auto).
  replace (beqb (sym c) Byte.x5b) with false by (symmetry; apply beqb_neq; intros E; apply C; rewrite E; cbn; auto).
  replace (beqb (sym c) Byte.x5d) with false by (symmetry; apply beqb_neq; intros E; apply C; rewrite E; cbn; auto).
  replace (beqb (sym c) semicolon) with false by (symmetry; apply beqb_neq; intros E; apply C; rewrite E; cbn; auto).
  cbn [andb]. rewrite IH, <- app_assoc. reflexivity.
Qed.

Lemma split_join l : l <> [] -> Forall splain l -> split_list sym 0 [] (join [sc] l) = l.
Proof.
  induction l as [|x l IH]; [congruence|]. intros _ F. inversion F as [|? ? Hx Hl]; subst. destruct l as [|y l].
  - cbn [join]. rewrite <- (app_nil_r x) at 1. rewrite split_plain by exact Hx. reflexivity.
  - change (join [sc] (x :: y :: l)) with (x ++ sc :: join [sc] (y :: l)). rewrite split_plain by exact Hx.
    cbn [split_list]. rewrite sym_sc. cbn [beqb]. change (beqb semicolon Byte.x5c) with false. change (beqb semicolon Byte.x5b) with false.
    change (beqb semicolon Byte.x5d) with false. change (beqb semicolon semicolon && (0 =? 0)%Z) with true. cbn [app]. f_equal. apply IH; [discriminate|exact Hl].
Qed.

Definition good_elems (l : list (list A)) : Prop := Forall (fun s => s <> [] /\ splain s) l.

Lemma good_filter l : good_elems l -> filter nonempty l = l.
Proof. induction 1 as [|s l [N _] _ IH]; [reflexivity|]. cbn [filter]. destruct s; [congruence|]. cbn [nonempty]. f_equal. exact IH. Qed.

Lemma expand_join l : good_elems l -> expand sym (join [sc] l) = l.
Proof.
  intros G. destruct l as [|x l]; [reflexivity|]. unfold expand. rewrite split_join; [apply good_filter, G|discriminate|].
  eapply Forall_impl; [|exact G]. intros ? [_ H]; exact H.
Qed.

Lemma join_app glue (l m : list (list A)) : l <> [] -> m <> [] -> join glue (l ++ m) = join glue l ++ glue ++ join glue m.
Proof.
  intros Hl Hm. induction l as [|x l IH]; [congruence|]. destruct l as [|y l].
  - cbn [app]. destruct m as [|z m]; [congruence|]. reflexivity.
  - change ((x :: y :: l) ++ m) with (x :: (y :: l) ++ m). 
    change (join glue (x :: (y :: l) ++ m)) with (x ++ glue ++ join glue ((y :: l) ++ m)). rewrite IH by discriminate.
    change (join glue (x :: y :: l)) with (x ++ glue ++ join glue (y :: l)). rewrite <- !app_assoc. reflexivity.
Qed.

Lemma join_nil glue (l : list (list A)) : glue <> [] -> good_elems l -> join glue l = [] -> l = [].
Proof.
  intros G F E. destruct F as [|x l [N _] F]; [reflexivity|]. destruct l; cbn [join] in E; [congruence|].
  apply app_eq_nil in E. destruct E; congruence.
Qed.

Lemma append_join l m : good_elems l -> list_append [sc] (join [sc] l) m = join [sc] (l ++ m).
Proof.
  intros G. destruct m as [|y m]; [rewrite app_nil_r; reflexivity|]. unfold list_append. destruct (join [sc] l) as [|c s] eqn:E.
  - apply join_nil in E; [|discriminate|exact G]. subst l. reflexivity.
  - rewrite <- E. symmetry. apply join_app; [|discriminate]. intros ->. discriminate E.
Qed.

Lemma append_fold {B} (f : B -> list (list A)) (bs : list B) : (forall b, In b bs -> good_elems (f b)) -> forall l, good_elems l ->
  fold_left (fun s b => list_append [sc] s (f b)) bs (join [sc] l) = join [sc] (l ++ flat_map f bs).
Proof.
  induction bs as [|b bs IH]; intros Hf l G; cbn [fold_left flat_map]; [rewrite app_nil_r; reflexivity|].
  rewrite append_join by exact G. rewrite IH; [|intros; apply Hf; right; assumption|apply Forall_app; split; [exact G|apply Hf; left; reflexivity]]. rewrite <- app_assoc. reflexivity.
Qed.
Lemma append_each (os : list (list A)) : good_elems os -> forall l, good_elems l ->
  fold_left (fun s o => list_append [sc] s [o]) os (join [sc] l) = join [sc] (l ++ os).
Proof.
  induction 1 as [|o os Ho H IH]; intros l G; cbn [fold_left]; [rewrite app_nil_r; reflexivity|].
  rewrite append_join by exact G. rewrite IH by (apply Forall_app; split; [exact G|constructor; [exact Ho|constructor]]). rewrite <- app_assoc. reflexivity.
Qed.
Lemma append_each_fold {B} (f : B -> list (list A)) (bs : list B) : (forall b, good_elems (f b)) -> forall l, good_elems l ->
  fold_left (fun s b => fold_left (fun s o => list_append [sc] s [o]) (f b) s) bs (join [sc] l) = join [sc] (l ++ flat_map f bs).
Proof.
  intros Hf. induction bs as [|b bs IH]; intros l G; cbn [fold_left flat_map]; [rewrite app_nil_r; reflexivity|].
  rewrite append_each by (auto). rewrite IH by (apply Forall_app; split; [exact G|apply Hf]). rewrite <- app_assoc. reflexivity.
Qed.
End Lists.

Lemma plain_good l : Forall plain l -> good_elems idb l.
Proof. intros F. eapply Forall_impl; [|exact F]. intros s [N P]. split; [exact N|exact P]. Qed.
Lemma expand_plain l : Forall plain l -> expand idb (join semi l) = l.
Proof. intros F. apply expand_join; [reflexivity|apply plain_good, F]. Qed.
Lemma lit_plain s : plain s -> lit s <> [] /\ splain chb (lit s).
Proof.
  intros [N P]. split; [destruct s; [congruence|discriminate]|]. unfold splain, lit. rewrite Forall_map. exact P.
Qed.
Lemma lits_plain l : Forall plain l -> good_elems chb (map lit l).
Proof. intros F. unfold good_elems. rewrite Forall_map. eapply Forall_impl; [|exact F]. apply lit_plain. Qed.
Lemma lit_join l : lit (join semi l) = join chsemi (map lit l).
Proof.
  induction l as [|x l IH]; [reflexivity|]. destruct l as [|y l]; [reflexivity|].
  change (join semi (x :: y :: l)) with (x ++ semi ++ join semi (y :: l)). 
  change (join chsemi (map lit (x :: y :: l))) with (lit x ++ chsemi ++ join chsemi (map lit (y :: l))). rewrite <- IH.
  unfold lit. rewrite !map_app. reflexivity.
Qed.
Lemma joined_join l : joined l = join semi l.
Proof. induction l as [|x l IH]; [reflexivity|]. destruct l as [|y l]; [reflexivity|]. change (joined (x :: y :: l)) with (x ++ semicolon :: joined (y :: l)). rewrite IH. reflexivity. Qed.

(* ------------------------------------------------------------------ *)
(** * Conditions *)
Lemma is_off_spec s : is_off s = true <-> off s.
Proof.
  unfold off, is_off. destruct s as [|b s]; [split; auto|]. rewrite !orb_true_iff, existsb_exists, !bytes_eqb_eq. split.
  - intros [[(w & I & E)|E]|E].
    + right; left. apply bytes_eqb_eq in E. rewrite E. exact I.
    + right; right; left. exact E.
    + right; right; right. exists (firstn (List.length (b :: s) - 9) (b :: s)). rewrite <- E. symmetry. apply firstn_skipn.
  - intros [E|[I|[E|[p E]]]]; [discriminate|left; left; eexists; split; [exact I|apply bytes_eqb_refl]|left; right; exact E|].
    right. rewrite E. rewrite app_length. change (List.length (bs "-NOTFOUND")) with 9%nat. rewrite Nat.add_sub.
    rewrite skipn_app, skipn_all, Nat.sub_diag. reflexivity.
Qed.
Lemma not_off s : ~ off s -> is_off s = false.
Proof. intros H. destruct (is_off s) eqn:E; [|reflexivity]. apply is_off_spec in E. contradiction. Qed.
Lemma if_foreach_plain l : Forall plain l -> l = [] \/ ~ off (joined l) -> if_foreach (join semi l) = l.
Proof.
  intros P [->|N]; [reflexivity|]. unfold if_foreach. rewrite joined_join in N. rewrite not_off by exact N. apply expand_plain, P.
Qed.

(* ------------------------------------------------------------------ *)
(** * Arguments of the function *)
Lemma lookup_keywords a : lookup keywords a =
  if existsb (bytes_eqb a) flag_words then Some Flag else if existsb (bytes_eqb a) single_words then Some Single
  else if existsb (bytes_eqb a) multi_words then Some Multi else None.
Proof.
  unfold keywords, flag_words, single_words, multi_words. cbn [lookup existsb map].
  repeat match goal with
  | |- context [bytes_eqb (bs ?k) a] => 
      replace (bytes_eqb (bs k) a) with (bytes_eqb a (bs k)) by
        (destruct (bytes_eqb a (bs k)) eqn:E; symmetry; [apply bytes_eqb_eq in E; subst a; apply bytes_eqb_refl|apply bytes_eqb_neq; apply bytes_eqb_neq in E; congruence])
  end.
  repeat match goal with |- context [if bytes_eqb a ?k then _ else _] => destruct (bytes_eqb a k); cbn [orb]; try reflexivity end.
Qed.
Lemma existsb_in a l : existsb (bytes_eqb a) l = true <-> In a l.
Proof. rewrite existsb_exists. split; [intros (x & I & E); apply bytes_eqb_eq in E; subst; exact I|intros I; exists a; split; [exact I|apply bytes_eqb_refl]]. Qed.
Lemma lookup_value v : value v -> lookup keywords v = None.
Proof.
  intros [_ N]. rewrite lookup_keywords. rewrite !in_app_iff in N. 
  destruct (existsb (bytes_eqb v) flag_words) eqn:E1; [apply existsb_in in E1; tauto|].
  destruct (existsb (bytes_eqb v) single_words) eqn:E2; [apply existsb_in in E2; tauto|].
  destruct (existsb (bytes_eqb v) multi_words) eqn:E3; [apply existsb_in in E3; tauto|]. reflexivity.
Qed.
Lemma lookup_flag k : In k flag_words -> lookup keywords k = Some Flag.
Proof. intros [<-|[]]. reflexivity. Qed.
Lemma lookup_single k : In k single_words -> lookup keywords k = Some Single.
Proof. intros [<-|[<-|[<-|[]]]]; reflexivity. Qed.
Lemma lookup_multi k : In k multi_words -> lookup keywords k = Some Multi.
Proof. intros [<-|[<-|[<-|[<-|[<-|[<-|[<-|[]]]]]]]]; reflexivity. Qed.

Lemma parse_multi k vs : Forall value vs -> forall st rest, exists st',
  parse_arguments (Some (k, Multi)) st (vs ++ rest) = parse_arguments (Some (k, Multi)) st' rest
  /\ (forall n, st' n = if bytes_eqb n k then st n ++ vs else st n).
Proof.
  induction 1 as [|v vs V F IH]; intros st rest.
  - exists st. split; [reflexivity|]. intros n. destruct (bytes_eqb n k); [rewrite app_nil_r|]; reflexivity.
  - cbn [app parse_arguments]. rewrite (lookup_value v V). destruct (IH (put st k (st k ++ [v])) rest) as (st' & E & H).
    exists st'. split; [exact E|]. intros n. rewrite H. unfold put. destruct (bytes_eqb n k) eqn:E1; [|reflexivity].
    apply bytes_eqb_eq in E1. subst n. rewrite <- app_assoc. reflexivity.
Qed.

Lemma parse_call call : Forall group call -> NoDup (map fst call) -> forall cur st, (forall k, In k (map fst call) -> st k = []) ->
  forall n, parse_arguments cur st (written call) n =
    if existsb (fun g => bytes_eqb (fst g) n) call
    then if existsb (bytes_eqb n) flag_words then [bs "TRUE"] else flat_map (fun g => if bytes_eqb (fst g) n then snd g else []) call
    else st n.
Proof.
  induction 1 as [|g call G F IH]; intros ND cur st E0 n; [reflexivity|]. inversion ND as [|? ? NI ND']; subst.
  assert (NG: forall m, m = fst g -> flat_map (fun g => if bytes_eqb (fst g) m then snd g else []) call = []
              /\ existsb (fun g => bytes_eqb (fst g) m) call = false).
  { intros m ->. clear - NI. induction call as [|h call IH]; [split; reflexivity|]. cbn [map In] in NI. cbn [flat_map existsb].
    replace (bytes_eqb (fst h) (fst g)) with false by (symmetry; apply bytes_eqb_neq; intros E; apply NI; left; exact E).
    apply IH. intros I; apply NI; right; exact I. }
  assert (KEY: forall st1, (forall k, In k (map fst call) -> st1 k = []) -> forall cur1 r,
            (if bytes_eqb (fst g) n then st1 n = r else st1 n = st n) ->
            (bytes_eqb (fst g) n = true -> r = if existsb (bytes_eqb n) flag_words then [bs "TRUE"] else snd g) ->
            parse_arguments cur1 st1 (written call) n = 
            (if existsb (fun g => bytes_eqb (fst g) n) (g :: call)
             then if existsb (bytes_eqb n) flag_words then [bs "TRUE"] else flat_map (fun g => if bytes_eqb (fst g) n then snd g else []) (g :: call)
             else st n)).
  { intros st1 E1 cur1 r H1 Hr. rewrite (IH ND' cur1 st1 E1 n). cbn [existsb flat_map].
    destruct (bytes_eqb (fst g) n) eqn:EK; cbn [orb].
    - apply bytes_eqb_eq in EK. destruct (NG n (eq_sym EK)) as [-> ->]. rewrite H1, app_nil_r. apply Hr. reflexivity.
    - destruct (existsb (fun g => bytes_eqb (fst g) n) call); [reflexivity|exact H1]. }
  assert (SYM: forall k, bytes_eqb n k = bytes_eqb k n).
  { intros k. destruct (bytes_eqb k n) eqn:E; [apply bytes_eqb_eq in E; subst; apply bytes_eqb_refl|apply bytes_eqb_neq in E; apply bytes_eqb_neq; congruence]. }
  assert (PUT: forall k vs, k = fst g -> forall m, In m (map fst call) -> put st k vs m = []).
  { intros k vs -> m Hm. unfold put. destruct (bytes_eqb m (fst g)) eqn:E; [apply bytes_eqb_eq in E; subst; contradiction|]. apply E0. right; exact Hm. }
  change (written (g :: call)) with ((fst g :: snd g) ++ written call).
  inversion G as [k Hk E|k v Hk Hv E|k vs Hk Hv E]; subst g; cbn [fst snd app parse_arguments] in *.
  - rewrite lookup_flag by exact Hk. apply (KEY _ (PUT k _ eq_refl) None [bs "TRUE"]).
    + unfold put. rewrite SYM. destruct (bytes_eqb k n) eqn:EK; reflexivity.
    + intros EK. apply bytes_eqb_eq in EK. subst n. replace (existsb (bytes_eqb k) flag_words) with true by (symmetry; apply existsb_in, Hk). reflexivity.
  - rewrite lookup_single by exact Hk. cbn [parse_arguments]. rewrite lookup_value by exact Hv. apply (KEY _ (PUT k _ eq_refl) None [v]).
    + unfold put. rewrite SYM. destruct (bytes_eqb k n); reflexivity.
    + intros EK. apply bytes_eqb_eq in EK. subst n. destruct Hk as [<-|[<-|[<-|[]]]]; reflexivity.
  - rewrite lookup_multi by exact Hk. destruct (parse_multi k vs Hv st (written call)) as (st' & EP & H'). rewrite EP.
    apply (KEY st') with (r := vs).
    + intros m Hm. rewrite H'. destruct (bytes_eqb m k) eqn:E; [apply bytes_eqb_eq in E; subst; contradiction|]. apply E0; right; exact Hm.
    + rewrite H', SYM. destruct (bytes_eqb k n) eqn:EK; [|reflexivity]. apply bytes_eqb_eq in EK. subst n. rewrite E0 by (left; reflexivity). reflexivity.
    + intros EK. apply bytes_eqb_eq in EK. subst n. destruct Hk as [<-|[<-|[<-|[<-|[<-|[<-|[<-|[]]]]]]]]; reflexivity.
Qed.

Lemma written_plain call : Forall group call -> Forall plain (written call).
Proof.
  assert (K: forall k, In k (flag_words ++ single_words ++ multi_words) -> plain k).
  { intros k I. split.
    - intros ->. cbn in I. repeat (destruct I as [I|I]; [discriminate I|]). exact I.
    - cbn [flag_words single_words multi_words map app In] in I.
      repeat (destruct I as [<-|I]; [repeat constructor; cbn; intros [?|[?|[?|[?|[]]]]]; discriminate|]). destruct I. }
  induction 1 as [|g call G F IH]; [constructor|]. change (written (g :: call)) with ((fst g :: snd g) ++ written call).
  apply Forall_app. split; [|exact IH]. destruct G as [k H|k v H V|k vs H V]; cbn [fst snd].
  - constructor; [|constructor]. apply K. apply in_or_app; left; exact H.
  - constructor; [|constructor; [apply V|constructor]]. apply K. apply in_or_app; right; apply in_or_app; left; exact H.
  - constructor; [|eapply Forall_impl; [|exact V]; intros ? [? _]; assumption]. apply K. apply in_or_app; right; apply in_or_app; right; exact H.
Qed.

Lemma given_plain call k : Forall group call -> Forall plain (given call k).
Proof.
  induction 1 as [|g call G F IH]; [constructor|]. unfold given. cbn [flat_map]. apply Forall_app. split; [|exact IH].
  destruct (bytes_eqb (fst g) (bs k)); [|constructor]. 
  destruct G as [? H|? v H V|? vs H V]; cbn [fst snd]; [constructor|constructor; [apply V|constructor]|eapply Forall_impl; [|exact V]; intros ? [? _]; assumption].
Qed.

(** what the variables ARGS_... of the function are after parsing the arguments *)
Lemma args_of_call call : Forall group call -> NoDup (map fst call) ->
  forall k, In (bs k) (single_words ++ multi_words) ->
  parse_arguments None (fun _ => []) (expand idb (join semi (written call))) (bs k) = given call k.
Proof.
  intros F ND k Hk. rewrite expand_plain by (apply written_plain, F). rewrite parse_call by auto.
  replace (existsb (bytes_eqb (bs k)) flag_words) with false.
  - destruct (existsb (fun g => bytes_eqb (fst g) (bs k)) call) eqn:E; [reflexivity|]. unfold given. clear F ND. induction call as [|g call IH]; [reflexivity|].
    cbn [existsb] in E. apply orb_false_iff in E. destruct E as [E1 E2]. cbn [flat_map]. rewrite E1. apply IH, E2.
  - symmetry. apply not_true_iff_false. rewrite existsb_in. intros [E|[]]. rewrite <- E in Hk. cbn in Hk. 
    repeat (destruct Hk as [Hk|Hk]; [discriminate Hk|]). exact Hk.
Qed.
Lemma args_flag call : Forall group call -> NoDup (map fst call) ->
  parse_arguments None (fun _ => []) (expand idb (join semi (written call))) (bs "ERROR_RESILIENT") = if mentioned call "ERROR_RESILIENT" then [bs "TRUE"] else [].
Proof.
  intros F ND. rewrite expand_plain by (apply written_plain, F). rewrite parse_call by auto. unfold mentioned.
  destruct (existsb _ call); reflexivity.
Qed.
