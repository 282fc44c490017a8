(** CMakeTop.v -- the commands which are added and what the code generator makes of them *)
From Coq Require Import String List NArith ZArith Bool Lia.
From Verif Require Import Base BaseFacts Types GenModel ToolModel ToolFacts CMakeModel CMakeSpec CMakeFacts.
Import ListNotations.
Local Open Scope list_scope.
Local Open Scope N_scope.

(* ------------------------------------------------------------------ *)
(** * File names *)
Lemma file_name_app a s : ~ In Byte.x2f s -> forall cur, file_name cur (a ++ bs "/" ++ s) = s.
Proof.
  intros N. induction a as [|b a IH]; intros cur; cbn [app file_name].
  - change (bs "/" ++ s) with (Byte.x2f :: s). cbn [file_name]. change (beqb Byte.x2f Byte.x2f) with true. cbn [file_name].
    assert (H: forall c, file_name c s = c ++ s).
    { clear -N. induction s as [|x s IH]; intros c; [rewrite app_nil_r; reflexivity|]. cbn [file_name].
      replace (beqb x Byte.x2f) with false by (symmetry; apply beqb_neq; intros ->; apply N; left; reflexivity).
      rewrite IH by (intros I; apply N; right; exact I). rewrite <- app_assoc. reflexivity. }
    apply H.
  - change ((b :: a) ++ bs "/" ++ s) with (b :: a ++ bs "/" ++ s). cbn [file_name]. destruct (beqb b Byte.x2f); apply IH.
Qed.
Lemma file_name_none s : ~ In Byte.x2f s -> file_name [] s = s.
Proof. intros N. assert (H: forall c, file_name c s = c ++ s).
    { induction s as [|x s IH]; intros c; [rewrite app_nil_r; reflexivity|]. cbn [file_name].
      replace (beqb x Byte.x2f) with false by (symmetry; apply beqb_neq; intros ->; apply N; left; reflexivity).
      rewrite IH by (intros I; apply N; right; exact I). rewrite <- app_assoc. reflexivity. }
    apply H.
Qed.
Lemma before_dot_app s ext : ~ In Byte.x2e s -> (ext = [] \/ exists x, ext = bs "." ++ x) -> before_dot (s ++ ext) = s.
Proof.
  intros N E. induction s as [|b s IH].
  - destruct E as [->|[x ->]]; reflexivity.
  - cbn [app before_dot]. replace (beqb b Byte.x2e) with false by (symmetry; apply beqb_neq; intros ->; apply N; left; reflexivity).
    f_equal. apply IH. intros I; apply N; right; exact I.
Qed.
Lemma stem_name_we path s : stem path s -> name_we path = s.
Proof.
  intros (dir & ext & -> & D & N & ND & E). unfold name_we. destruct D as [->|[d ->]].
  - cbn [app]. rewrite file_name_none by exact N. apply before_dot_app; assumption.
  - rewrite <- app_assoc. rewrite file_name_app by exact N. apply before_dot_app; assumption.
Qed.
Lemma file_name_split path : exists dir, path = dir ++ file_name [] path /\ (dir = [] \/ exists d, dir = d ++ bs "/") /\ ~ In Byte.x2f (file_name [] path).
Proof.
  assert (H: forall p cur, ~ In Byte.x2f cur -> exists dir, cur ++ p = dir ++ file_name cur p /\ (dir = [] \/ exists d, dir = d ++ bs "/") /\ ~ In Byte.x2f (file_name cur p)).
  { induction p as [|b p IH]; intros cur N; cbn [file_name].
    - exists []. rewrite app_nil_r. auto.
    - destruct (beqb b Byte.x2f) eqn:E.
      + apply beqb_eq in E. subst b. destruct (IH [] (fun x => x)) as (dir & EQ & D & NF). exists (cur ++ bs "/" ++ dir). cbn [app] in EQ. split.
        * rewrite <- !app_assoc. rewrite <- EQ. reflexivity.
        * split; [|exact NF]. right. destruct D as [->|[d ->]]; [exists cur; rewrite app_nil_r; reflexivity|exists (cur ++ bs "/" ++ d); rewrite <- !app_assoc; reflexivity].
      + destruct (IH (cur ++ [b])) as (dir & EQ & D & NF).
        * intros I. apply in_app_or in I. destruct I as [I|[->|[]]]; [contradiction|]. discriminate E.
        * exists dir. rewrite <- app_assoc in EQ. auto. }
  apply (H path []). intros [].
Qed.
Lemma before_dot_split s : exists ext, s = before_dot s ++ ext /\ ~ In Byte.x2e (before_dot s) /\ (ext = [] \/ exists x, ext = bs "." ++ x).
Proof.
  induction s as [|b s (ext & E & N & D)]; [exists []; auto|]. cbn [before_dot]. destruct (beqb b Byte.x2e) eqn:EB.
  - apply beqb_eq in EB. subst b. exists (Byte.x2e :: s). split; [reflexivity|]. split; [intros []|]. right. exists s. reflexivity.
  - exists ext. split; [cbn; congruence|]. split; [|exact D]. intros [->|I]; [discriminate EB|contradiction].
Qed.
Lemma name_we_stem path : stem path (name_we path).
Proof.
  destruct (file_name_split path) as (dir & E & D & N). destruct (before_dot_split (file_name [] path)) as (ext & E2 & N2 & D2).
  exists dir, ext. unfold name_we. repeat split; auto; [|congruence]. rewrite <- E2. exact E.
Qed.
Lemma name_we_plain path : Forall (fun b => ~ In b [Byte.x3b; Byte.x5b; Byte.x5d; Byte.x5c]) path -> Forall (fun b => ~ In b [Byte.x3b; Byte.x5b; Byte.x5d; Byte.x5c]) (name_we path).
Proof.
  destruct (name_we_stem path) as (dir & ext & E & _). intros H. rewrite E in H. apply Forall_app in H. destruct H as [_ H]. apply Forall_app in H. apply H.
Qed.

Lemma resolve_denotes dir p : p <> [] -> denotes dir p (resolve dir p).
Proof.
  intros N. destruct p as [|b p]; [congruence|]. cbn [resolve]. destruct (beqb b Byte.x2f) eqn:E.
  - apply beqb_eq in E. subst b. apply denotes_absolute. exists p. reflexivity.
  - apply denotes_relative. intros [q Q]. change (bs "/" ++ q) with (Byte.x2f :: q) in Q. inversion Q; subst. discriminate E.
Qed.
Lemma resolve_same_rel b1 b2 p : ~ absolute p -> resolve b1 p = resolve b2 p -> b1 = b2.
Proof.
  intros N. destruct p as [|b p]; cbn [resolve]; [|destruct (beqb b Byte.x2f) eqn:E; [apply beqb_eq in E; subst b; exfalso; apply N; exists p; reflexivity|]]; apply app_inv_tail.
Qed.
Lemma resolve_abs b p : absolute p -> resolve b p = p.
Proof. intros [q ->]. reflexivity. Qed.

(* ------------------------------------------------------------------ *)
(** * Options *)
Lemma eval_lit e s : eval e (lit s) = s.
Proof. unfold eval, lit. induction s as [|b s IH]; [reflexivity|]. cbn [map flat_map app]. f_equal. exact IH. Qed.
Lemma eval_gx e g : eval e [Gx g] = eval_genex e g.
Proof. unfold eval. cbn [flat_map]. apply app_nil_r. Qed.

Lemma prefix_join p vs : vs <> [] -> p ++ join (semi ++ p) vs = joined (map (app p) vs).
Proof.
  induction vs as [|v vs IH]; [congruence|]. intros _. destruct vs as [|w vs]; [reflexivity|].
  change (join (semi ++ p) (v :: w :: vs)) with (v ++ (semi ++ p) ++ join (semi ++ p) (w :: vs)).
  change (joined (map (app p) (v :: w :: vs))) with ((p ++ v) ++ semicolon :: joined (map (app p) (w :: vs))).
  rewrite <- IH by discriminate. rewrite <- !app_assoc. reflexivity.
Qed.

Lemma genex_values e prefix t p vs : ce_prop e t p = joined vs -> Forall plain vs -> (vs = [] \/ ~ off (joined vs)) ->
  eval_genex e (GxList prefix t p) = joined (map (app prefix) vs).
Proof.
  intros E P O. cbn [eval_genex]. unfold set_prop. rewrite E, joined_join. 
  change (filter nonempty (split_list idb 0 [] (join semi vs))) with (expand idb (join semi vs)). rewrite expand_plain by exact P.
  destruct O as [->|O]; [reflexivity|]. rewrite joined_join in O. rewrite (not_off _ O). rewrite expand_plain by exact P.
  apply prefix_join. intros ->. apply O. left; reflexivity.
Qed.
Lemma genex_std e t vs : ce_prop e t PStandard = joined vs -> (vs = [] \/ ~ off (joined vs)) -> (List.length vs <= 1)%nat ->
  eval_genex e (GxStd t) = joined (map (app (bs "-std=c++")) vs).
Proof.
  intros E O L. cbn [eval_genex]. rewrite E. destruct vs as [|v [|w vs]]; [reflexivity| |cbn in L; lia]. destruct O as [O|O]; [discriminate|].
  rewrite (not_off _ O). reflexivity.
Qed.

Lemma plain_no_semicolon s : plain s -> s <> [] /\ ~ In semicolon s.
Proof. intros [N P]. split; [exact N|]. intros I. rewrite Forall_forall in P. apply (P _ I). left. reflexivity. Qed.
Lemma clang_joined vs : Forall plain vs -> clang_options [joined vs] = vs /\ clang_options vs = vs.
Proof.
  intros P. assert (F: Forall (fun o => o <> [] /\ ~ In semicolon o) vs) by (eapply Forall_impl; [|exact P]; apply plain_no_semicolon).
  clear P. assert (FI: filter (fun p => negb (is_empty p)) vs = vs).
  { induction F as [|v vs [N _] F IH]; [reflexivity|]. cbn [filter]. destruct v; [congruence|]. cbn. f_equal. exact IH. }
  split.
  - unfold clang_options. cbn [flat_map]. rewrite app_nil_r. destruct vs as [|o opts]; [reflexivity|].
    rewrite (parts_unique _ _ (o :: opts) (split_parts (joined (o :: opts)))); [exact FI|]. split; [discriminate|]. split; [|reflexivity].
    eapply Forall_impl; [|exact F]. intros ? [_ H]; exact H.
  - clear FI. unfold clang_options. induction F as [|o opts [H1 H2] F' IH]; [reflexivity|]. cbn [flat_map].
    rewrite split_free by exact H2. cbn [filter]. destruct o; [contradiction|]. cbn [is_empty negb app]. f_equal. apply IH.
Qed.
Lemma clang_options_app a b : clang_options (a ++ b) = clang_options a ++ clang_options b.
Proof. apply flat_map_app. Qed.
Lemma clang_options_cons a b : clang_options (a :: b) = clang_options [a] ++ clang_options b.
Proof. apply (clang_options_app [a] b). Qed.
Lemma plain_app p v : Forall (fun b => ~ In b [Byte.x3b; Byte.x5b; Byte.x5d; Byte.x5c]) p -> plain v -> plain (p ++ v).
Proof. intros P [N V]. split; [destruct p; [exact N|discriminate]|]. apply Forall_app. auto. Qed.
Lemma plain_map p vs : Forall (fun b => ~ In b [Byte.x3b; Byte.x5b; Byte.x5d; Byte.x5c]) p -> Forall plain vs -> Forall plain (map (app p) vs).
Proof. intros P V. rewrite Forall_map. eapply Forall_impl; [|exact V]. intros v H. apply plain_app; assumption. Qed.
Ltac plain_lit := split; [discriminate|]; repeat constructor; cbn; intros [?|[?|[?|[?|[]]]]]; discriminate.
Ltac plain_bytes := repeat constructor; cbn; intros [?|[?|[?|[?|[]]]]]; discriminate.

Lemma target_values e pv incs t : good_config e pv incs ->
  clang_options (map (eval e) (target_options t)) = from_target pv t
  /\ (forall v, In v (map (eval e) (target_options t)) -> v = [] \/ exists o r, In o (from_target pv t) /\ (v = o \/ v = o ++ semicolon :: r)).
Proof.
  intros (_ & _ & _ & _ & _ & PV & ST).
  assert (V: map (eval e) (target_options t) = map joined [map (app (bs "-std=c++")) (pv t PStandard); pv t PFlags; pv t POptions; map (app (bs "-D")) (pv t PDefinitions); map (app (bs "-I")) (pv t PIncludes)]).
  { unfold target_options. cbn [map]. rewrite !eval_gx.
    destruct (PV t PStandard) as (E & P & O). rewrite (genex_std _ _ _ E O (ST t)). clear E P O.
    destruct (PV t PFlags) as (E & P & O). rewrite (genex_values _ [] _ _ _ E P O). clear E P O.
    destruct (PV t POptions) as (E & P & O). rewrite (genex_values _ [] _ _ _ E P O). clear E P O.
    destruct (PV t PDefinitions) as (E & P & O). rewrite (genex_values _ (bs "-D") _ _ _ E P O). clear E P O.
    destruct (PV t PIncludes) as (E & P & O). rewrite (genex_values _ (bs "-I") _ _ _ E P O). clear E P O.
    change (app (A:=Byte.byte) []) with (fun x : bytes => x). rewrite !map_id. reflexivity. }
  rewrite V. split.
  - cbn [map]. rewrite clang_options_cons, (clang_options_cons (joined (pv t PFlags))), (clang_options_cons (joined (pv t POptions))), (clang_options_cons (joined (map (app (bs "-D")) _))).
    assert (PL: forall p, Forall plain (pv t p)) by (intros p; apply PV).
    rewrite (proj1 (clang_joined (map (app (bs "-std=c++")) (pv t PStandard)) (plain_map (bs "-std=c++") _ ltac:(plain_bytes) (PL PStandard)))), 
      (proj1 (clang_joined _ (PL PFlags))), (proj1 (clang_joined _ (PL POptions))),
      (proj1 (clang_joined (map (app (bs "-D")) (pv t PDefinitions)) (plain_map (bs "-D") _ ltac:(plain_bytes) (PL PDefinitions)))),
      (proj1 (clang_joined (map (app (bs "-I")) (pv t PIncludes)) (plain_map (bs "-I") _ ltac:(plain_bytes) (PL PIncludes)))). reflexivity.
  - intros v I. rewrite in_map_iff in I. destruct I as (l & <- & I). destruct l as [|o l]; [left; reflexivity|]. right. exists o.
    assert (IO: In o (from_target pv t)).
    { unfold from_target. cbn [In] in I. rewrite !in_app_iff. destruct I as [E|[E|[E|[E|[E|[]]]]]]; rewrite E; cbn [In]; auto 10. }
    destruct l as [|o2 l]; [exists []; split; [exact IO|left; reflexivity]|]. exists (joined (o2 :: l)). split; [exact IO|]. right. reflexivity.
Qed.
Lemma dependency_values e pv incs t : good_config e pv incs ->
  clang_options (map (eval e) (dependency_options e t)) = from_dependency e pv t
  /\ (forall v, In v (map (eval e) (dependency_options e t)) -> v = [] \/ exists o r, In o (from_dependency e pv t) /\ (v = o \/ v = o ++ semicolon :: r)).
Proof.
  intros (_ & _ & _ & _ & _ & PV & ST). unfold dependency_options, from_dependency. destruct (ce_target e t); [|split; [reflexivity|intros v []]].
  match goal with |- clang_options ?x = _ /\ _ => assert (V: x = map joined [pv t PInterfaceOptions; map (app (bs "-D")) (pv t PInterfaceDefinitions); map (app (bs "-I")) (pv t PInterfaceIncludes)]) end.
  { cbn [map]. rewrite !eval_gx.
    destruct (PV t PInterfaceOptions) as (E & P & O). rewrite (genex_values _ [] _ _ _ E P O). clear E P O.
    destruct (PV t PInterfaceDefinitions) as (E & P & O). rewrite (genex_values _ (bs "-D") _ _ _ E P O). clear E P O.
    destruct (PV t PInterfaceIncludes) as (E & P & O). rewrite (genex_values _ (bs "-I") _ _ _ E P O). clear E P O.
    change (app (A:=Byte.byte) []) with (fun x : bytes => x). rewrite !map_id. reflexivity. }
  rewrite V. split.
  - cbn [map]. rewrite clang_options_cons, (clang_options_cons (joined (map (app (bs "-D")) _))).
    assert (PL: forall p, Forall plain (pv t p)) by (intros p; apply PV).
    rewrite (proj1 (clang_joined _ (PL PInterfaceOptions))),
      (proj1 (clang_joined (map (app (bs "-D")) (pv t PInterfaceDefinitions)) (plain_map (bs "-D") _ ltac:(plain_bytes) (PL PInterfaceDefinitions)))),
      (proj1 (clang_joined (map (app (bs "-I")) (pv t PInterfaceIncludes)) (plain_map (bs "-I") _ ltac:(plain_bytes) (PL PInterfaceIncludes)))). reflexivity.
  - intros v I. rewrite in_map_iff in I. destruct I as (l & <- & I). destruct l as [|o l]; [left; reflexivity|]. right. exists o.
    assert (IO: In o (pv t PInterfaceOptions ++ map (app (bs "-D")) (pv t PInterfaceDefinitions) ++ map (app (bs "-I")) (pv t PInterfaceIncludes))).
    { cbn [In] in I. rewrite !in_app_iff. destruct I as [E|[E|[E|[]]]]; rewrite E; cbn [In]; auto 10. }
    destruct l as [|o2 l]; [exists []; split; [exact IO|left; reflexivity]|]. exists (joined (o2 :: l)). split; [exact IO|]. right. reflexivity.
Qed.

Lemma gx_good (gs : list genex) : good_elems chb (map (fun g => [Gx g]) gs).
Proof. unfold good_elems. rewrite Forall_map. apply Forall_forall. intros g _. split; [discriminate|]. constructor; [|constructor]. cbn. intros [H|[H|[H|[H|[]]]]]; discriminate. Qed.
Lemma target_good t : good_elems chb (target_options t).
Proof. apply (gx_good [GxStd t; GxList [] t PFlags; GxList [] t POptions; GxList (bs "-D") t PDefinitions; GxList (bs "-I") t PIncludes]). Qed.
Lemma dependency_good e t : good_elems chb (dependency_options e t).
Proof. unfold dependency_options. destruct (ce_target e t); [|constructor]. apply (gx_good [GxList [] t PInterfaceOptions; GxList (bs "-D") t PInterfaceDefinitions; GxList (bs "-I") t PInterfaceIncludes]). Qed.

(** what the tool is given as values of --clang-opt *)
Definition clang_tokens (e : cmake_env) (incs : list bytes) (call : list (bytes * list bytes)) : list (list ch) :=
  map lit (given call "CLANG_OPTIONS" ++ [bs "-resource-dir"; ce_resource_dir e]
           ++ match ce_triple e with [] => [] | t => [bs "-target"; t; bs "-Xclang"; bs "-triple"; bs "-Xclang"; t] end
           ++ flat_map (fun d => [bs "-I"; d]) incs ++ (if ce_cross e then [bs "-nostdinc"] else []))
  ++ flat_map target_options (given call "CLANG_OPTIONS_FROM_TARGETS")
  ++ flat_map (dependency_options e) (given call "CLANG_OPTIONS_FROM_DEPENDENCIES").

Lemma good_app {A} (sym : A -> Byte.byte) a b : good_elems sym a -> good_elems sym b -> good_elems sym (a ++ b).
Proof. intros. apply Forall_app. auto. Qed.
Lemma good_flat {A B} (sym : A -> Byte.byte) (f : B -> list (list A)) l : (forall b, good_elems sym (f b)) -> good_elems sym (flat_map f l).
Proof. intros H. induction l as [|b l IH]; [constructor|]. cbn [flat_map]. apply good_app; [apply H|exact IH]. Qed.
Lemma literals_plain e pv incs call : good_call call -> good_config e pv incs ->
  Forall plain (given call "CLANG_OPTIONS" ++ [bs "-resource-dir"; ce_resource_dir e]
           ++ match ce_triple e with [] => [] | t => [bs "-target"; t; bs "-Xclang"; bs "-triple"; bs "-Xclang"; t] end
           ++ flat_map (fun d => [bs "-I"; d]) incs ++ (if ce_cross e then [bs "-nostdinc"] else [])).
Proof.
  intros (G & _) (_ & PR & PT & _ & PI & _). apply Forall_app. split; [apply given_plain, G|].
  apply Forall_app. split; [constructor; [plain_lit|constructor; [exact PR|constructor]]|]. apply Forall_app. split.
  { destruct PT as [->|[PT _]]; [constructor|]. destruct (ce_triple e) as [|b t] eqn:ET; [constructor|]. 
    constructor; [plain_lit|]. constructor; [exact PT|]. constructor; [plain_lit|]. constructor; [plain_lit|]. constructor; [plain_lit|]. constructor; [exact PT|constructor]. }
  apply Forall_app. split.
  { clear - PI. induction PI as [|d incs P F IH]; [constructor|]. cbn [flat_map app]. constructor; [plain_lit|]. constructor; [exact P|exact IH]. }
  destruct (ce_cross e); [constructor; [plain_lit|constructor]|constructor].
Qed.
Lemma tokens_good e pv incs call : good_call call -> good_config e pv incs -> good_elems chb (clang_tokens e incs call).
Proof.
  intros GC GE. unfold clang_tokens. apply good_app; [apply lits_plain; eapply literals_plain; eassumption|].
  apply good_app; apply good_flat; [apply target_good|apply dependency_good].
Qed.

Lemma clang_list_tokens e pv incs call args : good_call call -> good_config e pv incs ->
  (forall k, In (bs k) (single_words ++ multi_words) -> args (bs k) = given call k) ->
  clang_list e args = if forallb (ce_is_dir e) incs then Some (join chsemi (clang_tokens e incs call)) else None.
Proof.
  intros GC GE A. assert (GC0 := GC). assert (GE0 := GE). destruct GC as (G & ND & O). destruct GE as (PB & PR & PT & EI & PI & _).
  unfold clang_list. rewrite EI, joined_join, expand_plain by exact PI. destruct (forallb (ce_is_dir e) incs); [|reflexivity]. f_equal.
  rewrite (A "CLANG_OPTIONS"%string) by (cbn; auto 20). rewrite (A "CLANG_OPTIONS_FROM_TARGETS"%string) by (cbn; auto 20). rewrite (A "CLANG_OPTIONS_FROM_DEPENDENCIES"%string) by (cbn; auto 20).
  rewrite !if_foreach_plain by ((apply given_plain; exact G) || (apply O; cbn; auto 20)). 
  assert (SC: chb (Ch semicolon) = semicolon) by reflexivity. unfold chsemi in *.
  rewrite lit_join. unfold chsemi. rewrite (append_join chb) by (apply lits_plain, given_plain, G).
  pose proof (literals_plain e pv incs call GC0 GE0) as LP. rewrite !Forall_app in LP. destruct LP as (L1 & L2 & L3 & L4 & L5).
  apply lits_plain in L1, L2, L3, L4, L5.
  match goal with |- context [if is_off (ce_triple e) then ?a else ?b] => 
    replace (if is_off (ce_triple e) then a else b) with (join [Ch semicolon] (map lit (given call "CLANG_OPTIONS") ++ map lit [bs "-resource-dir"; ce_resource_dir e]
       ++ map lit match ce_triple e with [] => [] | t => [bs "-target"; t; bs "-Xclang"; bs "-triple"; bs "-Xclang"; t] end)) end.
  2:{ destruct PT as [->|[P N]]; [cbn [is_off map app]; reflexivity|]. rewrite (not_off _ N). destruct (ce_triple e) as [|b t] eqn:ET; [exfalso; apply N; left; reflexivity|].
      rewrite <- ET in *. rewrite (append_join chb) by (apply good_app; assumption). rewrite <- app_assoc. reflexivity. }
  rewrite (append_fold chb) with (f := fun d => [lit (bs "-I"); lit d]).
  3:{ repeat apply good_app; assumption. }
  2:{ intros d Hd. rewrite Forall_forall in PI. apply (lits_plain [bs "-I"; d]). constructor; [plain_lit|]. constructor; [apply PI, Hd|constructor]. }
  replace (flat_map (fun d => [lit (bs "-I"); lit d]) incs) with (map lit (flat_map (fun d => [bs "-I"; d]) incs)).
  2:{ clear. induction incs as [|d incs IH]; [reflexivity|]. cbn [flat_map app map]. rewrite IH. reflexivity. }
  match goal with |- context [if ce_cross e then list_append _ (join _ ?l) _ else _] =>
    replace (if ce_cross e then list_append [Ch semicolon] (join [Ch semicolon] l) [lit (bs "-nostdinc")] else join [Ch semicolon] l)
      with (join [Ch semicolon] (l ++ map lit (if ce_cross e then [bs "-nostdinc"] else []))) end.
  2:{ destruct (ce_cross e); [|cbn [map]; rewrite app_nil_r; reflexivity]. rewrite (append_join chb) by (repeat apply good_app; assumption). reflexivity. }
  rewrite (append_each_fold chb) by (solve [apply target_good|repeat apply good_app; assumption]).
  rewrite (append_each_fold chb) by (solve [apply dependency_good|repeat apply good_app; try assumption; apply good_flat, target_good]).
  unfold clang_tokens. rewrite !map_app, <- !app_assoc. reflexivity.
Qed.

(* ------------------------------------------------------------------ *)
(** * The command line *)
Definition cli_tokens (e : cmake_env) (incs : list bytes) (call : list (bytes * list bytes)) (output input : bytes) : list (list ch) :=
  map lit ([bs "--output-file"; output; bs "--input-file"; input; bs "--generators"] ++ given call "GENERATORS" ++ [bs "--clang-opt"])
  ++ clang_tokens e incs call
  ++ map lit ([bs "--json-classes"] ++ given call "JSON_CLASSES"
              ++ match given call "JSON_VISIBILITY" with [] => [] | v :: _ => [bs "--json-visibility"; v] end
              ++ match given call "BINARY_VISBILITY" with [] => [] | v :: _ => [bs "--binary-visibility"; v] end
              ++ if mentioned call "ERROR_RESILIENT" then [bs "--error-resilient"] else []).

Lemma given_single call k : Forall group call -> NoDup (map fst call) -> In (bs k) single_words -> given call k = [] \/ exists v, given call k = [v].
Proof.
  intros G ND Hk. induction G as [|g call G F IH]; [left; reflexivity|]. inversion ND as [|? ? NI ND']; subst. unfold given. cbn [flat_map].
  destruct (bytes_eqb (fst g) (bs k)) eqn:E; [|cbn [app]; apply IH, ND']. apply bytes_eqb_eq in E.
  assert (N: flat_map (fun g => if bytes_eqb (fst g) (bs k) then snd g else []) call = []).
  { rewrite E in NI. clear - NI. induction call as [|h call IH]; [reflexivity|]. cbn [map In] in NI. cbn [flat_map].
    replace (bytes_eqb (fst h) (bs k)) with false by (symmetry; apply bytes_eqb_neq; intros E; apply NI; left; exact E).
    apply IH. intros I; apply NI; right; exact I. }
  rewrite N, app_nil_r. destruct G as [? H|? v H V|? vs H V]; cbn [fst snd] in *; [left; reflexivity|right; exists v; reflexivity|].
  subst k0. exfalso. clear - Hk H. cbn in Hk, H.
  destruct Hk as [Hk|[Hk|[Hk|[]]]]; rewrite <- Hk in H; repeat (destruct H as [H|H]; [discriminate H|]); exact H.
Qed.

Lemma cli_list_tokens e pv incs call args output input : good_call call -> good_config e pv incs ->
  (forall k, In (bs k) (single_words ++ multi_words) -> args (bs k) = given call k) ->
  args (bs "ERROR_RESILIENT") = (if mentioned call "ERROR_RESILIENT" then [bs "TRUE"] else []) ->
  plain output -> plain input ->
  cli_list args (join chsemi (clang_tokens e incs call)) output input = join chsemi (cli_tokens e incs call output input)
  /\ good_elems chb (cli_tokens e incs call output input).
Proof.
  intros GC GE A AF PO PI. pose proof (tokens_good _ _ _ _ GC GE) as TG. destruct GC as (G & ND & O). unfold cli_list. rewrite AF.
  rewrite !A by (cbn; auto 20). rewrite !expand_plain by (apply given_plain, G). rewrite (expand_join chb (Ch semicolon)) by (exact eq_refl || exact TG).
  assert (LP: forall l, Forall plain l -> good_elems chb (map lit l)) by apply lits_plain.
  assert (P1: good_elems chb (map lit ([bs "--output-file"; output; bs "--input-file"; input; bs "--generators"] ++ given call "GENERATORS" ++ [bs "--clang-opt"]))).
  { apply LP. repeat (apply Forall_app; split); [|apply given_plain, G|]; repeat constructor; try assumption; try discriminate; try (cbn; intros [?|[?|[?|[?|[]]]]]; discriminate); apply PO || apply PI. }
  assert (P2: good_elems chb (map lit ([bs "--json-classes"] ++ given call "JSON_CLASSES"))).
  { apply LP. apply Forall_app; split; [constructor; [plain_lit|constructor]|apply given_plain, G]. }
  assert (PJ: good_elems chb (map lit match given call "JSON_VISIBILITY" with [] => [] | v :: _ => [bs "--json-visibility"; v] end)).
  { apply LP. pose proof (given_plain call "JSON_VISIBILITY" G) as F. destruct F as [|v vs Pv F]; [constructor|]. constructor; [plain_lit|]. constructor; [exact Pv|constructor]. }
  assert (PB: good_elems chb (map lit match given call "BINARY_VISBILITY" with [] => [] | v :: _ => [bs "--binary-visibility"; v] end)).
  { apply LP. pose proof (given_plain call "BINARY_VISBILITY" G) as F. destruct F as [|v vs Pv F]; [constructor|]. constructor; [plain_lit|]. constructor; [exact Pv|constructor]. }
  assert (PE: good_elems chb (map lit (if mentioned call "ERROR_RESILIENT" then [bs "--error-resilient"] else []))).
  { apply LP. destruct (mentioned _ _); [constructor; [plain_lit|constructor]|constructor]. }
  split.
  2:{ unfold cli_tokens. apply good_app; [exact P1|]. apply good_app; [exact TG|]. rewrite app_assoc, map_app. apply good_app; [exact P2|]. rewrite map_app. apply good_app; [exact PJ|]. rewrite map_app. apply good_app; [exact PB|exact PE]. }
  unfold cli_tokens.
  match goal with |- context [join chsemi ([?a; ?b; ?c; ?d] ++ ?l)] => 
     replace ([a; b; c; d] ++ l) with (map lit ([bs "--output-file"; output; bs "--input-file"; input; bs "--generators"] ++ given call "GENERATORS" ++ [bs "--clang-opt"])
        ++ clang_tokens e incs call ++ map lit ([bs "--json-classes"] ++ given call "JSON_CLASSES")) by (rewrite !map_app, <- !app_assoc; reflexivity) end.
  unfold chsemi.
  assert (STEP: forall k opt, In k ["JSON_VISIBILITY"; "BINARY_VISBILITY"]%string -> forall l, good_elems chb l ->
    (if is_off (join semi (given call k)) then join [Ch semicolon] l else list_append [Ch semicolon] (join [Ch semicolon] l) [lit (bs opt); lit (join semi (given call k))])
    = join [Ch semicolon] (l ++ map lit match given call k with [] => [] | v :: _ => [bs opt; v] end)).
  { intros k opt Hk l Gl. destruct (given_single call k G ND) as [E|[v E]].
    - destruct Hk as [<-|[<-|[]]]; cbn; auto.
    - rewrite E. cbn. rewrite app_nil_r. reflexivity.
    - destruct (O k) as [E2|N]; [destruct Hk as [<-|[<-|[]]]; cbn; auto|rewrite E in E2; discriminate|]. rewrite joined_join in N. rewrite (not_off _ N).
      rewrite (append_join chb) by exact Gl. rewrite E. reflexivity. }
  rewrite (STEP "JSON_VISIBILITY"%string "--json-visibility"%string) by (solve [cbn; auto|repeat (assumption || apply good_app)]).
  rewrite (STEP "BINARY_VISBILITY"%string "--binary-visibility"%string) by (solve [cbn; auto|repeat (assumption || apply good_app)]).
  destruct (mentioned call "ERROR_RESILIENT").
  - change (is_off (join semi [bs "TRUE"])) with false. cbn match. rewrite (append_join chb) by (repeat (assumption || apply good_app)). f_equal.
    rewrite !map_app, <- !app_assoc. reflexivity.
  - change (is_off (join semi [])) with true. cbn match. f_equal. rewrite !map_app, <- !app_assoc. cbn [map app]. rewrite !app_nil_r. reflexivity.
Qed.

Definition tool_value (w : bytes) : Prop := lookup tool_options w = None /\ dashed w = false.
Lemma dashed_spec s : dashed s = false <-> no_option s.
Proof.
  unfold dashed, no_option. rewrite orb_false_iff, !bytes_eqb_neq.
  assert (H: forall a b : Byte.byte, firstn 2 s = [a; b] <-> exists r, s = [a; b] ++ r).
  { intros a b. split.
    - destruct s as [|x [|y r]]; cbn; intros E; inversion E; subst. exists r. reflexivity.
    - intros [r ->]. reflexivity. }
  change (bs "--") with [Byte.x2d; Byte.x2d]. change (bs "-h") with [Byte.x2d; Byte.x68]. rewrite !H. reflexivity.
Qed.
Lemma not_dashed_lookup w : dashed w = false -> lookup tool_options w = None.
Proof.
  intros D. unfold tool_options. cbn [lookup].
  repeat match goal with |- context [bytes_eqb ?k w] => let E := fresh in destruct (bytes_eqb k w) eqn:E; [apply bytes_eqb_eq in E; subst w; discriminate D|clear E] end.
  reflexivity.
Qed.
Lemma tool_value_intro w : no_option w -> tool_value w.
Proof. intros N. apply dashed_spec in N. split; [apply not_dashed_lookup, N|exact N]. Qed.
Lemma tool_value_joined o r : plain o -> no_option o -> tool_value (o ++ semicolon :: r).
Proof.
  intros [N P] NO. apply tool_value_intro. apply dashed_spec. apply dashed_spec in NO. destruct o as [|a [|b o]]; [congruence| |exact NO].
  unfold dashed. change (firstn 2 ([a] ++ semicolon :: r)) with [a; semicolon]. apply orb_false_iff. rewrite !bytes_eqb_neq. split; intros E; inversion E.
Qed.

Lemma parse_values ws : Forall tool_value ws -> forall n vs st rest,
  parse_cli (Some Multi) ((n, vs) :: st) (ws ++ rest) = parse_cli (Some Multi) ((n, vs ++ ws) :: st) rest.
Proof.
  induction 1 as [|w ws [L D] F IH]; intros n vs st rest; [rewrite app_nil_r; reflexivity|].
  cbn [app parse_cli]. rewrite L, D. rewrite IH, <- app_assoc. reflexivity.
Qed.

Lemma cli_read e pv incs call output input : good_call call -> good_config e pv incs ->
  Forall no_option (wanted_options e pv incs call) -> Forall no_option (given call "GENERATORS") -> Forall no_option (given call "JSON_CLASSES") ->
  read_cli (map (eval e) (cli_tokens e incs call output input)) = Some (told e pv incs call input output).
Proof.
  intros GC GE NW NG NC. assert (TV: forall l, Forall no_option l -> Forall tool_value l) by (intros l; apply Forall_impl, tool_value_intro).
  assert (EL: forall l, map (eval e) (map lit l) = l).
  { intros l. rewrite map_map. rewrite <- (map_id l) at 2. apply map_ext. intros; apply eval_lit. }
  assert (GC0 := GC). destruct GC as (G & ND & O).
  set (vals := map (eval e) (clang_tokens e incs call)).
  assert (VO: clang_options vals = wanted_options e pv incs call).
  { unfold vals, clang_tokens, wanted_options. pose proof (literals_plain _ _ _ _ GC0 GE) as LP. rewrite (map_app (eval e)), EL, clang_options_app. cbv zeta in LP. rewrite (proj2 (clang_joined _ LP)).
    rewrite <- !app_assoc. do 5 f_equal. rewrite (map_app (eval e)), clang_options_app. f_equal.
    - induction (given call "CLANG_OPTIONS_FROM_TARGETS") as [|t ts IH]; [reflexivity|]. cbn [flat_map]. rewrite map_app, clang_options_app, IH. f_equal. apply (target_values e pv incs t GE).
    - induction (given call "CLANG_OPTIONS_FROM_DEPENDENCIES") as [|t ts IH]; [reflexivity|]. cbn [flat_map]. rewrite map_app, clang_options_app, IH. f_equal. apply (dependency_values e pv incs t GE). }
  assert (VT: Forall tool_value vals).
  { assert (TP: forall t, Forall plain (from_target pv t)).
    { intros t. destruct GE as (_ & _ & _ & _ & _ & PV & _). unfold from_target.
      apply Forall_app; split; [apply plain_map; [plain_bytes|apply PV]|]. apply Forall_app; split; [apply PV|]. apply Forall_app; split; [apply PV|].
      apply Forall_app; split; (apply plain_map; [plain_bytes|apply PV]). }
    assert (DP: forall t, Forall plain (from_dependency e pv t)).
    { intros t. destruct GE as (_ & _ & _ & _ & _ & PV & _). unfold from_dependency. destruct (ce_target e t); [|constructor].
      apply Forall_app; split; [apply PV|]. apply Forall_app; split; (apply plain_map; [plain_bytes|apply PV]). }
    assert (KEY: forall os, Forall plain os -> Forall no_option os -> forall v, (v = [] \/ exists o r, In o os /\ (v = o \/ v = o ++ semicolon :: r)) -> tool_value v).
    { intros os P N v [->|(o & r & I & E)]; [split; reflexivity|]. rewrite Forall_forall in P, N.
      destruct E as [-> | ->]; [apply tool_value_intro, N, I|apply tool_value_joined; [apply P, I|apply N, I]]. }
    unfold vals, clang_tokens. rewrite (map_app (eval e)), EL, (map_app (eval e)). unfold wanted_options in NW. rewrite !app_assoc in NW. rewrite !Forall_app in NW.
    destruct NW as ((((((N1 & N2) & N3) & N4) & N5) & N6) & N7).
    apply Forall_app; split; [|apply Forall_app; split].
    - repeat (apply Forall_app; split); apply TV; assumption.
    - clear - N6 KEY TP GE. induction (given call "CLANG_OPTIONS_FROM_TARGETS") as [|t ts IH]; [constructor|]. cbn [flat_map] in *. apply Forall_app in N6. destruct N6 as [N6 N6'].
      rewrite map_app. apply Forall_app; split; [|apply IH, N6']. apply Forall_forall. intros v I. apply (KEY (from_target pv t) (TP t) N6). apply (target_values e pv incs t GE), I.
    - clear - N7 KEY DP GE. induction (given call "CLANG_OPTIONS_FROM_DEPENDENCIES") as [|t ts IH]; [constructor|]. cbn [flat_map] in *. apply Forall_app in N7. destruct N7 as [N7 N7'].
      rewrite map_app. apply Forall_app; split; [|apply IH, N7']. apply Forall_forall. intros v I. apply (KEY (from_dependency e pv t) (DP t) N7). apply (dependency_values e pv incs t GE), I. }
  unfold cli_tokens. rewrite !(map_app (eval e)), !EL. fold vals. unfold read_cli.
  match goal with |- context [parse_cli None [] ?l] => replace l with
    ([bs "--output-file"; output; bs "--input-file"; input; bs "--generators"] ++ given call "GENERATORS" ++ [bs "--clang-opt"] ++ vals ++ [bs "--json-classes"] ++ given call "JSON_CLASSES"
              ++ match given call "JSON_VISIBILITY" with [] => [] | v :: _ => [bs "--json-visibility"; v] end
              ++ match given call "BINARY_VISBILITY" with [] => [] | v :: _ => [bs "--binary-visibility"; v] end
              ++ if mentioned call "ERROR_RESILIENT" then [bs "--error-resilient"] else []) by (rewrite <- !app_assoc; reflexivity) end.
  match goal with |- context [parse_cli None [] (_ ++ ?r)] => 
    change (parse_cli None [] ([bs "--output-file"; output; bs "--input-file"; input; bs "--generators"] ++ r)) with
    (parse_cli (Some Multi) [(bs "--generators", []); (bs "--input-file", [input]); (bs "--output-file", [output])] r) end.
  rewrite parse_values by (apply TV, NG).
  match goal with |- context [parse_cli (Some Multi) ?st ([bs "--clang-opt"] ++ ?r)] => 
    change (parse_cli (Some Multi) st ([bs "--clang-opt"] ++ r)) with (parse_cli (Some Multi) ((bs "--clang-opt", []) :: st) r) end.
  rewrite parse_values by exact VT.
  match goal with |- context [parse_cli (Some Multi) ?st ([bs "--json-classes"] ++ ?r)] => 
    change (parse_cli (Some Multi) st ([bs "--json-classes"] ++ r)) with (parse_cli (Some Multi) ((bs "--json-classes", []) :: st) r) end.
  rewrite parse_values by (apply TV, NC). cbn [app].
  unfold told.
  destruct (given_single call "JSON_VISIBILITY" G ND ltac:(cbn; auto)) as [-> | [jv ->]];
  destruct (given_single call "BINARY_VISBILITY" G ND ltac:(cbn; auto)) as [-> | [bv ->]];
  destruct (mentioned call "ERROR_RESILIENT"); cbn [app concat]; rewrite ?app_nil_r; rewrite <- VO; reflexivity.
Qed.

(* ------------------------------------------------------------------ *)
(** * All input files *)
Definition out_dir (e : cmake_env) (call : list (bytes * list bytes)) : bytes :=
  match given call "OUTPUT_DIRECTORY" with [] => ce_binary_dir e ++ bs "/reflection" | d :: _ => d end.
Definition out_file (e : cmake_env) (call : list (bytes * list bytes)) (input : bytes) : bytes :=
  out_dir e call ++ bs "/" ++ name_we input ++ bs ".h".
Lemma out_file_spec e call input : output_for e call input (out_file e call input).
Proof. exists (name_we input). split; [apply name_we_stem|reflexivity]. Qed.
Lemma output_for_unique e call input out : output_for e call input out -> out = out_file e call input.
Proof. intros (s & S & ->). rewrite <- (stem_name_we _ _ S). reflexivity. Qed.
Lemma out_dir_plain e pv incs call : good_call call -> good_config e pv incs -> plain (out_dir e call).
Proof.
  intros (G & _) (PB & _). unfold out_dir. pose proof (given_plain call "OUTPUT_DIRECTORY" G) as F. destruct F as [|d ds Pd _]; [|exact Pd].
  destruct PB as [N P]. split; [destruct (ce_binary_dir e); [congruence|discriminate]|]. apply Forall_app. split; [exact P|]. plain_bytes.
Qed.
Lemma out_file_plain e pv incs call input : good_call call -> good_config e pv incs -> plain input -> plain (out_file e call input).
Proof.
  intros GC GE [_ PI]. destruct (out_dir_plain e pv incs call GC GE) as [N P]. unfold out_file. split; [destruct (out_dir e call); [congruence|discriminate]|].
  apply Forall_app; split; [exact P|]. apply Forall_app; split; [plain_bytes|]. apply Forall_app; split; [apply name_we_plain, PI|plain_bytes].
Qed.
Lemma output_directory_spec e call args : good_call call -> (forall k, In (bs k) (single_words ++ multi_words) -> args (bs k) = given call k) ->
  output_directory e args = out_dir e call.
Proof.
  intros (G & ND & O) A. unfold output_directory, out_dir. rewrite A by (cbn; auto 20). destruct (given_single call "OUTPUT_DIRECTORY" G ND ltac:(cbn; auto)) as [E|[d E]]; [rewrite E; reflexivity|].
  destruct (O "OUTPUT_DIRECTORY"%string ltac:(cbn; auto)) as [E2|N]; [congruence|]. rewrite joined_join in N. rewrite (not_off _ N). rewrite E. reflexivity.
Qed.

Definition command_of (e : cmake_env) (incs : list bytes) (call : list (bytes * list bytes)) (input : bytes) : command :=
  {| co_output := resolve (ce_binary_dir e) (out_file e call input); co_program := ce_executable e;
     co_args := map (eval e) (cli_tokens e incs call (out_file e call input) input);
     co_depends := resolve (ce_source_dir e) input; co_dir := ce_source_dir e |}.
Definition vars_after (call : list (bytes * list bytes)) (v : vars) (out : bytes) : vars :=
  fold_left (fun v l => vput v l (list_append semi (v l) [out])) (given call "OUTPUT_LISTS") v.

Lemma add_commands_spec e pv incs call args : good_call call -> good_config e pv incs ->
  (forall k, In (bs k) (single_words ++ multi_words) -> args (bs k) = given call k) ->
  args (bs "ERROR_RESILIENT") = (if mentioned call "ERROR_RESILIENT" then [bs "TRUE"] else []) ->
  forall inputs v, Forall plain inputs ->
  add_commands e args (join chsemi (clang_tokens e incs call)) v inputs =
  (map (command_of e incs call) inputs, fold_left (vars_after call) (map (out_file e call) inputs) v).
Proof.
  intros GC GE A AF inputs v F. revert v. induction F as [|i inputs P F IH]; intros v; [reflexivity|].
  cbn [add_commands]. unfold add_command. rewrite (output_directory_spec e call args GC A).
  change (out_dir e call ++ bs "/" ++ name_we i ++ bs ".h") with (out_file e call i).
  destruct (cli_list_tokens e pv incs call args (out_file e call i) i GC GE A AF (out_file_plain _ _ _ _ _ GC GE P) P) as [-> GT].
  rewrite (expand_join chb (Ch semicolon)) by (exact eq_refl || exact GT). rewrite A by (cbn; auto 20). destruct GC as (G & ND & O).
  rewrite if_foreach_plain by ((apply given_plain, G) || (apply O; cbn; auto 20)).
  rewrite IH. reflexivity.
Qed.

Lemma distinct_spec l : distinct l = true <-> NoDup l.
Proof.
  induction l as [|x l IH]; cbn [distinct]; [split; [constructor|reflexivity]|]. rewrite andb_true_iff, negb_true_iff, IH. split.
  - intros [E N]. constructor; [|exact N]. rewrite <- existsb_in, E. discriminate.
  - intros N. inversion N as [|? ? NI N']; subst. split; [|exact N']. apply not_true_iff_false. rewrite existsb_in. exact NI.
Qed.

Lemma add_invocation_spec e pv incs call v : good_call call -> good_config e pv incs ->
  add_invocation e v (written call) =
  if forallb (ce_is_dir e) incs && distinct (map (fun i => resolve (ce_binary_dir e) (out_file e call i)) (given call "INPUT_FILES"))
  then Some (map (command_of e incs call) (given call "INPUT_FILES"), fold_left (vars_after call) (map (out_file e call) (given call "INPUT_FILES")) v)
  else None.
Proof.
  intros GC GE. assert (GC0 := GC). destruct GC0 as (G & ND & O).
  unfold add_invocation. set (args := parse_arguments _ _ _).
  assert (A: forall k, In (bs k) (single_words ++ multi_words) -> args (bs k) = given call k) by (intros k Hk; apply args_of_call; assumption).
  assert (AF: args (bs "ERROR_RESILIENT") = (if mentioned call "ERROR_RESILIENT" then [bs "TRUE"] else [])) by (apply args_flag; assumption).
  rewrite (clang_list_tokens e pv incs call args GC GE A). destruct (forallb (ce_is_dir e) incs); [|reflexivity]. cbn [andb].
  rewrite A by (cbn; auto 20). rewrite expand_plain by (apply given_plain, G). rewrite (add_commands_spec e pv incs call args GC GE A AF) by (apply given_plain, G).
  rewrite map_map. reflexivity.
Qed.

Lemma resolve_inj b d x y : d <> [] -> resolve b (d ++ x) = resolve b (d ++ y) -> x = y.
Proof.
  intros N. destruct d as [|c d]; [congruence|]. cbn [app resolve]. destruct (beqb c Byte.x2f); intros E.
  - inversion E as [E']. apply app_inv_head in E'. exact E'.
  - apply app_inv_head in E. apply app_inv_head in E. inversion E as [E']. apply app_inv_head in E'. exact E'.
Qed.
Lemma outputs_distinct e pv incs call inputs : good_call call -> good_config e pv incs ->
  (NoDup (map (fun i => resolve (ce_binary_dir e) (out_file e call i)) inputs) <-> NoDup (map name_we inputs)).
Proof.
  intros GC GE. assert (N: out_dir e call <> []) by apply (out_dir_plain e pv incs call GC GE).
  assert (K: forall i j, resolve (ce_binary_dir e) (out_file e call i) = resolve (ce_binary_dir e) (out_file e call j) <-> name_we i = name_we j).
  { intros i j. unfold out_file. split; [|intros ->; reflexivity]. intros E. apply resolve_inj in E; [|exact N]. apply app_inv_head in E. apply app_inv_tail in E. exact E. }
  induction inputs as [|i inputs IH]; cbn [map]; [split; constructor|]. split; intros H; inversion H as [|? ? NI H']; subst; constructor; try (apply IH; assumption).
  - intros I. apply NI. rewrite in_map_iff in *. destruct I as (j & E & I). exists j. split; [apply K; exact E|exact I].
  - intros I. apply NI. rewrite in_map_iff in *. destruct I as (j & E & I). exists j. split; [apply K; exact E|exact I].
Qed.

(** variables *)
Lemma vars_after_other call v out n : ~ In n (given call "OUTPUT_LISTS") -> vars_after call v out n = v n.
Proof.
  unfold vars_after. generalize (given call "OUTPUT_LISTS"). intros ls. revert v. induction ls as [|l ls IH]; intros v N; [reflexivity|]. cbn [fold_left]. rewrite IH by (intros I; apply N; right; exact I).
  unfold vput. destruct (bytes_eqb n l) eqn:E; [apply bytes_eqb_eq in E; exfalso; apply N; left; congruence|reflexivity].
Qed.
Lemma vars_after_list call v out l : NoDup (given call "OUTPUT_LISTS") -> In l (given call "OUTPUT_LISTS") -> vars_after call v out l = list_append semi (v l) [out].
Proof.
  unfold vars_after. generalize (given call "OUTPUT_LISTS"). intros ls. revert v. induction ls as [|m ls IH]; intros v N I; [destruct I|]. inversion N as [|? ? NI N']; subst. cbn [fold_left].
  destruct I as [<-|I].
  - assert (O: forall v, fold_left (fun v l => vput v l (list_append semi (v l) [out])) ls v m = v m).
    { clear IH N N'. intros w. revert w. induction ls as [|x ls IH]; intros w; [reflexivity|]. cbn [fold_left]. rewrite IH by (intros I; apply NI; right; exact I).
      unfold vput. destruct (bytes_eqb m x) eqn:E; [apply bytes_eqb_eq in E; exfalso; apply NI; left; congruence|reflexivity]. }
    rewrite O. unfold vput. rewrite bytes_eqb_refl. reflexivity.
  - rewrite IH by assumption. unfold vput. destruct (bytes_eqb l m) eqn:E; [apply bytes_eqb_eq in E; subst; contradiction|]. reflexivity.
Qed.
Lemma vars_all_other call n outs : ~ In n (given call "OUTPUT_LISTS") -> forall v, fold_left (vars_after call) outs v n = v n.
Proof. intros N. induction outs as [|o outs IH]; intros v; [reflexivity|]. cbn [fold_left]. rewrite IH. apply vars_after_other, N. Qed.
Lemma vars_all_list call l outs : NoDup (given call "OUTPUT_LISTS") -> In l (given call "OUTPUT_LISTS") -> Forall plain outs -> forall v old, Forall plain old -> v l = joined old ->
  fold_left (vars_after call) outs v l = joined (old ++ outs).
Proof.
  intros ND I F. induction F as [|o outs P F IH]; intros v old PO E; [rewrite app_nil_r; exact E|]. cbn [fold_left].
  rewrite (IH _ (old ++ [o])).
  - rewrite <- app_assoc. reflexivity.
  - apply Forall_app; split; [exact PO|constructor; [exact P|constructor]].
  - rewrite vars_after_list by assumption. rewrite E, !joined_join. apply (append_join idb). apply plain_good, PO.
Qed.
