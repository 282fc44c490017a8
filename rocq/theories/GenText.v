(** GenText.v -- the brackets of the generated text are balanced *)
From Coq Require Import String List NArith ZArith Bool Lia Ascii DecimalString.
From Verif Require Import Base BaseFacts Types GenModel GenSem GenSpec GenSelect GenMarkers.
Import ListNotations.
Local Open Scope N_scope.

Lemma lexes_app s1 : forall m stk s2, lexes m stk (s1 ++ s2) = match lexes m stk s1 with Some (m', stk') => lexes m' stk' s2 | None => None end.
Proof.
  induction s1 as [|b s1 IH]; intros m stk s2; [reflexivity|].
  change ((b :: s1) ++ s2) with (b :: (s1 ++ s2)). cbn [lexes].
  destruct (lex m stk b) as [[m' stk']|]; [apply IH|reflexivity].
Qed.

Lemma lex_plain m stk b : plain_char b = true -> m <> LSlash -> lex m stk b = Some (m, stk).
Proof.
  intros P M. destruct m; try contradiction; destruct b; try discriminate P; reflexivity.
Qed.
Lemma lexes_plain s : plain s -> forall m stk, m <> LSlash -> lexes m stk s = Some (m, stk).
Proof.
  unfold plain. induction s as [|b s IH]; cbn; intros P m stk M; [reflexivity|].
  apply andb_true_iff in P. destruct P as [P1 P2]. rewrite lex_plain by assumption. apply IH; assumption.
Qed.

Definition neutral (s : bytes) : Prop := forall stk, lexes LCode stk s = Some (LCode, stk).
Lemma neutral_nil : neutral []. Proof. intros stk; reflexivity. Qed.
Lemma neutral_app s1 s2 : neutral s1 -> neutral s2 -> neutral (s1 ++ s2).
Proof. intros H1 H2 stk. rewrite lexes_app, H1. apply H2. Qed.
Lemma neutral_concat l : (forall s, In s l -> neutral s) -> neutral (concat l).
Proof. induction l as [|s l IH]; intros H; cbn; [apply neutral_nil|]. apply neutral_app; [apply H; left; reflexivity|apply IH; intros; apply H; right; assumption]. Qed.

Lemma plain_dec n : plain (dec n).
Proof.
  unfold dec, plain, bs. destruct (N.to_uint n) as [|u|u|u|u|u|u|u|u|u|u]; [reflexivity|..]; unfold NilZero.string_of_uint;
  cbn [NilEmpty.string_of_uint list_byte_of_string String.list_byte_of_string]; unfold list_byte_of_string;
  cbn [list_ascii_of_string map forallb]; apply andb_true_iff; (split; [reflexivity|]);
  induction u; cbn [NilEmpty.string_of_uint list_ascii_of_string map forallb]; auto.
Qed.

(** symbolic execution of the lexer *)
Ltac lexpiece :=
  rewrite lexes_app;
  first [ match goal with |- context [lexes ?m ?stk ?s] => rewrite (lexes_plain s ltac:(assumption) m stk ltac:(discriminate)) end
        | match goal with |- context [match lexes ?m ?stk ?s with _ => _ end] =>
            let r := eval vm_compute in (lexes m stk s) in
            match r with Some _ => change (lexes m stk s) with r end end ]; cbv beta iota.
Ltac lexend :=
  first [ match goal with |- lexes ?m ?stk ?s = _ => rewrite (lexes_plain s ltac:(assumption) m stk ltac:(discriminate)); reflexivity end | reflexivity ].
Ltac lexall := repeat lexpiece; lexend.

Definition bline_plain (l : bline) : Prop :=
  match l with LNote s => plain s | LBase q => plain q | LVersion b => plain b | LMember n _ => plain n | _ => True end.

Definition is_if (l : bline) : bool := match l with LIf _ _ | LEndIf => true | _ => false end.
Lemma wtext_neutral l : bline_plain l -> is_if l = false -> neutral (wtext l).
Proof.
  intros P I stk. destruct l as [s|q|b|a u| | |n t| |]; try discriminate I; cbn [bline_plain] in P; cbn [wtext]; lexall.
Qed.
Lemma rtext_neutral cls l : plain cls -> bline_plain l -> is_if l = false -> neutral (rtext cls l).
Proof.
  intros PC P I. destruct l as [s|q|b|a u| | |n t| |]; try (apply wtext_neutral; assumption); intros stk; cbn [bline_plain] in P; cbn [rtext]; lexall.
Qed.
Lemma wtext_if a u stk : lexes LCode stk (wtext (LIf a u)) = Some (LCode, Byte.x7d :: stk).
Proof.
  pose proof (plain_dec a) as PA. pose proof (plain_dec u) as PU. cbn [wtext].
  destruct (a =? 0), (u =? 0); rewrite <- ?app_assoc; cbn [app]; lexall.
Qed.
Lemma wtext_endif stk : lexes LCode (Byte.x7d :: stk) (wtext LEndIf) = Some (LCode, stk).
Proof. reflexivity. Qed.

Lemma blocks_lex (text : bline -> bytes) ls :
  (forall l, In l ls -> is_if l = false -> neutral (text l)) ->
  (forall a u, text (LIf a u) = wtext (LIf a u)) -> text LEndIf = wtext LEndIf ->
  forall inside stk, blocks inside ls ->
  lexes LCode (if inside then Byte.x7d :: stk else stk) (concat (map text ls)) = Some (LCode, stk).
Proof.
  intros N TI TE. induction ls as [|l ls IH]; intros inside stk Bl; cbn [concat map].
  - cbn in Bl. subst. reflexivity.
  - rewrite lexes_app. assert (IH' := IH ltac:(intros; apply N; [right|]; assumption)).
    destruct l; cbn [blocks] in Bl;
    try (rewrite (N _ (or_introl eq_refl) eq_refl); cbv beta iota; apply IH'; exact Bl).
    + destruct Bl as [-> Bl]. rewrite TI, wtext_if. cbv beta iota. apply (IH' true). exact Bl.
    + destruct Bl as [-> Bl]. rewrite TE, wtext_endif. cbv beta iota. apply (IH' false). exact Bl.
Qed.

Definition jline_plain (l : jline) : Prop :=
  match l with JNote s => plain s | JBase q => plain q | JSetRecord q => plain q | JMember n _ => plain n | _ => True end.
Lemma push_text_neutral l : jline_plain l -> neutral (push_text l).
Proof. intros P stk. destruct l; cbn [jline_plain] in P; cbn [push_text]; lexall. Qed.
Lemma pull_text_neutral l : jline_plain l -> neutral (pull_text l).
Proof. intros P stk. destruct l; cbn [jline_plain] in P; cbn [pull_text]; lexall. Qed.

(** all names of a class are plain *)
Definition class_plain (k : rclass) : Prop :=
  plain (qname k) /\ (forall b, k_base k = Some b -> plain (cb_printed b))
  /\ (forall n a c t, In (MField n a c t) (cr_decls (k_rec k)) -> plain n).

Definition member_line (l : bline) : Prop := match l with LIf _ _ | LEndIf | LPad | LMember _ _ => True | _ => False end.
Lemma condition_shape m c m1 : write_condition m = (c, m1) -> forall l, In l c -> member_line l.
Proof.
  unfold write_condition, conclude. destruct ((mt_as m =? mt_last_as m) && (mt_until m =? mt_last_until m)); intros E; inversion E; subst; [intros l []|].
  intros l. rewrite in_app_iff. destruct (mt_within m), (negb (mt_as m =? 0) || negb (mt_until m =? 0)); cbn; intros [H|H]; repeat destruct H as [<-|H]; try exact I; try destruct H.
Qed.
Lemma padding_shape m l : In l (padding m) -> member_line l.
Proof. unfold padding. destruct mt_within; intros []; subst; try exact I. destruct H. Qed.
Lemma conclude_shape m l : In l (conclude m) -> member_line l.
Proof. unfold conclude. destruct mt_within; intros []; subst; try exact I. destruct H. Qed.
Lemma writer_shape priv ds : forall m ls m2, writer_members priv ds m = (ls, m2) -> forall l, In l ls -> member_line l.
Proof.
  induction ds as [|d ds IH]; intros m ls m2; cbn [writer_members]; [intros E; inversion E; intros l []|].
  destruct d as [n l'|n acc const t|]; [apply IH| |apply IH].
  destruct const; [apply IH|]. destruct (negb priv && negb (is_public acc)); [apply IH|].
  destruct (write_condition m) as [c m1] eqn:C. destruct (writer_members priv ds (set_written m1)) as [ls' m2'] eqn:W.
  intros E l; inversion E; subst; clear E. rewrite !in_app_iff. intros [H|[H|[<-|H]]]; [eapply condition_shape; eauto|eapply padding_shape; eauto|exact I|eapply IH; eauto].
Qed.
Lemma reader_shape priv ds : forall m ls m2, reader_members priv ds m = (ls, m2) -> forall l, In l ls -> member_line l.
Proof.
  induction ds as [|d ds IH]; intros m ls m2; cbn [reader_members]; [intros E; inversion E; intros l []|].
  destruct d as [n l'|n acc const t|]; [apply IH| |apply IH].
  destruct const; [apply IH|].
  destruct (write_condition m) as [c m1] eqn:C. destruct (priv || is_public acc).
  - destruct (reader_members priv ds (set_written m1)) as [ls' m2'] eqn:W.
    intros E l; inversion E; subst; clear E. rewrite !in_app_iff. intros [H|[H|[<-|H]]]; [eapply condition_shape; eauto|eapply padding_shape; eauto|exact I|eapply IH; eauto].
  - destruct (reader_members priv ds m1) as [ls' m2'] eqn:W.
    intros E l; inversion E; subst; clear E. rewrite !in_app_iff. intros [H|[H|H]]; [eapply condition_shape; eauto|eapply padding_shape; eauto|eapply IH; eauto].
Qed.

Lemma writer_lines_plain rbs k : class_plain k -> (forall b, In b rbs -> class_plain b) -> forall l, In l (writer_lines rbs k) -> bline_plain l.
Proof.
  intros (PQ & PB & PM) PR l. unfold writer_lines. destruct (writer_members _ _ mt0) as [ms m] eqn:W.
  rewrite !in_app_iff. intros [H|[H|[H|[H|[H|[H|H]]]]]].
  - destruct H as [<-|[]]. reflexivity.
  - apply in_map_iff in H. destruct H as (b & <- & Hb). apply (PR _ Hb).
  - unfold version_lines in H. destruct (k_base k) as [b|]; [|destruct H]. destruct H as [<-|[<-|[]]]; [reflexivity|]. apply PB; reflexivity.
  - destruct H as [<-|[]]. reflexivity.
  - pose proof (writer_shape _ _ _ _ _ W _ H) as Sh. destruct l as [s|q|b|a u| | |n t| |]; cbn in Sh |- *; try exact I; try destruct Sh.
    apply (writer_members_in _ _ _ _ _ _ _ W) in H. destruct H as (acc & Hin & _). eapply PM; eauto.
  - pose proof (conclude_shape _ _ H) as Sh. unfold conclude in H. destruct (mt_within m); [destruct H as [<-|[]]; exact I|destruct H].
  - destruct (no_bases rbs && negb (mt_written m)); [destruct H as [<-|[]]; exact I|destruct H].
Qed.
Lemma reader_lines_plain rbs k : class_plain k -> (forall b, In b rbs -> class_plain b) -> forall l, In l (reader_lines rbs k) -> bline_plain l.
Proof.
  intros (PQ & PB & PM) PR l. unfold reader_lines. destruct (reader_members _ _ mt0) as [ms m] eqn:W.
  rewrite !in_app_iff. intros [H|[H|[H|[H|[H|[H|[H|H]]]]]]].
  - destruct H as [<-|[]]. reflexivity.
  - apply in_map_iff in H. destruct H as (b & <- & Hb). apply (PR _ Hb).
  - unfold version_lines in H. destruct (k_base k) as [b|]; [|destruct H]. destruct H as [<-|[<-|[]]]; [reflexivity|]. apply PB; reflexivity.
  - destruct H as [<-|[]]. reflexivity.
  - pose proof (reader_shape _ _ _ _ _ W _ H) as Sh. destruct l as [s|q|b|a u| | |n t| |]; cbn in Sh |- *; try exact I; try destruct Sh.
    apply (reader_members_in _ _ _ _ _ _ _ W) in H. destruct H as (acc & Hin & _). eapply PM; eauto.
  - pose proof (conclude_shape _ _ H) as Sh. unfold conclude in H. destruct (mt_within m); [destruct H as [<-|[]]; exact I|destruct H].
  - destruct (no_bases rbs && negb (mt_written m)); [destruct H as [<-|[]]; exact I|destruct H].
  - destruct H as [<-|[]]. exact I.
Qed.

Lemma push_members_in priv ds l : In l (push_members priv ds) <-> exists n acc c t, l = JMember n t /\ In (MField n acc c t) ds /\ (priv = true \/ acc = Public).
Proof.
  unfold push_members. rewrite in_flat_map. split.
  - intros (d & Hd & Hl). destruct d as [n x|n acc c t|]; [destruct Hl| |destruct Hl].
    destruct (priv || is_public acc) eqn:A; [|destruct Hl]. destruct Hl as [<-|[]]. exists n, acc, c, t. repeat split; auto.
    destruct priv; [auto|]. right. destruct acc; [reflexivity|discriminate..].
  - intros (n & acc & c & t & -> & Hin & A). exists (MField n acc c t). split; [exact Hin|].
    replace (priv || is_public acc) with true; [left; reflexivity|]. destruct A as [->| ->]; [reflexivity|]. rewrite orb_true_r. reflexivity.
Qed.
Lemma pull_members_in priv ds l : In l (pull_members priv ds) <-> exists n acc t, l = JMember n t /\ In (MField n acc false t) ds /\ (priv = true \/ acc = Public).
Proof.
  unfold pull_members. rewrite in_flat_map. split.
  - intros (d & Hd & Hl). destruct d as [n x|n acc c t|]; [destruct Hl| |destruct Hl].
    destruct c; [destruct Hl|]. destruct (priv || is_public acc) eqn:A; [|destruct Hl]. destruct Hl as [<-|[]]. exists n, acc, t. repeat split; auto.
    destruct priv; [auto|]. right. destruct acc; [reflexivity|discriminate..].
  - intros (n & acc & t & -> & Hin & A). exists (MField n acc false t). split; [exact Hin|].
    replace (priv || is_public acc) with true; [left; reflexivity|]. destruct A as [->| ->]; [reflexivity|]. rewrite orb_true_r. reflexivity.
Qed.

Lemma push_lines_plain rbs k : class_plain k -> (forall b, In b rbs -> class_plain b) -> forall l, In l (push_lines rbs k) -> jline_plain l.
Proof.
  intros (PQ & PB & PM) PR l. unfold push_lines. rewrite !in_app_iff. intros [H|[H|[H|[H|H]]]].
  - destruct H as [<-|[]]. reflexivity.
  - apply in_map_iff in H. destruct H as (b & <- & Hb). apply (PR _ Hb).
  - destruct H as [<-|[]]. reflexivity.
  - apply push_members_in in H. destruct H as (n & acc & c & t & -> & Hin & _). eapply PM; eauto.
  - destruct (_ && _) in H; [destruct H as [<-|[]]; exact I|destruct H].
Qed.
Lemma pull_lines_plain rbs k : class_plain k -> (forall b, In b rbs -> class_plain b) -> forall l, In l (pull_lines rbs k) -> jline_plain l.
Proof.
  intros (PQ & PB & PM) PR l. unfold pull_lines. rewrite !in_app_iff. intros [H|[H|[H|[H|[H|H]]]]].
  - destruct H as [<-|[]]. reflexivity.
  - apply in_map_iff in H. destruct H as (b & <- & Hb). apply (PR _ Hb).
  - destruct H as [<-|[<-|[<-|[]]]]; [reflexivity|exact PQ|reflexivity].
  - apply pull_members_in in H. destruct H as (n & acc & t & -> & Hin & _). eapply PM; eauto.
  - destruct (_ && _) in H; [destruct H as [<-|[]]; exact I|destruct H].
  - destruct H as [<-|[<-|[]]]; [reflexivity|exact I].
Qed.

Lemma concat_neutral {A} (f : A -> bytes) l : (forall x, In x l -> neutral (f x)) -> neutral (concat (map f l)).
Proof. intros H. apply neutral_concat. intros s Hs. apply in_map_iff in Hs. destruct Hs as (x & <- & Hx). auto. Qed.

Ltac lexneutral N := rewrite lexes_app, N; cbv beta iota.

Lemma binary_class_neutral o rbs k : plain (o_visibility o) -> class_plain k -> (forall b, In b rbs -> class_plain b) ->
  neutral (binary_class_text o rbs k).
Proof.
  intros PV PK PR stk. assert (PQ: plain (qname k)) by apply PK.
  assert (NW: neutral (concat (map wtext (writer_lines rbs k)))).
  { intros stk'. apply (blocks_lex wtext) with (inside := false); try reflexivity; [|apply writer_blocks].
    intros l Hl I. apply wtext_neutral; [|exact I]. eapply writer_lines_plain; eauto. }
  assert (NR: neutral (concat (map (rtext (qname k)) (reader_lines rbs k)))).
  { intros stk'. apply (blocks_lex (rtext (qname k))) with (inside := false); try reflexivity; [|apply reader_blocks].
    intros l Hl I. apply rtext_neutral; [exact PQ| |exact I]. eapply reader_lines_plain; eauto. }
  unfold binary_class_text. repeat lexpiece. lexneutral NW. repeat lexpiece. destruct (cr_defctor (k_rec k)); [|reflexivity].
  repeat lexpiece. lexneutral NR. lexall.
Qed.

Lemma json_class_neutral o rbs k : plain (o_visibility o) -> class_plain k -> (forall b, In b rbs -> class_plain b) ->
  neutral (json_class_text o rbs k).
Proof.
  intros PV PK PR stk. assert (PQ: plain (qname k)) by apply PK.
  assert (NW: neutral (concat (map push_text (push_lines rbs k)))).
  { apply concat_neutral. intros l Hl. apply push_text_neutral. eapply push_lines_plain; eauto. }
  assert (NR: neutral (concat (map pull_text (pull_lines rbs k)))).
  { apply concat_neutral. intros l Hl. apply pull_text_neutral. eapply pull_lines_plain; eauto. }
  unfold json_class_text. repeat lexpiece. lexneutral NW. repeat lexpiece. destruct (cr_defctor (k_rec k)); [|reflexivity].
  repeat lexpiece. lexneutral NR. lexall.
Qed.

Lemma relevant_plain o ds k : plain_names o ds -> In k (relevant_classes o ds) -> class_plain k.
Proof.
  intros (PV & PQ & PB & PM) Hk. assert (Hr: In (DRecord (k_rec k)) ds).
  { apply relevant_iff with (o := o). apply in_map. exact Hk. }
  split; [apply PQ; exact Hr|]. split; [|intros; eapply PM; eauto].
  intros b Hb.
  assert (HB: k_base k = None \/ k_base k = inherits_from (o_template o) (k_rec k)).
  { unfold relevant_classes, find_relevant in Hk. apply in_flat_map in Hk. destruct Hk as (r & _ & Hk).
    destruct (compute_relevant o _ r) as [[] b'] eqn:E; [destruct Hk as [<-|[]]|destruct Hk|destruct Hk]. cbn [k_rec k_base].
    unfold compute_relevant in E. destruct (negb (cr_complete r)); [discriminate|]. destruct (existsb _ _); [inversion E; auto|].
    destruct (only_included o r); [discriminate|]. destruct (inherits_from (o_template o) r); [inversion E; auto|].
    destruct (existsb _ _); inversion E; auto. }
  destruct HB as [HB|HB]; [congruence|]. rewrite Hb in HB. symmetry in HB. apply find_some in HB. eapply PB; eauto. apply HB.
Qed.

Lemma generate_balanced ns (ct : list rclass -> rclass -> bytes) o ds : plain (bs ns) -> plain_names o ds ->
  (forall rbs k, class_plain k -> (forall b, In b rbs -> class_plain b) -> neutral (ct rbs k)) ->
  balanced (generate_text ns ct ds (relevant_classes o ds)).
Proof.
  intros PN P N. unfold generate_text, balanced.
  assert (NC: neutral (concat (map (fun k => ct (find_bases ds (relevant_classes o ds) k) k) (relevant_classes o ds)))).
  { apply concat_neutral. intros k Hk. apply N; [eapply relevant_plain; eauto|]. intros b Hb. apply filter_In in Hb. eapply relevant_plain; [eauto|apply Hb]. }
  destruct (relevant_classes o ds) as [|k ks]; [reflexivity|].
  revert NC. generalize (concat (map (fun k0 => ct (find_bases ds (k :: ks) k0) k0) (k :: ks))). intros body NC.
  repeat lexpiece. lexneutral NC. lexall.
Qed.

Theorem generate_binary_balanced o ds : plain_names o ds -> balanced (generate_binary o ds).
Proof. intros P. apply generate_balanced; [reflexivity|exact P|]. intros. apply binary_class_neutral; auto. apply P. Qed.
Theorem generate_json_balanced o ds : plain_names o ds -> balanced (generate_json o ds).
Proof. intros P. apply generate_balanced; [reflexivity|exact P|]. intros. apply json_class_neutral; auto. apply P. Qed.

(** members in the function bodies *)
Lemma lines_members rbs k n t :
  let r := k_rec k in
  let may fn acc := befriends r fn = true \/ acc = Public in
  (In (LMember n t) (writer_lines rbs k) <-> exists acc, In (MField n acc false t) (cr_decls r) /\ may fn_write acc)
  /\ (In (LMember n t) (reader_lines rbs k) <-> exists acc, In (MField n acc false t) (cr_decls r) /\ may fn_read acc)
  /\ (In (JMember n t) (push_lines rbs k) <-> exists acc const, In (MField n acc const t) (cr_decls r) /\ may fn_push acc)
  /\ (In (JMember n t) (pull_lines rbs k) <-> exists acc, In (MField n acc false t) (cr_decls r) /\ may fn_pull acc).
Proof.
  intros r may.
  assert (VL: forall s, ~ In (LMember n t) (version_lines s k)) by (intros s; unfold version_lines; destruct (k_base k); cbn; intuition discriminate).
  assert (CL: forall m, ~ In (LMember n t) (conclude m)) by (intros m; unfold conclude; destruct (mt_within m); cbn; intuition discriminate).
  assert (BL: ~ In (LMember n t) (map (fun b => LBase (qname b)) rbs)) by (rewrite in_map_iff; intros (b & E & _); discriminate).
  assert (BJ: ~ In (JMember n t) (map (fun b => JBase (qname b)) rbs)) by (rewrite in_map_iff; intros (b & E & _); discriminate).
  assert (VO: forall b : bool, ~ In (LMember n t) (if b then [LVoid] else [])) by (intros []; cbn; intuition discriminate).
  assert (VJ: forall b : bool, ~ In (JMember n t) (if b then [JVoid] else [])) by (intros []; cbn; intuition discriminate).
  split; [|split; [|split]].
  - unfold writer_lines. destruct (writer_members _ _ mt0) as [ms m] eqn:W. rewrite !in_app_iff.
    pose proof (writer_members_in _ _ n t _ _ _ W) as Q. specialize (VL "write version"%string). specialize (CL m). specialize (VO (no_bases rbs && negb (mt_written m))).
    cbn [In] in *. fold r in Q. split; [|intros H; right; right; right; right; left; apply Q; exact H].
    intros [[H|[]]|[H|[H|[[H|[]]|[H|[H|H]]]]]]; try discriminate; try contradiction. apply Q. exact H.
  - unfold reader_lines. destruct (reader_members _ _ mt0) as [ms m] eqn:W. rewrite !in_app_iff.
    pose proof (reader_members_in _ _ n t _ _ _ W) as Q. specialize (VL "read version"%string). specialize (CL m). specialize (VO (no_bases rbs && negb (mt_written m))).
    cbn [In] in *. fold r in Q. split; [|intros H; right; right; right; right; left; apply Q; exact H].
    intros [[H|[]]|[H|[H|[[H|[]]|[H|[H|[H|[H|[]]]]]]]]]; try discriminate; try contradiction. apply Q. exact H.
  - unfold push_lines. rewrite !in_app_iff. rewrite push_members_in. fold r.
    match goal with |- context[no_bases rbs && ?x] => specialize (VJ (no_bases rbs && x)) end. cbn [In].
    split.
    + intros [[H|[]]|[H|[[H|[]]|[H|H]]]]; try discriminate; try contradiction.
      destruct H as (n' & acc & c & t' & E & Hin & M). inversion E; subst. exists acc, c. auto.
    + intros (acc & c & Hin & M). right; right; right; left. exists n, acc, c, t. auto.
  - unfold pull_lines. rewrite !in_app_iff. rewrite pull_members_in. fold r.
    match goal with |- context[no_bases rbs && ?x] => specialize (VJ (no_bases rbs && x)) end. cbn [In].
    split.
    + intros [[H|[]]|[H|[[H|[H|[H|[]]]]|[H|[H|[H|[H|[]]]]]]]]; try discriminate; try contradiction.
      destruct H as (n' & acc & t' & E & Hin & M). inversion E; subst. exists acc. auto.
    + intros (acc & Hin & M). right; right; right; left. exists n, acc, t. auto.
Qed.
