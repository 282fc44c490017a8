(** GenMarkers.v -- version markers, selected members, blocks *)
From Coq Require Import String List NArith ZArith Bool Lia.
From Verif Require Import Base BaseFacts Bytes Types TypesFacts BinModel BinSpec BinFacts GenModel GenSem GenFacts GenSpec.
Import ListNotations.
Local Open Scope N_scope.

Lemma starts_with_spec p s : starts_with p s = true <-> exists x, s = p ++ x.
Proof.
  revert s; induction p as [|b p IH]; intros s; cbn.
  - split; [intros _; exists s; reflexivity|auto].
  - destruct s as [|c s]; [split; [discriminate|intros [x E]; discriminate]|].
    rewrite andb_true_iff, beqb_eq, IH. split.
    + intros [-> [x ->]]. exists x; reflexivity.
    + intros [x E]. inversion E; subst. split; [reflexivity|exists x; reflexivity].
Qed.

Lemma not_both n : starts_with (bs "rrjAsOfVersion") n = true -> starts_with (bs "rrjUntilVersion") n = true -> False.
Proof. rewrite !starts_with_spec. intros [x ->] [y E]. discriminate E. Qed.

(** classification of a declaration *)
Lemma marker_cases d :
  (exists a, as_of_marker d a /\ forall a' u, d = MVar (match d with MVar n _ => n | _ => [] end) (Some a) /\ bounds (match d with MVar n _ => n | _ => [] end) (Some a) a' u = (a, if u <? a then 0 else u))
  \/ (exists u, until_marker d u /\ forall a u', d = MVar (match d with MVar n _ => n | _ => [] end) (Some u) /\ bounds (match d with MVar n _ => n | _ => [] end) (Some u) a u' = (if u <? a then 0 else a, u))
  \/ ((forall a, ~ as_of_marker d a) /\ (forall u, ~ until_marker d u) /\ forall n l, d = MVar n l -> forall a u, bounds n l a u = (a, u)).
Proof.
  destruct d as [n l|n acc c t|]; [|right; right; repeat split; [intros a [s E]; discriminate|intros a [s E]; discriminate|discriminate]..].
  destruct l as [v|].
  2:{ right; right. repeat split; [intros a [s E]; discriminate|intros a [s E]; discriminate|]. intros n' l' E. inversion E; reflexivity. }
  unfold bounds. destruct (starts_with (bs "rrjAsOfVersion") n) eqn:A.
  - left. exists v. split; [|auto]. apply starts_with_spec in A. destruct A as [x ->]. exists x; reflexivity.
  - destruct (starts_with (bs "rrjUntilVersion") n) eqn:U.
    + right; left. exists v. split; [|auto]. apply starts_with_spec in U. destruct U as [x ->]. exists x; reflexivity.
    + right; right. repeat split.
      * intros a [s E]. inversion E; subst. assert (starts_with (bs "rrjAsOfVersion") (bs "rrjAsOfVersion" ++ s) = true) by (apply starts_with_spec; eauto). congruence.
      * intros a [s E]. inversion E; subst. assert (starts_with (bs "rrjUntilVersion") (bs "rrjUntilVersion" ++ s) = true) by (apply starts_with_spec; eauto). congruence.
      * intros n' l' E. inversion E; subst. intros. rewrite A, U. reflexivity.
Qed.

Lemma as_until_excl d a u : as_of_marker d a -> until_marker d u -> False.
Proof. intros [x ->] [y E]. discriminate E. Qed.
Lemma as_fun d a a' : as_of_marker d a -> as_of_marker d a' -> a = a'.
Proof. intros [x ->] [y E]. inversion E. reflexivity. Qed.
Lemma until_fun d a a' : until_marker d a -> until_marker d a' -> a = a'.
Proof. intros [x ->] [y E]. inversion E. reflexivity. Qed.

Lemma snoc_split {A} (l p1 p2 : list A) d x : l ++ [x] = p1 ++ d :: p2 ->
  (p2 = [] /\ x = d /\ l = p1) \/ (exists p2', p2 = p2' ++ [x] /\ l = p1 ++ d :: p2').
Proof.
  destruct p2 as [|y p2] using rev_ind; intros E.
  - left. apply app_inj_tail in E. destruct E; auto.
  - right. rewrite app_comm_cons, app_assoc in E. apply app_inj_tail in E. destruct E as [-> ->]. eauto.
Qed.

Lemma as_eff_snoc pre d a : as_of_in_effect (pre ++ [d]) a <->
  as_of_marker d a \/ ((forall a', ~ as_of_marker d a') /\ (forall u, until_marker d u -> a <= u) /\ as_of_in_effect pre a).
Proof.
  split.
  - intros (p1 & x & p2 & E & M & P & Q). apply snoc_split in E. destruct E as [(-> & -> & ->)|(p2' & -> & ->)]; [left; exact M|].
    right. split; [intros a'; apply P; apply in_or_app; right; left; reflexivity|].
    split; [intros u; apply Q; apply in_or_app; right; left; reflexivity|].
    exists p1, x, p2'. repeat split; auto; intros y z Hin; [apply P|apply Q]; apply in_or_app; left; exact Hin.
  - intros [M|(N1 & N2 & p1 & x & p2 & -> & M & P & Q)].
    + exists pre, d, []. repeat split; auto; intros ? ? [].
    + exists p1, x, (p2 ++ [d]). repeat split; auto.
      * rewrite <- app_assoc. reflexivity.
      * intros y z Hin. apply in_app_or in Hin. destruct Hin as [Hin|[<-|[]]]; [apply P; exact Hin|apply N1].
      * intros y z Hin. apply in_app_or in Hin. destruct Hin as [Hin|[<-|[]]]; [apply Q; exact Hin|apply N2].
Qed.

Lemma until_eff_snoc pre d u : until_in_effect (pre ++ [d]) u <->
  until_marker d u \/ ((forall u', ~ until_marker d u') /\ (forall a, as_of_marker d a -> a <= u) /\ until_in_effect pre u).
Proof.
  split.
  - intros (p1 & x & p2 & E & M & P & Q). apply snoc_split in E. destruct E as [(-> & -> & ->)|(p2' & -> & ->)]; [left; exact M|].
    right. split; [intros a'; apply P; apply in_or_app; right; left; reflexivity|].
    split; [intros z; apply Q; apply in_or_app; right; left; reflexivity|].
    exists p1, x, p2'. repeat split; auto; intros y z Hin; [apply P|apply Q]; apply in_or_app; left; exact Hin.
  - intros [M|(N1 & N2 & p1 & x & p2 & -> & M & P & Q)].
    + exists pre, d, []. repeat split; auto; intros ? ? [].
    + exists p1, x, (p2 ++ [d]). repeat split; auto.
      * rewrite <- app_assoc. reflexivity.
      * intros y z Hin. apply in_app_or in Hin. destruct Hin as [Hin|[<-|[]]]; [apply P; exact Hin|apply N1].
      * intros y z Hin. apply in_app_or in Hin. destruct Hin as [Hin|[<-|[]]]; [apply Q; exact Hin|apply N2].
Qed.

(** the current bounds are the markers in effect *)
Definition bounds_ok (pre : list mdecl) (a u : N) : Prop :=
  (forall a', a' <> 0 -> (as_of_in_effect pre a' <-> a' = a)) /\ (forall u', u' <> 0 -> (until_in_effect pre u' <-> u' = u)).

Lemma bounds_ok_nil : bounds_ok [] 0 0.
Proof.
  split; intros x Hx; (split; [intros (p1 & d & p2 & E & _); destruct p1; discriminate|intros ->; contradiction]).
Qed.

Lemma bounds_ok_snoc pre a u d : bounds_ok pre a u ->
  match d with MVar n l => bounds_ok (pre ++ [d]) (fst (bounds n l a u)) (snd (bounds n l a u)) | _ => bounds_ok (pre ++ [d]) a u end.
Proof.
  intros [IA IU].
  destruct (marker_cases d) as [(v & M & Q)|[(v & M & Q)|(N1 & N2 & Q)]].
  - destruct (Q a u) as [E B]. rewrite E. cbn [fst snd] in *. rewrite B. cbn [fst snd]. rewrite <- E.
    split; intros x Hx.
    + rewrite as_eff_snoc. split.
      * intros [M'|(N & _)]; [eapply as_fun; eauto|destruct (N _ M)].
      * intros ->. left; exact M.
    + rewrite until_eff_snoc. split.
      * intros [M'|(N & L & Ef)]; [destruct (as_until_excl _ _ _ M M')|].
        apply (IU x Hx) in Ef. subst x. specialize (L _ M). destruct (u <? v) eqn:Lt; [apply N.ltb_lt in Lt; lia|reflexivity].
      * destruct (u <? v) eqn:Lt; [intros ->; contradiction|]. intros ->. apply N.ltb_ge in Lt.
        right. split; [intros u' M'; eapply as_until_excl; eauto|]. split; [|apply IU; auto].
        intros a' M'. rewrite <- (as_fun _ _ _ M M'). exact Lt.
  - destruct (Q a u) as [E B]. rewrite E. cbn [fst snd] in *. rewrite B. cbn [fst snd]. rewrite <- E.
    split; intros x Hx.
    + rewrite as_eff_snoc. split.
      * intros [M'|(N & L & Ef)]; [destruct (as_until_excl _ _ _ M' M)|].
        apply (IA x Hx) in Ef. subst x. specialize (L _ M). destruct (v <? a) eqn:Lt; [apply N.ltb_lt in Lt; lia|reflexivity].
      * destruct (v <? a) eqn:Lt; [intros ->; contradiction|]. intros ->. apply N.ltb_ge in Lt.
        right. split; [intros u' M'; eapply as_until_excl; eauto|]. split; [|apply IA; auto].
        intros a' M'. rewrite <- (until_fun _ _ _ M M'). exact Lt.
    + rewrite until_eff_snoc. split.
      * intros [M'|(N & _)]; [eapply until_fun; eauto|destruct (N _ M)].
      * intros ->. left; exact M.
  - assert (K: bounds_ok (pre ++ [d]) a u).
    { split; intros x Hx; [rewrite as_eff_snoc|rewrite until_eff_snoc].
      - rewrite <- (IA x Hx). split; [intros [M|(_ & _ & Ef)]; [destruct (N1 _ M)|exact Ef]|].
        intros Ef. right. split; [exact N1|]. split; [|exact Ef]. intros u' M. destruct (N2 _ M).
      - rewrite <- (IU x Hx). split; [intros [M|(_ & _ & Ef)]; [destruct (N2 _ M)|exact Ef]|].
        intros Ef. right. split; [exact N2|]. split; [|exact Ef]. intros u' M. destruct (N1 _ M). }
    destruct d as [n l| |]; auto. rewrite (Q n l eq_refl). exact K.
Qed.

Lemma selects_bounds pre a u ver : bounds_ok pre a u -> (version_selects pre ver <-> condition a u ver = true).
Proof.
  intros [IA IU]. unfold version_selects, condition. rewrite andb_true_iff. split.
  - intros [P1 P2]. split.
    + destruct (a =? 0) eqn:E; [reflexivity|]. apply N.eqb_neq in E. apply N.leb_le. apply P1. apply IA; auto.
    + destruct (u =? 0) eqn:E; [reflexivity|]. apply N.eqb_neq in E. apply N.leb_le. destruct (P2 u) as [->|]; [apply IU; auto|contradiction|assumption].
  - intros [P1 P2]. split.
    + intros a' Ef. destruct (N.eq_dec a' 0) as [->|Hne]; [lia|]. apply (IA a' Hne) in Ef. subst a'.
      apply N.eqb_neq in Hne. rewrite Hne in P1. apply N.leb_le. exact P1.
    + intros u' Ef. destruct (N.eq_dec u' 0) as [->|Hne]; [left; reflexivity|]. apply (IU u' Hne) in Ef. subst u'.
      apply N.eqb_neq in Hne. rewrite Hne in P2. right. apply N.leb_le. exact P2.
Qed.

Lemma members_selected priv c ver ds : forall pre a u, bounds_ok pre a u ->
  selected priv ver pre ds (map (fun fd => snd (bf_key fd)) (filter (visible ver) (members priv c ds a u))).
Proof.
  induction ds as [|d ds IH]; intros pre a u Hb; cbn [members]; [constructor|].
  pose proof (bounds_ok_snoc _ _ _ d Hb) as Hn.
  destruct d as [n l|n acc const t|].
  - destruct (bounds n l a u) as [a' u'] eqn:B. cbn [fst snd] in Hn. apply sel_skip; [intros m (x & y & E & _); discriminate|]. apply IH. exact Hn.
  - destruct (negb const && (priv || is_public acc)) eqn:Acc.
    + cbn [filter]. rewrite <- (condition_visible a u ver (c, n) t).
      destruct (condition a u ver) eqn:C.
      * cbn [map bf_key snd]. apply sel_take; [|apply (selects_bounds _ _ _ _ Hb); exact C|apply IH; exact Hn].
        exists acc, t. apply andb_true_iff in Acc. destruct Acc as [A1 A2]. destruct const; [discriminate|]. split; [reflexivity|].
        destruct priv; [auto|]. right. destruct acc; [reflexivity|discriminate..].
      * apply sel_skip; [|apply IH; exact Hn]. intros m _ S. apply (selects_bounds _ _ _ _ Hb) in S. congruence.
    + apply sel_skip; [|apply IH; exact Hn]. intros m (x & y & E & A). inversion E; subst. cbn in Acc.
      destruct A as [->| ->]; [|destruct priv]; discriminate.
  - apply sel_skip; [intros m (x & y & E & _); discriminate|]. apply IH. exact Hn.
Qed.

(** [selected] is a function *)
Lemma selected_fun friend ver : forall pre ds l1, selected friend ver pre ds l1 -> forall l2, selected friend ver pre ds l2 -> l1 = l2.
Proof.
  intros pre ds l1 H. induction H as [pre|pre d ds n names A V S IH|pre d ds names N S IH]; intros l2 H2;
    inversion H2 as [pre'|pre' d' ds' n' names' A' V' S'|pre' d' ds' names' N' S']; subst; auto.
  - f_equal; [|apply IH; assumption]. destruct A as (a1 & t1 & E1 & _). destruct A' as (a2 & t2 & E2 & _). congruence.
  - exfalso. eapply N'; eauto.
  - exfalso. eapply N; eauto.
Qed.

(** iterating over members with a trace *)
Lemma iter_trace ver fds : forall l, rd_iter (fun fd l => ROk (EvMember (snd (bf_key fd)) ver :: l)) fds l
  = ROk (rev (map (fun fd => EvMember (snd (bf_key fd)) ver) fds) ++ l).
Proof. induction fds as [|fd fds IH]; intros l; cbn; [reflexivity|]. rewrite IH, <- app_assoc. reflexivity. Qed.
Lemma iter_trace_bases ver (rbs : list rclass) : forall l, rd_iter (fun b l => ROk (EvBase (qname b) ver :: l)) rbs l
  = ROk (rev (map (fun b => EvBase (qname b) ver) rbs) ++ l).
Proof. induction rbs as [|b fds IH]; intros l; cbn; [reflexivity|]. rewrite IH, <- app_assoc. reflexivity. Qed.

Definition version_events (eff : N -> N) (k : rclass) (ver : N) : N * list event :=
  match k_base k with Some b => (eff ver, [EvVersion (cb_printed b) (eff ver)]) | None => (ver, []) end.

Lemma body_trace eff rbs k fds ver :
  (let! (v, evs) := body (fun q v l => ROk (EvBase q v :: l)) (fun b v l => ROk (eff v, EvVersion b (eff v) :: l))
       (fun n _ v l => ROk (EvMember n v :: l)) rbs k fds ver [] in ROk (v, rev evs))
  = let (v, vev) := version_events eff k ver in
    ROk (v, map (fun b => EvBase (qname b) ver) rbs ++ vev ++ map (fun n => EvMember n v) (map (fun fd => snd (bf_key fd)) (filter (visible v) fds))).
Proof.
  unfold body, version_events, visit_members. rewrite iter_trace_bases. cbn [rbind].
  destruct (k_base k) as [b|]; cbn [rbind]; rewrite iter_trace; cbn [rbind]; f_equal; f_equal;
    rewrite rev_app_distr, rev_involutive, map_map, ?app_nil_r; cbn [rev]; rewrite rev_involutive; [rewrite <- app_assoc|]; reflexivity.
Qed.

Lemma trace_writer eff rbs k ver :
  trace eff (writer_lines rbs k) ver =
  let (v, vev) := version_events eff k ver in
  ROk (v, map (fun b => EvBase (qname b) ver) rbs ++ vev ++ map (fun n => EvMember n v) (map (fun fd => snd (bf_key fd)) (filter (visible v) (bp_fields (writer_prog rbs k))))).
Proof. unfold trace. rewrite exec_writer. apply body_trace. Qed.

Lemma trace_reader eff rbs k p ver : reader_prog rbs k = Some p ->
  trace eff (reader_lines rbs k) ver =
  let (v, vev) := version_events eff k ver in
  ROk (v, map (fun b => EvBase (qname b) ver) rbs ++ vev ++ map (fun n => EvMember n v) (map (fun fd => snd (bf_key fd)) (filter (visible v) (bp_fields p)))).
Proof. intros E. unfold trace. rewrite (exec_reader _ _ _ _ _ _ _ _ E). apply body_trace. Qed.

(** what generated functions do, in terms of the declarations *)
Lemma writer_events eff rbs k ver : exists v vev names,
  (v, vev) = version_events eff k ver
  /\ selected (befriends (k_rec k) fn_write) v [] (cr_decls (k_rec k)) names
  /\ trace eff (writer_lines rbs k) ver
     = ROk (v, map (fun b => EvBase (qname b) ver) rbs ++ vev ++ map (fun n => EvMember n v) names).
Proof.
  rewrite trace_writer. destruct (version_events eff k ver) as [v vev]. exists v, vev. eexists. split; [reflexivity|].
  split; [|reflexivity]. apply members_selected. apply bounds_ok_nil.
Qed.
Lemma reader_events eff rbs k ver : cr_defctor (k_rec k) = true -> exists v vev names,
  (v, vev) = version_events eff k ver
  /\ selected (befriends (k_rec k) fn_read) v [] (cr_decls (k_rec k)) names
  /\ trace eff (reader_lines rbs k) ver
     = ROk (v, map (fun b => EvBase (qname b) ver) rbs ++ vev ++ map (fun n => EvMember n v) names).
Proof.
  intros D. destruct (reader_prog rbs k) as [p|] eqn:E; [|unfold reader_prog in E; rewrite D in E; discriminate].
  rewrite (trace_reader _ _ _ _ _ E). destruct (version_events eff k ver) as [v vev]. exists v, vev. eexists. split; [reflexivity|].
  split; [|reflexivity]. unfold reader_prog in E. rewrite D in E. inversion E. apply members_selected. apply bounds_ok_nil.
Qed.

(* ------------------------------------------------------------------ *)
(** which members occur in the text at all *)
Lemma writer_members_in priv ds n t : forall m ls m2, writer_members priv ds m = (ls, m2) ->
  (In (LMember n t) ls <-> exists acc, In (MField n acc false t) ds /\ (priv = true \/ acc = Public)).
Proof.
  induction ds as [|d ds IH]; intros m ls m2; cbn [writer_members].
  - intros E; inversion E. split; [intros []|intros (acc & [] & _)].
  - destruct d as [n' l|n' acc' const t'|].
    + intros E. rewrite (IH _ _ _ E). split; intros (acc & Hin & Q); exists acc; (split; [|exact Q]); [right; exact Hin|].
      destruct Hin as [Hin|Hin]; [discriminate|exact Hin].
    + destruct const.
      { intros E. rewrite (IH _ _ _ E). split; intros (acc & Hin & Q); exists acc; (split; [|exact Q]); [right; exact Hin|].
        destruct Hin as [Hin|Hin]; [discriminate|exact Hin]. }
      destruct (negb priv && negb (is_public acc')) eqn:A.
      { intros E. rewrite (IH _ _ _ E). apply andb_true_iff in A. destruct A as [A1 A2].
        split; intros (acc & Hin & Q); exists acc; (split; [|exact Q]); [right; exact Hin|].
        destruct Hin as [Hin|Hin]; [|exact Hin]. inversion Hin; subst. destruct Q as [->| ->]; discriminate. }
      destruct (write_condition m) as [c m1] eqn:C. destruct (writer_members priv ds (set_written m1)) as [ls' m2'] eqn:W.
      intros E; inversion E; subst; clear E. rewrite !in_app_iff; cbn [In app]; rewrite (IH _ _ _ W).
      assert (NC: ~ In (LMember n t) c).
      { unfold write_condition, conclude in C. destruct ((mt_as m =? mt_last_as m) && (mt_until m =? mt_last_until m)); inversion C; subst; [intros []|].
        rewrite in_app_iff. destruct (mt_within m), (negb (mt_as m =? 0) || negb (mt_until m =? 0)); cbn; intuition discriminate. }
      assert (NP: ~ In (LMember n t) (padding m1)) by (unfold padding; destruct mt_within; cbn; intuition discriminate).
      split.
      * intros [X|[X|[X|(acc & Hin & Q)]]]; [contradiction|contradiction| |exists acc; auto].
        inversion X; subst. exists acc'. split; [left; reflexivity|]. destruct priv; [auto|]. right. destruct acc'; [reflexivity|discriminate..].
      * intros (acc & [Hin|Hin] & Q); [inversion Hin; subst; auto|]. right; right; right. eauto.
    + intros E. rewrite (IH _ _ _ E). split; intros (acc & Hin & Q); exists acc; (split; [|exact Q]); [right; exact Hin|].
      destruct Hin as [Hin|Hin]; [discriminate|exact Hin].
Qed.

Lemma reader_members_in priv ds n t : forall m ls m2, reader_members priv ds m = (ls, m2) ->
  (In (LMember n t) ls <-> exists acc, In (MField n acc false t) ds /\ (priv = true \/ acc = Public)).
Proof.
  induction ds as [|d ds IH]; intros m ls m2; cbn [reader_members].
  - intros E; inversion E. split; [intros []|intros (acc & [] & _)].
  - destruct d as [n' l|n' acc' const t'|].
    + intros E. rewrite (IH _ _ _ E). split; intros (acc & Hin & Q); exists acc; (split; [|exact Q]); [right; exact Hin|].
      destruct Hin as [Hin|Hin]; [discriminate|exact Hin].
    + destruct const.
      { intros E. rewrite (IH _ _ _ E). split; intros (acc & Hin & Q); exists acc; (split; [|exact Q]); [right; exact Hin|].
        destruct Hin as [Hin|Hin]; [discriminate|exact Hin]. }
      destruct (write_condition m) as [c m1] eqn:C.
      assert (NC: ~ In (LMember n t) c).
      { unfold write_condition, conclude in C. destruct ((mt_as m =? mt_last_as m) && (mt_until m =? mt_last_until m)); inversion C; subst; [intros []|].
        rewrite in_app_iff. destruct (mt_within m), (negb (mt_as m =? 0) || negb (mt_until m =? 0)); cbn; intuition discriminate. }
      assert (NP: ~ In (LMember n t) (padding m1)) by (unfold padding; destruct mt_within; cbn; intuition discriminate).
      destruct (priv || is_public acc') eqn:A.
      * destruct (reader_members priv ds (set_written m1)) as [ls' m2'] eqn:W.
        intros E; inversion E; subst; clear E. rewrite !in_app_iff; cbn [In app]; rewrite (IH _ _ _ W).
        split.
        -- intros [X|[X|[X|(acc & Hin & Q)]]]; [contradiction|contradiction| |exists acc; auto].
           inversion X; subst. exists acc'. split; [left; reflexivity|]. destruct priv; [auto|]. right. destruct acc'; [reflexivity|discriminate..].
        -- intros (acc & [Hin|Hin] & Q); [inversion Hin; subst; auto|]. right; right; right. eauto.
      * destruct (reader_members priv ds m1) as [ls' m2'] eqn:W.
        intros E; inversion E; subst; clear E. rewrite !in_app_iff, (IH _ _ _ W).
        split.
        -- intros [X|[X|(acc & Hin & Q)]]; [contradiction|contradiction|exists acc; split; [right; exact Hin|exact Q]].
        -- intros (acc & [Hin|Hin] & Q); [inversion Hin; subst; destruct Q as [->| ->]; [|destruct priv]; discriminate|]. right; right. eauto.
    + intros E. rewrite (IH _ _ _ E). split; intros (acc & Hin & Q); exists acc; (split; [|exact Q]); [right; exact Hin|].
      destruct Hin as [Hin|Hin]; [discriminate|exact Hin].
Qed.

(* ------------------------------------------------------------------ *)
(** blocks are not nested *)
Lemma blocks_app ls : forall b b' rest, (forall r, blocks b (ls ++ r) <-> blocks b' r) -> blocks b' rest -> blocks b (ls ++ rest).
Proof. intros b b' rest H. apply H. Qed.

Lemma write_condition_blocks m c m1 : write_condition m = (c, m1) ->
  forall rest, blocks (mt_within m1) rest -> blocks (mt_within m) (c ++ rest).
Proof.
  unfold write_condition, conclude. destruct ((mt_as m =? mt_last_as m) && (mt_until m =? mt_last_until m)); intros E; inversion E; subst; clear E; auto.
  cbn [mt_within]. intros rest. rewrite <- app_assoc. destruct (mt_within m); cbn; destruct (negb (mt_as m =? 0) || negb (mt_until m =? 0)); cbn; auto.
Qed.
Lemma padding_blocks m b rest : blocks b rest -> blocks b (padding m ++ rest).
Proof. unfold padding. destruct mt_within; auto. Qed.
Lemma conclude_blocks m rest : blocks false rest -> blocks (mt_within m) (conclude m ++ rest).
Proof. unfold conclude. destruct mt_within; cbn; auto. Qed.

Lemma writer_members_blocks priv ds : forall m ls m2, writer_members priv ds m = (ls, m2) ->
  forall rest, blocks (mt_within m2) rest -> blocks (mt_within m) (ls ++ rest).
Proof.
  induction ds as [|d ds IH]; intros m ls m2; cbn [writer_members].
  - intros E; inversion E; auto.
  - destruct d as [n l|n acc const t|].
    + intros E rest Hr. destruct (marker_rest m n l) as (_ & _ & W & _). rewrite <- W. eapply IH; eauto.
    + destruct const; [apply IH|]. destruct (negb priv && negb (is_public acc)); [apply IH|].
      destruct (write_condition m) as [c m1] eqn:C. destruct (writer_members priv ds (set_written m1)) as [ls' m2'] eqn:W.
      intros E rest Hr; inversion E; subst; clear E. rewrite <- !app_assoc. eapply write_condition_blocks; eauto.
      apply padding_blocks. cbn [app blocks]. eapply (IH _ _ _ W); eauto.
    + apply IH.
Qed.
Lemma reader_members_blocks priv ds : forall m ls m2, reader_members priv ds m = (ls, m2) ->
  forall rest, blocks (mt_within m2) rest -> blocks (mt_within m) (ls ++ rest).
Proof.
  induction ds as [|d ds IH]; intros m ls m2; cbn [reader_members].
  - intros E; inversion E; auto.
  - destruct d as [n l|n acc const t|].
    + intros E rest Hr. destruct (marker_rest m n l) as (_ & _ & W & _). rewrite <- W. eapply IH; eauto.
    + destruct const; [apply IH|].
      destruct (write_condition m) as [c m1] eqn:C.
      destruct (priv || is_public acc); [destruct (reader_members priv ds (set_written m1)) as [ls' m2'] eqn:W|destruct (reader_members priv ds m1) as [ls' m2'] eqn:W];
      intros E rest Hr; inversion E; subst; clear E; rewrite <- !app_assoc; eapply write_condition_blocks; eauto;
      apply padding_blocks; cbn [app blocks]; eapply (IH _ _ _ W); eauto.
    + apply IH.
Qed.

Lemma blocks_bases (rbs : list rclass) rest : blocks false rest -> blocks false (map (fun b => LBase (qname b)) rbs ++ rest).
Proof. induction rbs; cbn; auto. Qed.

Lemma writer_blocks rbs k : blocks false (writer_lines rbs k).
Proof.
  unfold writer_lines. destruct (writer_members _ _ mt0) as [ms m] eqn:W. cbn [app blocks]. apply blocks_bases.
  assert (Q: blocks false (ms ++ conclude m ++ (if no_bases rbs && negb (mt_written m) then [LVoid] else []))).
  { apply (writer_members_blocks _ _ _ _ _ W). apply conclude_blocks. destruct (no_bases rbs && negb (mt_written m)); reflexivity. }
  unfold version_lines. destruct (k_base k); exact Q.
Qed.
Lemma reader_blocks rbs k : blocks false (reader_lines rbs k).
Proof.
  unfold reader_lines. destruct (reader_members _ _ mt0) as [ms m] eqn:W. cbn [app blocks]. apply blocks_bases.
  assert (Q: blocks false (ms ++ conclude m ++ (if no_bases rbs && negb (mt_written m) then [LVoid] else []) ++ [LReturn])).
  { apply (reader_members_blocks _ _ _ _ _ W). apply conclude_blocks. destruct (no_bases rbs && negb (mt_written m)); reflexivity. }
  unfold version_lines. destruct (k_base k); exact Q.
Qed.
