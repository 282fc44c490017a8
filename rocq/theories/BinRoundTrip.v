(** BinRoundTrip.v -- reading back what was written *)
From Coq Require Import List NArith ZArith Bool Lia Permutation.
From Verif Require Import Base BaseFacts Bytes BytesFacts Types TypesFacts BinModel FuelFacts BinSpec.
Import ListNotations.

Lemma rd_wr_int k z s : in_range k z = true -> rd_int k (wr_int k z ++ s) = ROk (z, s).
Proof.
  intros R. apply in_range_spec in R. unfold rd_int, wr_int. rewrite rd_be_enc_int. cbn [rbind].
  unfold kmin, kmax in R. destruct (ksigned k) eqn:E.
  - rewrite dec_signed_enc; [reflexivity|destruct k; cbn; lia|lia].
  - rewrite dec_unsigned_enc by lia. reflexivity.
Qed.

(** an object which has just been read can be read into again *)
Lemma good_again G H ex wv rv t old v : good G H ex wv rv t old v -> rereadable G wv rv t ->
  forall ro o, same_value G ro t v o -> good G H ex wv rv t o v.
Proof.
  intros Gd. induction Gd as [ex wv rv old b|ex wv rv k old z Hk Hz|ex wv rv k old z Hk Hz|ex wv rv old n Hn|ex wv rv old n Hn|ex wv rv old x Hx|ex wv rv old z Hz|ex wv rv old z Hz
    |ex wv rv t olds l Hl He IH|ex wv rv ord multi t l Hex Hl Hc He IH|ex wv rv ord multi kt vt l Hex Hl Hc Hp Hk IHk Hv IHv|ex wv rv ta tb oa ob a b Ga IHa Gb IHb
    |ex wv rv t old|ex wv rv t old x Gx IHx|ex wv rv t old|ex wv rv t old x Gx IHx|ex wv rv t old|wv rv t old a x Hh|ex wv rv ts old i Hl Hi|ex wv rv ts old i t x Hl Hi Hm Gx IHx
    |ex wv rv c rc os fs L Hc Eo El ND HV HR Hla Hg IH Hu];
    intros R ro o S; try (econstructor; eassumption).
  - (* sequences *)
    assert (Rt : rereadable G 0 0 t) by (inversion R as [? ? ? X|? ? ? X| |]; subst; [destruct X|exact X]).
    assert (exists l', o = VList l' /\ length l = length l' /\ forall i x, nth_error l i = Some x -> same_value G ro t x (nth i l' (vinit G t))) as (l' & -> & Len & Q).
    { inversion S as [? ? Sf|? ? l' Len Q| | | | | | | |]; subst.
      - exists l. split; [reflexivity|]. split; [reflexivity|]. intros i x E. rewrite (nth_error_nth _ _ _ E). apply sv_same. cbn in Sf. rewrite forallb_forall in Sf. apply Sf. eapply nth_error_In; exact E.
      - exists l'. split; [reflexivity|]. split; [exact Len|]. intros i x E. apply Q. clear - E Len. revert i l' Len E. induction l as [|y l IH]; intros [|i] [|y' l'] Len E; try discriminate; cbn in *.
        + injection E as ->. left. reflexivity.
        + right. apply IH; [lia|exact E]. }
    constructor; [exact Hl|]. intros i x E. eapply IH; eauto.
  - (* sets are not reread *) exfalso. inversion R as [? ? ? X| | |]; subst; destruct X.
  - exfalso. inversion R as [? ? ? X| | |]; subst; destruct X.
  - (* pairs *)
    assert (Rt : rereadable G 0 0 ta /\ rereadable G 0 0 tb) by (inversion R as [? ? ? X| |? ? ? ? X Y|]; subst; [destruct X|split; assumption]). destruct Rt as [Ra Rb].
    inversion S as [? ? Sf| | | |? ? ? ? a' b' Sa Sb| | | | |]; subst.
    + cbn in Sf. apply andb_true_iff in Sf. destruct Sf as [S1 S2]. constructor; [apply (IHa Ra ro)|apply (IHb Rb ro)]; apply sv_same; assumption.
    + constructor; [eapply IHa|eapply IHb]; eauto.
  - (* objects *)
    inversion R as [? ? ? X| | |? ? ? rc' L' Hc' HV' Hall Hrr]; subst; [destruct X|]. assert (rc' = rc) by congruence. subst rc'. rewrite <- (visits_fun G wv rv c L HV L' HV') in *. clear L' HV' Hc'.
    assert (exists os', o = VObj os' /\ map fst os' = map fst fs /\ forall k t v v', alookup fkey_eqb k (rc_layout rc) = Some t -> alookup fkey_eqb k fs = Some v -> alookup fkey_eqb k os' = Some v' -> same_value G ro t v v') as (os' & -> & Eo' & Q).
    { inversion S as [? ? Sf| | | | | | | | |? rc' ? fs' Hc' Ef Q]; subst.
      - exists fs. split; [reflexivity|]. split; [reflexivity|]. intros k t v v' _ E1 E2. assert (v' = v) by congruence. subst v'. apply sv_same. cbn in Sf. rewrite forallb_forall in Sf.
        apply (Sf (k, v)). eapply alookup_in; [apply fkey_eqb_eq|exact E1].
      - assert (rc' = rc) by congruence. subst rc'. exists fs'. split; [reflexivity|]. split; [exact Ef|exact Q]. }
    apply (g_struct G H ex wv rv c rc os' fs L); try assumption.
    + intros x o v Hin E1 E2. assert (exists o0, alookup fkey_eqb (vi_key x) os = Some o0) as (o0 & E0).
      { eapply alookup_some_in; [apply fkey_eqb_eq|]. rewrite Eo. eapply alookup_some_key; [apply fkey_eqb_eq|exact E2]. }
      eapply IH; [exact Hin|exact E0|exact E2|apply Hrr; exact Hin|]. eapply Q; [apply Hla; exact Hin|exact E2|exact E1].
    + intros k v Hk E. exfalso. apply Hk, Hall. rewrite El. eapply alookup_some_key; [apply fkey_eqb_eq|exact E].
Qed.

Section RT.
  Variable G : genv.
  Variable H : heap.
  Hypothesis HA : alloc_ok G.
  Hypothesis HP : place_ok G.
  Hypothesis HG : heap_good G H.

  Notation sv := (same_value G).

  Lemma sv_mono ro ro' t v v' : incl ro ro' -> sv ro t v v' -> sv ro' t v v'.
  Proof.
    intros Hi S. induction S; try (econstructor; eauto; fail).
  Qed.

  (** state correspondence between serializer and deserializer *)
  Record sync (ro : list (N * N)) (W : list N) (st : rstate) : Prop := {
    s_dom : forall a, In a W -> exists a' t x, In (a, a') ro /\ hget H a = Some (t, x) /\ alookup N.eqb a (r_ptr st) = Some (a', t);
    s_ro : forall a a', In (a, a') ro -> In a W /\ In a' (map fst (r_heap st));
    s_fst : NoDup (map fst ro);
    s_snd : NoDup (map snd ro) }.

  Record step (ro : list (N * N)) (W : list N) (st : rstate) (ro' : list (N * N)) (W' : list N) (st' : rstate) : Prop := {
    p_sync : sync ro' W' st';
    p_ro : incl ro ro';
    p_W : incl W W';
    p_dom : incl (map fst (r_heap st)) (map fst (r_heap st'));
    p_old : forall a, In a (map fst (r_heap st)) -> hget (r_heap st') a = hget (r_heap st) a;
    p_new : forall a a', In (a, a') ro' -> In (a, a') ro \/
      exists t x x', hget H a = Some (t, x) /\ hget (r_heap st') a' = Some (t, x') /\ sv ro' t x x'
                     /\ ~ In a' (map fst (r_heap st));
    p_cover : forall a', In a' (map fst (r_heap st')) -> In a' (map fst (r_heap st)) \/ exists a, In (a, a') ro' }.

  Lemma step_refl ro W st : sync ro W st -> step ro W st ro W st.
  Proof. intros S. constructor; auto; try apply incl_refl. Qed.

  Lemma step_trans ro W st ro1 W1 st1 ro2 W2 st2 :
    step ro W st ro1 W1 st1 -> step ro1 W1 st1 ro2 W2 st2 -> step ro W st ro2 W2 st2.
  Proof.
    intros A B. constructor.
    - apply B.
    - eapply incl_tran; [apply A|apply B].
    - eapply incl_tran; [apply A|apply B].
    - eapply incl_tran; [apply A|apply B].
    - intros a Ha. rewrite (p_old _ _ _ _ _ _ B) by (apply (p_dom _ _ _ _ _ _ A); exact Ha).
      apply (p_old _ _ _ _ _ _ A). exact Ha.
    - intros a a' Hin. destruct (p_new _ _ _ _ _ _ B a a' Hin) as [Hin1|(t & x & x' & E1 & E2 & E3 & E4)].
      + destruct (p_new _ _ _ _ _ _ A a a' Hin1) as [Hin0|(t & x & x' & E1 & E2 & E3 & E4)]; [left; exact Hin0|].
        right. exists t, x, x'. repeat split; auto.
        * rewrite (p_old _ _ _ _ _ _ B); [exact E2|]. eapply alookup_some_key; [apply N.eqb_eq|exact E2].
        * eapply sv_mono; [apply (p_ro _ _ _ _ _ _ B)|exact E3].
      + right. exists t, x, x'. repeat split; auto. intros Hc. apply E4. apply (p_dom _ _ _ _ _ _ A). exact Hc.
    - intros a' Ha. destruct (p_cover _ _ _ _ _ _ B a' Ha) as [Hb|Hb]; [|right; exact Hb].
      destruct (p_cover _ _ _ _ _ _ A a' Hb) as [Hc|[a Hc]]; [left; exact Hc|].
      right. exists a. apply (p_ro _ _ _ _ _ _ B). exact Hc.
  Qed.

  (** statement for values *)
  Definition P_val (f : nat) : Prop :=
    forall ex wv rv t old v W bs W',
      good G H ex wv rv t old v ->
      write G H f wv t v W = ROk (bs, W') ->
      forall ro st rest, sync ro W st ->
      exists v' st' ro',
        read G f rv t old (bs ++ rest) st = ROk (v', rest, st')
        /\ step ro W st ro' W' st' /\ sv ro' t v v' /\ (ex = true -> v' = v).

  (** statement for class bodies: every member in [L] is restored, others are left alone *)
  Definition Pre (ex : bool) (fs os : list (fkey * val)) (L : list visit) : Prop :=
    forall x, In x L -> exists o v, alookup fkey_eqb (vi_key x) os = Some o /\ alookup fkey_eqb (vi_key x) fs = Some v
      /\ good G H ex (vi_w x) (vi_r x) (vi_ty x) o v.
  Record Post (ex : bool) (fs os os' : list (fkey * val)) (L : list visit) (ro' : list (N * N)) : Prop := {
    po_keys : map fst os' = map fst os;
    po_in : forall x, In x L -> exists v v', alookup fkey_eqb (vi_key x) fs = Some v /\ alookup fkey_eqb (vi_key x) os' = Some v'
              /\ sv ro' (vi_ty x) v v' /\ (ex = true -> v' = v);
    po_out : forall k, ~ In k (map vi_key L) -> alookup fkey_eqb k os' = alookup fkey_eqb k os }.

  Definition P_cls (f : nat) : Prop :=
    forall ex wv rv c L fs os W bs W',
      visits G wv rv c L -> repeatable G L -> Pre ex fs os L ->
      write_cls G H f wv c fs W = ROk (bs, W') ->
      forall ro st rest, sync ro W st ->
      exists os' st' ro',
        read_cls G f rv c os (bs ++ rest) st = ROk (os', restored_version G wv rv c, rest, st')
        /\ step ro W st ro' W' st' /\ Post ex fs os os' L ro'.

  Lemma Post_nil ex fs os ro : Post ex fs os os [] ro.
  Proof. constructor; auto. intros x []. Qed.

  Lemma FOP_app {A} (R : A -> A -> Prop) l1 l2 : ForallOrdPairs R (l1 ++ l2) -> ForallOrdPairs R l1 /\ ForallOrdPairs R l2 /\ forall x y, In x l1 -> In y l2 -> R x y.
  Proof.
    induction l1 as [|a l1 IH]; intros F; [split; [constructor|]; split; [exact F|intros x y []]|]. cbn in F. inversion F as [|? ? Fa F']; subst.
    rewrite Forall_app in Fa. destruct Fa as [F1 F2]. destruct (IH F') as (H1 & H2 & H3). split; [constructor; assumption|]. split; [exact H2|].
    intros x y [<-|Hx] Hy; [rewrite Forall_forall in F2; apply F2; exact Hy|apply H3; assumption].
  Qed.
  Lemma rep_l L1 L2 : repeatable G (L1 ++ L2) -> repeatable G L1. Proof. intros F. apply (FOP_app _ _ _ F). Qed.
  Lemma rep_r L1 L2 : repeatable G (L1 ++ L2) -> repeatable G L2. Proof. intros F. apply (FOP_app _ _ _ F). Qed.
  Lemma rep_both L1 L2 x : repeatable G (L1 ++ L2) -> In (vi_key x) (map vi_key L1) -> In x L2 -> In x L1 /\ rereadable G (vi_w x) (vi_r x) (vi_ty x).
  Proof.
    intros F H1 H2. apply in_map_iff in H1. destruct H1 as (y & E & Hy). destruct (proj2 (proj2 (FOP_app _ _ _ F)) y x Hy H2 E) as [-> Rr]. auto.
  Qed.
  Lemma rep_both' L1 L2 x : repeatable G (L1 ++ L2) -> In x L1 -> In (vi_key x) (map vi_key L2) -> In x L2.
  Proof.
    intros F H1 H2. apply in_map_iff in H2. destruct H2 as (y & E & Hy). destruct (proj2 (proj2 (FOP_app _ _ _ F)) x y H1 Hy (eq_sym E)) as [-> Rr]. exact Hy.
  Qed.

  Lemma Post_app ex fs os os1 os2 L1 L2 ro1 ro2 :
    repeatable G (L1 ++ L2) -> incl ro1 ro2 ->
    Post ex fs os os1 L1 ro1 -> Post ex fs os1 os2 L2 ro2 -> Post ex fs os os2 (L1 ++ L2) ro2.
  Proof.
    intros ND Hi A B. constructor.
    - rewrite (po_keys _ _ _ _ _ _ B). apply A.
    - intros x Hin. apply in_app_or in Hin. destruct (in_dec fkey_eq_dec (vi_key x) (map vi_key L2)) as [i|n].
      + apply (po_in _ _ _ _ _ _ B x). destruct Hin as [Hin|Hin]; [eapply rep_both'; eauto|exact Hin].
      + destruct Hin as [Hin|Hin]; [|exfalso; apply n, in_map; exact Hin].
        destruct (po_in _ _ _ _ _ _ A x Hin) as (v & v' & E1 & E2 & E3 & E4).
        exists v, v'. repeat split; auto.
        * rewrite (po_out _ _ _ _ _ _ B); [exact E2|exact n].
        * eapply sv_mono; eauto.
    - intros k Hk. rewrite map_app in Hk. rewrite (po_out _ _ _ _ _ _ B) by (intros Hc; apply Hk, in_or_app; auto).
      apply (po_out _ _ _ _ _ _ A). intros Hc; apply Hk, in_or_app; auto.
  Qed.

  Lemma NoDup_app_disj {A} (l1 l2 : list A) x : NoDup (l1 ++ l2) -> In x l1 -> ~ In x l2.
  Proof.
    induction l1 as [|y l IH]; intros ND [].
    - subst. cbn in ND. apply NoDup_cons_iff in ND. destruct ND as [N1 _]. intros Hc; apply N1, in_or_app; auto.
    - cbn in ND. apply NoDup_cons_iff in ND. destruct ND as [_ ND]. auto.
  Qed.

  Lemma NoDup_app_l {A} (l1 l2 : list A) : NoDup (l1 ++ l2) -> NoDup l1.
  Proof.
    induction l1 as [|y l IH]; intros ND; [constructor|]. cbn in ND. apply NoDup_cons_iff in ND. destruct ND as [N1 N2].
    constructor; [|auto]. intros Hc; apply N1, in_or_app; auto.
  Qed.
  Lemma NoDup_app_r {A} (l1 l2 : list A) : NoDup (l1 ++ l2) -> NoDup l2.
  Proof. induction l1 as [|y l IH]; intros ND; [exact ND|]. cbn in ND. apply NoDup_cons_iff in ND. apply IH, ND. Qed.

  Lemma Pre_app ex fs os os1 L1 L2 ro1 :
    repeatable G (L1 ++ L2) -> Pre ex fs os (L1 ++ L2) -> Post ex fs os os1 L1 ro1 -> Pre ex fs os1 L2.
  Proof.
    intros ND P A x Hin. destruct (P x (in_or_app _ _ _ (or_intror Hin))) as (o & v & E1 & E2 & E3).
    destruct (in_dec fkey_eq_dec (vi_key x) (map vi_key L1)) as [i|n].
    - destruct (rep_both L1 L2 x ND i Hin) as [Hin1 Rr]. destruct (po_in _ _ _ _ _ _ A x Hin1) as (w & v' & F1 & F2 & F3 & _).
      assert (w = v) by congruence. subst w. exists v', v. split; [exact F2|]. split; [exact E2|]. eapply good_again; eauto.
    - exists o, v. repeat split; auto. rewrite (po_out _ _ _ _ _ _ A); [exact E1|exact n].
  Qed.

  Lemma Pre_l ex fs os L1 L2 : Pre ex fs os (L1 ++ L2) -> Pre ex fs os L1.
  Proof. intros P x Hin. apply P. apply in_or_app; auto. Qed.

  Lemma wr_iter_filter {A} (p : A -> bool) (w : A -> list N -> res (bytes * list N)) l : forall W,
    wr_iter (fun x W => if p x then w x W else ROk ([], W)) l W = wr_iter w (filter p l) W.
  Proof.
    induction l as [|x l IH]; intros W; cbn [wr_iter filter]; [reflexivity|].
    destruct (p x); cbn [wr_iter].
    - apply rbind_ext. intros [b1 W1]. rewrite IH. reflexivity.
    - cbn [rbind]. rewrite IH. destruct (wr_iter w (filter p l) W) as [[b W']| | | |]; reflexivity.
  Qed.

  Lemma rd_iter_filter {A S} (p : A -> bool) (r : A -> S -> res S) l : forall s,
    rd_iter (fun x s => if p x then r x s else ROk s) l s = rd_iter r (filter p l) s.
  Proof.
    induction l as [|x l IH]; intros s; cbn [rd_iter filter]; [reflexivity|].
    destruct (p x); cbn [rd_iter].
    - apply rbind_ext. intros s1. apply IH.
    - cbn [rbind]. apply IH.
  Qed.

  Lemma rd_iter_ext {A S} (r r' : A -> S -> res S) l : (forall x s, r x s = r' x s) -> forall s, rd_iter r l s = rd_iter r' l s.
  Proof. intros E. induction l as [|x l IH]; intros s; cbn [rd_iter]; [reflexivity|]. rewrite E. apply rbind_ext. intros; apply IH. Qed.

  Lemma wr_iter_cons {A} (w : A -> list N -> res (bytes * list N)) x l W bs W' :
    wr_iter w (x :: l) W = ROk (bs, W') ->
    exists b1 W1 b2, w x W = ROk (b1, W1) /\ wr_iter w l W1 = ROk (b2, W') /\ bs = b1 ++ b2.
  Proof.
    cbn [wr_iter]. intros E. apply rbind_ok in E. destruct E as [[b1 W1] [E1 E2]].
    apply rbind_ok in E2. destruct E2 as [[b2 W2] [E2 E3]]. inversion E3; subst. eauto 10.
  Qed.

  (** base classes *)
  Lemma bases_rt f ex wv rv fs : P_cls f -> forall bs Ls, Forall2 (visits G wv rv) bs Ls ->
    forall os W b W', repeatable G (concat Ls) -> Pre ex fs os (concat Ls) ->
    wr_iter (fun b => write_cls G H f wv b fs) bs W = ROk (b, W') ->
    forall ro st rest, sync ro W st ->
    exists os' st' ro',
      rd_iter (S:=list (fkey * val) * bytes * rstate) (fun b '(os, s, st) => let! (os', _, s', st') := read_cls G f rv b os s st in ROk (os', s', st'))
        bs (os, b ++ rest, st) = ROk (os', rest, st')
      /\ step ro W st ro' W' st' /\ Post ex fs os os' (concat Ls) ro'.
  Proof.
    intros PC bs Ls F. induction F as [|c L bs Ls V F IH]; intros os W b W' ND P E ro st rest S.
    - cbn in E. inversion E; subst. exists os, st, ro. cbn. split; [reflexivity|].
      split; [apply step_refl; exact S|apply Post_nil].
    - apply wr_iter_cons in E. destruct E as (b1 & W1 & b2 & E1 & E2 & ->). cbn [concat] in *.
      destruct (PC ex wv rv c L fs os W b1 W1 V (rep_l _ _ ND) (Pre_l _ _ _ _ _ P) E1 ro st (b2 ++ rest) S)
        as (os1 & st1 & ro1 & R1 & S1 & Q1).
      destruct (IH os1 W1 b2 W' (rep_r _ _ ND) (Pre_app _ _ _ _ _ _ _ ND P Q1) E2 ro1 st1 rest (p_sync _ _ _ _ _ _ S1))
        as (os2 & st2 & ro2 & R2 & S2 & Q2).
      exists os2, st2, ro2. split; [|split].
      + cbn [rd_iter]. rewrite <- app_assoc, R1. cbn [rbind]. exact R2.
      + eapply step_trans; eauto.
      + eapply Post_app; eauto. apply (p_ro _ _ _ _ _ _ S2).
  Qed.

  (** members *)
  Lemma fields_rt f ex wv rv fs : P_val f -> forall fds,
    forall os W b W', repeatable G (map (mkvisit wv rv) fds) -> Pre ex fs os (map (mkvisit wv rv) fds) ->
    wr_iter (fun fd W => match alookup fkey_eqb (bf_key fd) fs with
                         | Some v => write G H f wv (bf_ty fd) v W | None => RStuck end) fds W = ROk (b, W') ->
    forall ro st rest, sync ro W st ->
    exists os' st' ro',
      rd_iter (S:=list (fkey * val) * bytes * rstate) (fun fd '(os, s, st) =>
                match alookup fkey_eqb (bf_key fd) os with
                | Some o => let! (x, s', st') := read G f rv (bf_ty fd) o s st in
                            ROk (aupdate fkey_eqb (bf_key fd) x os, s', st')
                | None => RStuck end) fds (os, b ++ rest, st) = ROk (os', rest, st')
      /\ step ro W st ro' W' st' /\ Post ex fs os os' (map (mkvisit wv rv) fds) ro'.
  Proof.
    intros PV fds. induction fds as [|fd fds IH]; intros os W b W' ND P E ro st rest S.
    - cbn in E. inversion E; subst. exists os, st, ro. cbn. split; [reflexivity|].
      split; [apply step_refl; exact S|apply Post_nil].
    - apply wr_iter_cons in E. destruct E as (b1 & W1 & b2 & E1 & E2 & ->).
      destruct (P (mkvisit wv rv fd) (or_introl eq_refl)) as (o & v & Eo & Ev & Hg). cbn in Eo, Ev, Hg.
      rewrite Ev in E1.
      destruct (PV ex wv rv (bf_ty fd) o v W b1 W1 Hg E1 ro st (b2 ++ rest) S) as (v' & st1 & ro1 & R1 & S1 & Q1 & X1).
      set (os1 := aupdate fkey_eqb (bf_key fd) v' os).
      assert (Q: Post ex fs os os1 [mkvisit wv rv fd] ro1).
      { constructor.
        - apply aupdate_keys.
        - intros x [<-|[]]. exists v, v'. cbn. repeat split; auto.
          apply alookup_aupdate_same; [apply fkey_eqb_eq|]. eapply alookup_some_key; [apply fkey_eqb_eq|exact Eo].
        - intros k Hk. unfold os1. apply alookup_aupdate_other; [apply fkey_eqb_eq|].
          intros ->. apply Hk. left. reflexivity. }
      change (map (mkvisit wv rv) (fd :: fds)) with ([mkvisit wv rv fd] ++ map (mkvisit wv rv) fds) in *.
      assert (ND2: repeatable G (map (mkvisit wv rv) fds)) by exact (rep_r _ _ ND).
      destruct (IH os1 W1 b2 W' ND2 (Pre_app _ _ _ _ _ _ _ ND P Q) E2 ro1 st1 rest (p_sync _ _ _ _ _ _ S1))
        as (os2 & st2 & ro2 & R2 & S2 & Q2).
      exists os2, st2, ro2. split; [|split].
      + cbn [rd_iter]. rewrite Eo. rewrite <- app_assoc, R1. cbn [rbind]. fold os1. exact R2.
      + eapply step_trans; eauto.
      + eapply Post_app; eauto. apply (p_ro _ _ _ _ _ _ S2).
  Qed.

  Lemma rd_iter_same_visits {S} (r : fkey -> ty -> S -> res S) wv rv : forall l l',
    map (mkvisit wv rv) l = map (mkvisit wv rv) l' ->
    forall s, rd_iter (fun fd => r (bf_key fd) (bf_ty fd)) l s = rd_iter (fun fd => r (bf_key fd) (bf_ty fd)) l' s.
  Proof.
    induction l as [|x l IH]; intros [|y l'] E s; try discriminate; [reflexivity|].
    cbn [map] in E. inversion E. cbn [rd_iter]. rewrite H1, H2.
    destruct (r (bf_key y) (bf_ty y) s); cbn [rbind]; auto.
  Qed.

  Lemma P_cls_step f : P_val f -> P_cls f -> P_cls (S f).
  Proof.
    intros PV PC ex wv rv c L fs os W bs W' V ND P E ro st rest S.
    inversion V as [c0 rc pr Ls own Hc Hrd Hb Hvm HF Hown]; subst c0 L.
    rewrite write_cls_S in E. unfold write_cls_body in E. rewrite Hc in E.
    apply rbind_ok in E. destruct E as [[bb W1] [E1 E2]].
    apply rbind_ok in E2. destruct E2 as [bv [E2 E3]].
    apply rbind_ok in E3. destruct E3 as [[bm W2] [E3 E4]].
    inversion E4; subst bs W2. clear E4.
    destruct (bases_rt f ex wv rv fs PC _ _ HF os W bb W1 (rep_l _ _ ND) (Pre_l _ _ _ _ _ P) E1 ro st (bv ++ bm ++ rest) S)
      as (os1 & st1 & ro1 & R1 & S1 & Q1).
    pose proof (Pre_app _ _ _ _ _ _ _ ND P Q1) as P2.
    pose proof (rep_r _ _ ND) as ND2.
    destruct (N.eqb_spec (bp_vmax (rc_wr rc)) 0) as [Ez|Ez].
    - destruct Hown as [Hfil ->]. cbn [negb andb] in E2, E3.
      inversion E2; subst bv.
      rewrite wr_iter_filter in E3.
      destruct (fields_rt f ex wv rv fs PV _ os1 W1 bm W' ND2 P2 E3 ro1 st1 rest (p_sync _ _ _ _ _ _ S1))
        as (os2 & st2 & ro2 & R2 & S2 & Q2).
      exists os2, st2, ro2. split; [|split].
      + rewrite read_cls_S. unfold read_cls_body. rewrite Hc, Hrd, Hb. rewrite <- !app_assoc.
        eapply rbind_eq; [exact R1|]. cbn beta iota.
        eapply rbind_eq; [rewrite (proj2 Hvm Ez); cbn; reflexivity|]. cbn beta iota.
        eapply rbind_eq.
        { erewrite rd_iter_ext; [|].
        1: rewrite (rd_iter_filter (visible rv) (fun fd '(os, s, st) =>
                match alookup fkey_eqb (bf_key fd) os with
                | Some o => let! (x, s', st') := read G f rv (bf_ty fd) o s st in
                            ROk (aupdate fkey_eqb (bf_key fd) x os, s', st')
                | None => RStuck end)).
        1: rewrite <- (rd_iter_same_visits (fun k t '(os, s, st) =>
                match alookup fkey_eqb k os with
                | Some o => let! (x, s', st') := read G f rv t o s st in ROk (aupdate fkey_eqb k x os, s', st')
                | None => RStuck end) wv rv _ _ Hfil). 1: exact R2.
        intros x [[os0 s0] st0]. reflexivity. }
        unfold restored_version. rewrite Hc, Hrd, Ez. reflexivity.
      + eapply step_trans; eauto.
      + eapply Post_app; eauto. apply (p_ro _ _ _ _ _ _ S2).
    - destruct Hown as (e & He & Hle & Hle56 & Hfil & ->). cbn [negb andb] in E2, E3.
      rewrite <- He in E2, E3.
      rewrite wr_iter_filter in E3.
      destruct (fields_rt f ex e e fs PV _ os1 W1 bm W' ND2 P2 E3 ro1 st1 rest (p_sync _ _ _ _ _ _ S1))
        as (os2 & st2 & ro2 & R2 & S2 & Q2).
      exists os2, st2, ro2. split; [|split].
      + rewrite read_cls_S. unfold read_cls_body. rewrite Hc, Hrd, Hb. rewrite <- !app_assoc.
        eapply rbind_eq; [exact R1|]. cbn beta iota.
        eapply rbind_eq.
        { assert (Ez' : bp_vmax pr <> 0%N) by tauto. apply N.eqb_neq in Ez'. rewrite Ez'. eapply rbind_eq; [apply (rd_wr_varint _ _ _ E2)|]. cbn beta iota.
          replace (e <=? bp_vmax pr)%N with true by (symmetry; apply N.leb_le; exact Hle). reflexivity. }
        cbn beta iota.
        eapply rbind_eq.
        { erewrite rd_iter_ext; [|].
        1: rewrite (rd_iter_filter (visible e) (fun fd '(os, s, st) =>
                match alookup fkey_eqb (bf_key fd) os with
                | Some o => let! (x, s', st') := read G f e (bf_ty fd) o s st in
                            ROk (aupdate fkey_eqb (bf_key fd) x os, s', st')
                | None => RStuck end)).
        1: rewrite <- (rd_iter_same_visits (fun k t '(os, s, st) =>
                match alookup fkey_eqb k os with
                | Some o => let! (x, s', st') := read G f e t o s st in ROk (aupdate fkey_eqb k x os, s', st')
                | None => RStuck end) e e _ _ Hfil). 1: exact R2.
        intros x [[os0 s0] st0]. reflexivity. }
        unfold restored_version. apply N.eqb_neq in Ez. rewrite Hc, Hrd, Ez, <- He. reflexivity.
      + eapply step_trans; eauto.
      + eapply Post_app; eauto. apply (p_ro _ _ _ _ _ _ S2).
  Qed.

  (** sequences *)
  Lemma seq_rt f ex t : P_val f -> forall l olds acc,
    (forall i x, nth_error l i = Some x -> good G H ex 0 0 t (nth i olds (vinit G t)) x) ->
    forall W b W', wr_iter (write G H f 0 t) l W = ROk (b, W') ->
    forall ro st rest, sync ro W st ->
    exists olds' l' st' ro',
      loopnat (length l) (fun '(os, acc, s, st) =>
                  let o := match os with o :: _ => o | [] => vinit G t end in
                  let! (x, s', st') := read G f 0 t o s st in
                  ROk (tl os, x :: acc, s', st')) (olds, acc, b ++ rest, st) = ROk (olds', rev l' ++ acc, rest, st')
      /\ step ro W st ro' W' st' /\ length l' = length l
      /\ (forall x x', In (x, x') (combine l l') -> sv ro' t x x') /\ (ex = true -> l' = l).
  Proof.
    intros PV l. induction l as [|x l IH]; intros olds acc Hg W b W' E ro st rest S.
    - cbn in E. inversion E; subst. exists olds, [], st, ro. cbn. split; [reflexivity|]. split; [apply step_refl; exact S|]. split; [reflexivity|]. split; [|reflexivity].
      intros x x' [].
    - apply wr_iter_cons in E. destruct E as (b1 & W1 & b2 & E1 & E2 & ->).
      pose proof (Hg O x eq_refl) as Hx.
      assert (Eo: nth 0 olds (vinit G t) = match olds with o :: _ => o | [] => vinit G t end) by (destruct olds; reflexivity).
      rewrite Eo in Hx.
      destruct (PV _ _ _ _ _ _ W b1 W1 Hx E1 ro st (b2 ++ rest) S) as (x' & st1 & ro1 & R1 & S1 & Q1 & X1).
      assert (Hg': forall i y, nth_error l i = Some y -> good G H ex 0 0 t (nth i (tl olds) (vinit G t)) y).
      { intros i y Ei. specialize (Hg (Datatypes.S i) y Ei). destruct olds as [|o olds]; cbn in *; [destruct i|]; exact Hg. }
      destruct (IH (tl olds) (x' :: acc) Hg' W1 b2 W' E2 ro1 st1 rest (p_sync _ _ _ _ _ _ S1))
        as (olds' & l' & st2 & ro2 & R2 & S2 & Ln & Q2 & X2).
      exists olds', (x' :: l'), st2, ro2. split; [|split; [|split; [|split]]].
      + cbn [length loopnat]. cbv zeta. rewrite <- app_assoc.
        eapply rbind_eq; [eapply rbind_eq; [exact R1|cbn beta iota; reflexivity]|].
        cbn [rev]. rewrite <- app_assoc. exact R2.
      + eapply step_trans; eauto.
      + cbn. rewrite Ln. reflexivity.
      + cbn [combine]. intros y y' [E|Hin]; [inversion E; subst; eapply sv_mono; [apply (p_ro _ _ _ _ _ _ S2)|exact Q1]|auto].
      + intros Hex. rewrite (X1 Hex), (X2 Hex). reflexivity.
  Qed.

  (** sets and maps *)
  Definition curR (ord : bool) (Q : val -> val -> Prop) (done cur : list val) : Prop :=
    exists m, Forall2 Q done m /\ if ord then cur = m else Permutation m cur.

  Lemma FOP_app_last {A} (R : A -> A -> Prop) l x m : ForallOrdPairs R (l ++ x :: m) -> forall y, In y l -> R y x.
  Proof.
    induction l as [|z l IH]; intros F y Hy; [destruct Hy|]. cbn in F. inversion F; subst.
    destruct Hy as [->|Hy]; [|auto].
    rewrite Forall_forall in H2. apply H2. apply in_or_app. right; left; reflexivity.
  Qed.

  Lemma Forall2_in_r {A} (Q : A -> A -> Prop) l m y : Forall2 Q l m -> In y m -> exists x, In x l /\ Q x y.
  Proof.
    induction 1 as [|a b l m Hab F IH]; intros Hin; [destruct Hin|].
    destruct Hin as [->|Hin]; [exists a; split; [left; reflexivity|exact Hab]|].
    destruct (IH Hin) as (x & Hx & Hq). exists x; split; [right; exact Hx|exact Hq].
  Qed.

  Lemma cont_step ismap ord multi kt (Q : val -> val -> Prop) done x todo cur x' :
    (forall a b, Q a b -> keyof ismap b = keyof ismap a) ->
    cont_inv G ismap ord multi kt (done ++ x :: todo) ->
    curR ord Q done cur -> Q x x' ->
    curR ord Q (done ++ [x]) (fst (emplace G ismap ord multi kt x' cur)).
  Proof.
    intros HQ Inv (m & F & Hm) Hx. unfold cont_inv in Inv. unfold curR, emplace.
    assert (Fx: Forall2 Q (done ++ [x]) (m ++ [x'])) by (apply Forall2_app; [exact F|constructor; [exact Hx|constructor]]).
    exists (m ++ [x']). split; [exact Fx|].
    assert (K: forall y, In y m -> exists z, In z done /\ keyof ismap y = keyof ismap z).
    { intros y Hy. destruct (Forall2_in_r _ _ _ _ F Hy) as (z & Hz & Hq). exists z. split; [exact Hz|]. apply HQ; exact Hq. }
    pose proof (HQ _ _ Hx) as Kx.
    destruct ord, multi; cbn [fst].
    - subst cur. rewrite ins_multi_snoc; [reflexivity|]. intros y Hy. destruct (K y Hy) as (z & Hz & ->). rewrite Kx.
      apply (FOP_app_last _ _ _ _ Inv z Hz).
    - subst cur. rewrite ins_uniq_snoc; [reflexivity|]. intros y Hy. destruct (K y Hy) as (z & Hz & ->). rewrite Kx.
      apply (FOP_app_last _ _ _ _ Inv z Hz).
    - rewrite <- (HP kt cur x'). rewrite <- Hm. apply Permutation_sym, Permutation_cons_append.
    - destruct (existsb (fun y => g_eq G kt (keyof ismap y) (keyof ismap x')) cur) eqn:Ex.
      + exfalso. apply existsb_exists in Ex. destruct Ex as (y & Hy & He).
        apply (Permutation_in _ (Permutation_sym Hm)) in Hy. destruct (K y Hy) as (z & Hz & Ez).
        rewrite Ez, Kx in He. rewrite (FOP_app_last _ _ _ _ Inv z Hz) in He. discriminate.
      + cbn [fst]. rewrite <- (HP kt cur x'). rewrite <- Hm. apply Permutation_sym, Permutation_cons_append.
  Qed.

  Lemma Forall2_impl {A B} (Q Q' : A -> B -> Prop) l m : (forall a b, Q a b -> Q' a b) -> Forall2 Q l m -> Forall2 Q' l m.
  Proof. intros HQ F. induction F; constructor; auto. Qed.

  Lemma curR_mono ord (Q Q' : val -> val -> Prop) done cur : (forall a b, Q a b -> Q' a b) -> curR ord Q done cur -> curR ord Q' done cur.
  Proof. intros HQ (m & F & Hm). exists m. split; [|exact Hm]. eapply Forall2_impl; [|exact F]. exact HQ. Qed.

  Lemma cont_rt f wt_old ismap ord multi kt et :
    forall todo
    (Q : list (N * N) -> val -> val -> Prop),
    (forall ro ro' a b, incl ro ro' -> Q ro a b -> Q ro' a b) ->
    (forall ro a b, Q ro a b -> keyof ismap b = keyof ismap a) ->
    (forall W b W' ro st rest x, In x todo -> write G H f 0 et x W = ROk (b, W') -> sync ro W st ->
       exists v' st' ro', read G f 0 et wt_old (b ++ rest) st = ROk (v', rest, st')
        /\ step ro W st ro' W' st' /\ Q ro' x v') ->
    forall done cur,
    cont_inv G ismap ord multi kt (done ++ todo) ->
    forall W b W', wr_iter (write G H f 0 et) todo W = ROk (b, W') ->
    forall ro st rest, sync ro W st -> curR ord (Q ro) done cur ->
    exists cur' st' ro',
      loopnat (length todo) (fun '(l, s, st) =>
                  let! (x, s', st') := read G f 0 et wt_old s st in
                  ROk (fst (emplace G ismap ord multi kt x l), s', st')) (cur, b ++ rest, st) = ROk (cur', rest, st')
      /\ step ro W st ro' W' st' /\ curR ord (Q ro') (done ++ todo) cur'.
  Proof.
    intros todo. induction todo as [|x todo IH]; intros Q Qm Qk QR done cur Inv W b W' E ro st rest S C.
    - cbn in E. inversion E; subst. exists cur, st, ro. cbn. rewrite app_nil_r. split; [reflexivity|]. split; [apply step_refl; exact S|exact C].
    - apply wr_iter_cons in E. destruct E as (b1 & W1 & b2 & E1 & E2 & ->).
      destruct (QR W b1 W1 ro st (b2 ++ rest) x (or_introl eq_refl) E1 S) as (x' & st1 & ro1 & R1 & S1 & Q1).
      set (cur1 := fst (emplace G ismap ord multi kt x' cur)).
      assert (C1: curR ord (Q ro1) (done ++ [x]) cur1).
      { eapply cont_step; eauto. eapply curR_mono; [|exact C]. intros a c Hq. eapply Qm; [apply (p_ro _ _ _ _ _ _ S1)|exact Hq]. }
      assert (Inv1: cont_inv G ismap ord multi kt ((done ++ [x]) ++ todo)) by (rewrite <- app_assoc; exact Inv).
      destruct (IH Q Qm Qk
                  (fun W b W' ro st rest y Hy => QR W b W' ro st rest y (or_intror Hy))
                  (done ++ [x]) cur1 Inv1 W1 b2 W' E2 ro1 st1 rest (p_sync _ _ _ _ _ _ S1) C1)
        as (cur2 & st2 & ro2 & R2 & S2 & C2).
      exists cur2, st2, ro2. split; [|split].
      + cbn [length loopnat]. rewrite <- app_assoc.
        eapply rbind_eq; [eapply rbind_eq; [exact R1|cbn beta iota; reflexivity]|]. exact R2.
      + eapply step_trans; eauto.
      + rewrite <- app_assoc in C2. exact C2.
  Qed.

  Lemma Forall2_combine {A B} (Q : A -> B -> Prop) l m : Forall2 Q l m -> length l = length m /\ forall x y, In (x, y) (combine l m) -> Q x y.
  Proof.
    induction 1 as [|a b l m Hab F [IH1 IH2]]; [split; [reflexivity|intros x y []]|].
    split; [cbn; congruence|]. cbn. intros x y [E|Hin]; [inversion E; subst; exact Hab|auto].
  Qed.

  (** pairs, with different exactness for the two components *)
  Lemma pair_rt f exa exb ta tb oa ob a b : P_val f ->
    good G H exa 0 0 ta oa a -> good G H exb 0 0 tb ob b ->
    forall wv rv W bs W', write G H (S f) wv (TPair ta tb) (VPair a b) W = ROk (bs, W') ->
    forall ro st rest, sync ro W st ->
    exists a' b' st' ro', read G (S f) rv (TPair ta tb) (VPair oa ob) (bs ++ rest) st = ROk (VPair a' b', rest, st')
      /\ step ro W st ro' W' st' /\ sv ro' ta a a' /\ sv ro' tb b b' /\ (exa = true -> a' = a) /\ (exb = true -> b' = b).
  Proof.
    intros PV Ga Gb wv rv W bs W' E ro st rest S. rewrite write_S in E. cbn [write_body] in E.
    apply rbind_ok in E. destruct E as [[ba W1] [E1 E]]. apply rbind_ok in E. destruct E as [[bb W2] [E2 E]].
    inversion E; subst bs W2. clear E.
    destruct (PV _ _ _ _ _ _ _ _ _ Ga E1 ro st (bb ++ rest) S) as (a' & st1 & ro1 & R1 & S1 & Q1 & X1).
    destruct (PV _ _ _ _ _ _ _ _ _ Gb E2 ro1 st1 rest (p_sync _ _ _ _ _ _ S1)) as (b' & st2 & ro2 & R2 & S2 & Q2 & X2).
    exists a', b', st2, ro2. split; [|split; [|split; [|split; [exact Q2|split; [exact X1|exact X2]]]]].
    - rewrite read_S. cbn [read_body]. rewrite <- app_assoc.
      eapply rbind_eq; [exact R1|]. cbn beta iota. eapply rbind_eq; [exact R2|]. reflexivity.
    - eapply step_trans; eauto.
    - eapply sv_mono; [apply (p_ro _ _ _ _ _ _ S2)|exact Q1].
  Qed.

  Lemma ptr_head_rt mode a hd s : (mode = 1 \/ mode = 2)%N -> (a < 2 ^ 64)%N -> wr_ptr_head mode a = ROk hd ->
    exists m s1, rd_byte (hd ++ s) = ROk (m, s1) /\ (m =? 0)%N = false /\ N.land m 3 = mode
      /\ (if negb (N.land m 4 =? 0)%N then rd_be 8 s1 else rd_varint s1) = ROk (a, s).
  Proof.
    intros Hm Ha E. unfold wr_ptr_head in E. destruct (bigId a).
    - inversion E; subst hd. exists (N.lor mode 4), (be 8 a ++ s).
      destruct Hm as [-> | ->]; (split; [reflexivity|split; [reflexivity|split; [reflexivity|]]]);
        cbn -[be rd_be N.pow]; apply rd_be_be; exact Ha.
    - apply rbind_ok in E. destruct E as [p [E1 E2]]. inversion E2; subst hd. exists mode, (p ++ s).
      destruct Hm as [-> | ->]; (split; [reflexivity|split; [reflexivity|split; [reflexivity|]]]);
        cbn -[rd_varint]; apply rd_wr_varint; exact E1.
  Qed.

  Lemma alist_ext (l m : list (fkey * val)) : map fst l = map fst m -> NoDup (map fst m) ->
    (forall k, alookup fkey_eqb k l = alookup fkey_eqb k m) -> l = m.
  Proof.
    revert m; induction l as [|[k v] l IH]; intros [|[k' v'] m] E ND Hx; cbn in E; try discriminate; [reflexivity|].
    inversion E; subst k'. cbn in ND. apply NoDup_cons_iff in ND. destruct ND as [N1 N2].
    assert (v = v').
    { specialize (Hx k). cbn in Hx. assert (R: fkey_eqb k k = true) by (apply fkey_eqb_eq; reflexivity).
      rewrite R in Hx. congruence. }
    subst v'. f_equal. apply IH; [congruence|congruence|].
    intros k2. specialize (Hx k2). cbn in Hx. destruct (fkey_eqb k2 k) eqn:E2; [|exact Hx].
    apply fkey_eqb_eq in E2. subst k2. rewrite !(alookup_none _ fkey_eqb_eq); congruence.
  Qed.

  Lemma struct_rt f : P_cls f -> forall ex wv rv c os fs W bs W',
      good G H ex wv rv (TStruct c) (VObj os) (VObj fs) ->
      write_cls G H f wv c fs W = ROk (bs, W') ->
      forall ro st rest, sync ro W st ->
      exists os' st' ro',
        read_cls G f rv c os (bs ++ rest) st = ROk (os', restored_version G wv rv c, rest, st')
        /\ step ro W st ro' W' st' /\ sv ro' (TStruct c) (VObj fs) (VObj os') /\ (ex = true -> os' = fs).
  Proof.
    intros PC ex wv rv c os fs W bs W' Hg E ro st rest S.
    inversion Hg as [ | | | | | | | | | | | | | | | | | | | | ex0 wv0 rv0 c0 rc os0 fs0 L Hc Ko Kl ND V NDL Hlay Hin Hout]; subst.
    assert (P: Pre ex fs os L).
    { intros x Hx. pose proof (Hlay x Hx) as Hl. apply (alookup_some_key _ fkey_eqb_eq) in Hl.
      assert (exists o, alookup fkey_eqb (vi_key x) os = Some o) as [o Eo].
      { apply (alookup_some_in _ fkey_eqb_eq). congruence. }
      assert (exists o, alookup fkey_eqb (vi_key x) fs = Some o) as [v Ev].
      { apply (alookup_some_in _ fkey_eqb_eq). congruence. }
      exists o, v. split; [exact Eo|]. split; [exact Ev|]. eapply Hin; eauto. }
    destruct (PC ex wv rv c L fs os W bs W' V NDL P E ro st rest S) as (os' & st' & ro' & R & S' & Q).
    exists os', st', ro'. split; [exact R|]. split; [exact S'|]. split.
    - econstructor; [exact Hc|rewrite (po_keys _ _ _ _ _ _ Q); exact Ko|].
      intros k t v v' Hk Ev Ev'. destruct (in_dec fkey_eq_dec k (map vi_key L)) as [Hi|Hn].
      + apply in_map_iff in Hi. destruct Hi as (x & <- & Hx). rewrite (Hlay x Hx) in Hk. inversion Hk; subst t.
        destruct (po_in _ _ _ _ _ _ Q x Hx) as (w & w' & E1 & E2 & E3 & _). congruence.
      + rewrite (po_out _ _ _ _ _ _ Q k Hn) in Ev'. destruct (Hout k v Hn Ev) as [E1 E2].
        assert (v' = v) by congruence. subst v'. apply sv_same. exact E2.
    - intros Hex. apply alist_ext; [rewrite (po_keys _ _ _ _ _ _ Q); exact Ko|exact ND|].
      intros k. destruct (in_dec fkey_eq_dec k (map vi_key L)) as [Hi|Hn].
      + apply in_map_iff in Hi. destruct Hi as (x & <- & Hx).
        destruct (po_in _ _ _ _ _ _ Q x Hx) as (w & w' & E1 & E2 & E3 & E4). rewrite E1, E2, (E4 Hex). reflexivity.
      + rewrite (po_out _ _ _ _ _ _ Q k Hn). destruct (alookup fkey_eqb k fs) as [v|] eqn:Ev.
        * apply (Hout k v Hn Ev).
        * destruct (alookup fkey_eqb k os) as [o|] eqn:Eo; [|reflexivity].
          apply (alookup_some_key _ fkey_eqb_eq) in Eo. rewrite Ko in Eo.
          destruct (alookup_some_in _ fkey_eqb_eq _ _ Eo). congruence.
  Qed.

  (** a shared pointer *)
  Lemma shared_rt f : P_val f -> forall wv rv t old a x W bs W',
      hget H a = Some (t, x) ->
      write G H (S f) wv (TShared t) (VShared (Some a)) W = ROk (bs, W') ->
      forall ro st rest, sync ro W st ->
      exists a' st' ro',
        read G (S f) rv (TShared t) old (bs ++ rest) st = ROk (VShared (Some a'), rest, st')
        /\ step ro W st ro' W' st' /\ In (a, a') ro'.
  Proof.
    intros PV wv rv t old a x W bs W' Ha E ro st rest Sy.
    destruct (HG a t x Ha) as [Hlt Hgx].
    rewrite write_S in E. cbn [write_body] in E.
    destruct (existsb (N.eqb a) W) eqn:EW.
    - apply rbind_ok in E. destruct E as [hd [Eh E]]. inversion E; subst bs W'. clear E.
      apply existsb_exists in EW. destruct EW as (b & Hb & Eb). apply N.eqb_eq in Eb. subst b.
      destruct (s_dom _ _ _ Sy a Hb) as (a' & t0 & x0 & Hro & Hh & Hp).
      rewrite Ha in Hh. inversion Hh; subst t0 x0.
      destruct (ptr_head_rt 2 a hd rest (or_intror eq_refl) Hlt Eh) as (m & s1 & R1 & R2 & R3 & R4).
      exists a', st, ro. split; [|split; [apply step_refl; exact Sy|exact Hro]].
      rewrite read_S. cbn [read_body]. eapply rbind_eq; [exact R1|]. cbn beta iota. rewrite R2.
      eapply rbind_eq; [exact R4|]. cbn beta iota. rewrite R3. cbn [N.eqb Pos.eqb]. rewrite Hp, ty_eqb_refl. reflexivity.
    - apply rbind_ok in E. destruct E as [hd [Eh E]]. rewrite Ha, ty_eqb_refl in E.
      apply rbind_ok in E. destruct E as [[bx W1] [Ex E]]. inversion E; subst bs W1. clear E.
      assert (HnW: ~ In a W).
      { intros Hc. assert (existsb (N.eqb a) W = true) by (apply existsb_exists; exists a; split; [exact Hc|apply N.eqb_refl]). congruence. }
      set (a' := g_alloc G (r_heap st)).
      pose proof (HA (r_heap st)) as Hfresh. fold a' in Hfresh.
      set (st1 := {| r_heap := hset (r_heap st) a' (t, vinit G t); r_ptr := (a, (a', t)) :: r_ptr st |}).
      assert (Sy1: sync ((a, a') :: ro) (a :: W) st1).
      { constructor.
        - intros b [->|Hb].
          + exists a', t, x. cbn. rewrite N.eqb_refl. auto.
          + destruct (s_dom _ _ _ Sy b Hb) as (b' & t0 & x0 & H1 & H2 & H3).
            exists b', t0, x0. cbn. destruct (N.eqb_spec b a); [subst; contradiction|]. auto.
        - intros b b' [E|Hb]; [inversion E; subst; cbn; auto|].
          destruct (s_ro _ _ _ Sy b b' Hb). cbn; auto.
        - cbn. constructor; [|apply Sy]. intros Hc. apply in_map_iff in Hc. destruct Hc as ([b b'] & Eb & Hb).
          cbn in Eb. subst b. apply HnW. apply (s_ro _ _ _ Sy _ _ Hb).
        - cbn. constructor; [|apply Sy]. intros Hc. apply in_map_iff in Hc. destruct Hc as ([b b'] & Eb & Hb).
          cbn in Eb. subst b'. apply Hfresh. apply (s_ro _ _ _ Sy _ _ Hb). }
      destruct (PV _ _ _ _ _ _ _ _ _ Hgx Ex _ st1 rest Sy1) as (x' & st2 & ro2 & R & S2 & Q & _).
      set (st3 := {| r_heap := hset (r_heap st2) a' (t, x'); r_ptr := r_ptr st2 |}).
      assert (Hin2: In (a, a') ro2) by (apply (p_ro _ _ _ _ _ _ S2); left; reflexivity).
      exists a', st3, ro2. split; [|split; [|exact Hin2]].
      + destruct (ptr_head_rt 1 a hd (bx ++ rest) (or_introl eq_refl) Hlt Eh) as (m & s1 & R1 & R2 & R3 & R4).
        rewrite read_S. cbn [read_body]. rewrite <- app_assoc. eapply rbind_eq; [exact R1|]. cbn beta iota. rewrite R2.
        eapply rbind_eq; [exact R4|]. cbn beta iota. rewrite R3. cbn [N.eqb Pos.eqb]. cbv zeta.
        fold a'. fold st1. eapply rbind_eq; [exact R|]. reflexivity.
      + assert (Hold: forall b, In b (map fst (r_heap st)) -> b <> a') by (intros b Hb ->; contradiction).
        constructor.
        * constructor.
          -- intros b Hb. apply (s_dom _ _ _ (p_sync _ _ _ _ _ _ S2) b Hb).
          -- intros b b' Hb. destruct (s_ro _ _ _ (p_sync _ _ _ _ _ _ S2) b b' Hb). cbn. auto.
          -- apply (p_sync _ _ _ _ _ _ S2).
          -- apply (p_sync _ _ _ _ _ _ S2).
        * intros y Hy. apply (p_ro _ _ _ _ _ _ S2). right. exact Hy.
        * intros y Hy. apply (p_W _ _ _ _ _ _ S2). right. exact Hy.
        * intros y Hy. cbn. right. apply (p_dom _ _ _ _ _ _ S2). cbn. right. exact Hy.
        * intros b Hb. cbn [r_heap st3]. rewrite hget_hset_other by (intros Hc; symmetry in Hc; exact (Hold b Hb Hc)).
          rewrite (p_old _ _ _ _ _ _ S2) by (cbn; right; exact Hb).
          cbn [r_heap st1]. apply hget_hset_other. intros Hc; symmetry in Hc; exact (Hold b Hb Hc).
        * intros b b' Hb. destruct (p_new _ _ _ _ _ _ S2 b b' Hb) as [Hi|(t0 & y & y' & H1 & H2 & H3 & H4)].
          -- destruct Hi as [Eq|Hi]; [|left; exact Hi]. inversion Eq; subst b b'. right. exists t, x, x'.
             repeat split; auto. cbn [r_heap st3]. apply hget_hset_same.
          -- right. exists t0, y, y'. repeat split; auto.
             ++ cbn [r_heap st3]. rewrite hget_hset_other; [exact H2|]. intros Eq. apply H4. cbn. left. exact Eq.
             ++ intros Hc. apply H4. cbn. right. exact Hc.
        * intros b Hb. cbn in Hb. destruct Hb as [<-|Hb]; [right; exists a; exact Hin2|].
          destruct (p_cover _ _ _ _ _ _ S2 b Hb) as [Hc|Hc]; [|right; exact Hc].
          cbn in Hc. destruct Hc as [<-|Hc]; [right; exists a; exact Hin2|left; exact Hc].
  Qed.

  Lemma bval_small n : (n < 256)%N -> bval (mkb n) = n.
  Proof. intros Hn. rewrite bval_mkb. apply N.mod_small. exact Hn. Qed.

  Lemma P_val_step f : (forall f', f' <= f -> P_val f' /\ P_cls f') -> P_val (S f).
  Proof.
    intros IH. destruct (IH f (le_n _)) as [PV PC].
    intros ex wv rv t old v W bs W' Hg E ro st rest S.
    inversion Hg; subst.
    Ltac scal E S v ro st := rewrite write_S in E; cbn [write_body] in E; inversion E; subst; exists v, st, ro;
      split; [|split; [apply step_refl; exact S|split; [apply sv_same; reflexivity|reflexivity]]];
      rewrite read_S; cbn [read_body].
    - scal E S (VBool b) ro st. cbn. destruct b; reflexivity.
    - rewrite write_S in E; cbn [write_body] in E. rewrite H0 in E. inversion E; subst. exists (VInt z), st, ro.
      split; [|split; [apply step_refl; exact S|split; [apply sv_same; reflexivity|reflexivity]]].
      rewrite read_S; cbn [read_body]. rewrite H0. eapply rbind_eq; [apply rd_wr_int; assumption|]. reflexivity.
    - rewrite write_S in E; cbn [write_body] in E. rewrite H0 in E. inversion E; subst. exists (VInt z), st, ro.
      split; [|split; [apply step_refl; exact S|split; [apply sv_same; reflexivity|reflexivity]]].
      rewrite read_S; cbn [read_body]. rewrite H0. eapply rbind_eq; [apply rd_wr_int; assumption|]. reflexivity.
    - scal E S (VF32 n) ro st. eapply rbind_eq; [apply (rd_be_be 4); assumption|]. reflexivity.
    - scal E S (VF64 n) ro st. eapply rbind_eq; [apply (rd_be_be 8); assumption|]. reflexivity.
    - rewrite write_S in E; cbn [write_body] in E. apply rbind_ok in E. destruct E as [p [E1 E2]]. inversion E2; subst.
      exists (VStr x), st, ro.
      split; [|split; [apply step_refl; exact S|split; [apply sv_same; reflexivity|reflexivity]]].
      rewrite read_S; cbn [read_body]. eapply rbind_eq; [apply rd_wr_string; eassumption|]. reflexivity.
    - scal E S (VInt z) ro st. eapply rbind_eq; [apply rd_wr_int; assumption|]. reflexivity.
    - scal E S (VInt z) ro st. eapply rbind_eq; [apply rd_wr_int; assumption|]. reflexivity.
    - (* sequences *)
      rewrite write_S in E; cbn [write_body] in E. apply rbind_ok in E. destruct E as [p [E1 E]].
      apply rbind_ok in E. destruct E as [[b W1] [E2 E]]. inversion E; subst bs W1. clear E.
      destruct (seq_rt f ex t0 PV l olds [] H1 W b W' E2 ro st rest S) as (olds' & l' & st' & ro' & R & S' & Ln & Q & X).
      exists (VList l'), st', ro'. split; [|split; [exact S'|split]].
      + rewrite read_S; cbn [read_body]. rewrite <- app_assoc. eapply rbind_eq; [apply (rd_wr_varint _ _ _ E1)|]. cbn beta iota.
        eapply rbind_eq; [rewrite loopN_of_nat; exact R|]. cbn beta iota. rewrite app_nil_r, rev_involutive. reflexivity.
      + apply sv_seq; [symmetry; exact Ln|exact Q].
      + intros Hex. rewrite (X Hex). reflexivity.
    - (* sets *)
      rewrite write_S in E; cbn [write_body] in E. apply rbind_ok in E. destruct E as [p [E1 E]].
      apply rbind_ok in E. destruct E as [[b W1] [E2 E]]. inversion E; subst bs W1. clear E.
      destruct (cont_rt f (dinit G t0) false ord multi t0 t0 l (fun ro x x' => sv ro t0 x x' /\ x' = x)) with
        (done := @nil val) (cur := @nil val) (W := W) (b := b) (W' := W') (ro := ro) (st := st) (rest := rest)
        as (cur' & st' & ro' & R & S' & C); auto.
      + intros ro1 ro2 a c Hi [Q1 Q2]. split; [eapply sv_mono; eauto|exact Q2].
      + intros ro1 a c [_ ->]. reflexivity.
      + intros W0 b0 W0' ro0 st0 rest0 x Hx Ew S0.
        destruct (PV _ _ _ _ _ _ _ _ _ (H3 x Hx) Ew ro0 st0 rest0 S0) as (v' & st1 & ro1 & R1 & S1 & Q1 & X1).
        exists v', st1, ro1. auto.
      + exists []. split; [constructor|]. destruct ord; reflexivity.
      + destruct C as (m & F & Hm). cbn [app] in F.
        assert (m = l).
        { clear -F. induction F as [|a c l m [_ ->] F IHF]; [reflexivity|]. f_equal. exact IHF. }
        subst m. exists (VList cur'), st', ro'. split; [|split; [exact S'|split]].
        * rewrite read_S; cbn [read_body]. rewrite <- app_assoc. eapply rbind_eq; [apply (rd_wr_varint _ _ _ E1)|]. cbn beta iota.
          eapply rbind_eq; [rewrite loopN_of_nat; exact R|]. reflexivity.
        * apply sv_set with (m := l); [reflexivity| |destruct ord; auto].
          intros x x' Hin. destruct (Forall2_combine _ _ _ F) as [_ F2]. apply (F2 x x' Hin).
        * intros Hex. rewrite (H0 Hex) in Hm. congruence.
    - (* maps *)
      rewrite write_S in E; cbn [write_body] in E. apply rbind_ok in E. destruct E as [p [E1 E]].
      apply rbind_ok in E. destruct E as [[b W1] [E2 E]]. inversion E; subst bs W1. clear E.
      destruct (cont_rt f (VPair (vinit G kt) (vinit G vt)) true ord multi kt (TPair kt vt) l
                 (fun ro x x' => sv ro (TPair kt vt) x x' /\ keyof true x' = keyof true x /\ (ex = true -> x' = x))) with
        (done := @nil val) (cur := @nil val) (W := W) (b := b) (W' := W') (ro := ro) (st := st) (rest := rest)
        as (cur' & st' & ro' & R & S' & C); auto.
      + intros ro1 ro2 a c Hi [Q1 Q2]. split; [eapply sv_mono; eauto|exact Q2].
      + intros ro1 a c [_ [-> _]]. reflexivity.
      + intros W0 b0 W0' ro0 st0 rest0 x Hx Ew S0.
        destruct f as [|f']; [discriminate Ew|]. destruct (IH f' (le_S _ _ (le_n _))) as [PV' _].
        destruct (H3 x Hx) as (k & v & ->).
        destruct (pair_rt f' true ex kt vt (vinit G kt) (vinit G vt) k v PV' (H4 k v Hx) (H5 k v Hx) _ 0%N _ _ _ Ew ro0 st0 rest0 S0)
          as (k' & v' & st1 & ro1 & R1 & S1 & Q1 & Q2 & X1 & X2).
        exists (VPair k' v'), st1, ro1. split; [exact R1|]. split; [exact S1|]. split; [apply sv_pair; assumption|].
        rewrite (X1 eq_refl). split; [reflexivity|]. intros Hex. rewrite (X2 Hex). reflexivity.
      + exists []. split; [constructor|]. destruct ord; reflexivity.
      + destruct C as (m & F & Hm). cbn [app] in F.
        destruct (Forall2_combine _ _ _ F) as [Ln F2].
        exists (VList cur'), st', ro'. split; [|split; [exact S'|split]].
        * rewrite read_S; cbn [read_body]. rewrite <- app_assoc. eapply rbind_eq; [apply (rd_wr_varint _ _ _ E1)|]. cbn beta iota.
          eapply rbind_eq; [rewrite loopN_of_nat; exact R|]. reflexivity.
        * apply sv_map with (m := m); [exact Ln| |exact Hm].
          intros x x' Hin. apply (F2 x x' Hin).
        * intros Hex. rewrite (H0 Hex) in Hm. subst m. f_equal. clear -F Hex.
          induction F as [|a c l m [_ [_ Hx]] F IHF]; [reflexivity|]. f_equal; [exact (Hx Hex)|exact IHF].
    - (* pair *)
      destruct (pair_rt f ex ex ta tb oa ob a b PV H0 H1 _ rv _ _ _ E ro st rest S) as (a' & b' & st' & ro' & R & S' & Q1 & Q2 & X1 & X2).
      exists (VPair a' b'), st', ro'. split; [exact R|]. split; [exact S'|]. split; [apply sv_pair; assumption|].
      intros Hex. rewrite (X1 Hex), (X2 Hex). reflexivity.
    - scal E S (VOpt None) ro st. reflexivity.
    - rewrite write_S in E; cbn [write_body] in E. apply rbind_ok in E. destruct E as [[b W1] [E2 E]]. inversion E; subst bs W1. clear E.
      destruct (PV _ _ _ _ _ _ _ _ _ H0 E2 ro st rest S) as (x' & st' & ro' & R & S' & Q & X).
      exists (VOpt (Some x')), st', ro'. split; [|split; [exact S'|split; [apply sv_optional; assumption|intros Hex; rewrite (X Hex); reflexivity]]].
      rewrite read_S; cbn [read_body rd_byte app rbind]. eapply rbind_eq; [exact R|]. reflexivity.
    - scal E S (VOpt None) ro st. reflexivity.
    - rewrite write_S in E; cbn [write_body] in E. apply rbind_ok in E. destruct E as [[b W1] [E2 E]]. inversion E; subst bs W1. clear E.
      destruct (PV _ _ _ _ _ _ _ _ _ H0 E2 ro st rest S) as (x' & st' & ro' & R & S' & Q & X).
      exists (VOpt (Some x')), st', ro'. split; [|split; [exact S'|split; [apply sv_unique; assumption|intros Hex; rewrite (X Hex); reflexivity]]].
      rewrite read_S; cbn [read_body rd_byte app rbind]. eapply rbind_eq; [exact R|]. reflexivity.
    - scal E S (VShared None) ro st. reflexivity.
    - destruct (shared_rt f PV wv rv t0 old a x W bs W' H0 E ro st rest S) as (a' & st' & ro' & R & S' & Hin).
      exists (VShared (Some a')), st', ro'. split; [exact R|]. split; [exact S'|]. split; [apply sv_shared; exact Hin|discriminate].
    - rewrite write_S in E; cbn [write_body] in E. rewrite H1 in E. inversion E; subst. exists (VVar i VMono), st, ro.
      split; [|split; [apply step_refl; exact S|split; [apply sv_same; reflexivity|reflexivity]]].
      rewrite read_S; cbn [read_body rd_byte app rbind].
      assert (i < length ts) by (apply nth_error_Some; congruence).
      rewrite bval_small by lia. rewrite Nnat.Nat2N.id, H1. reflexivity.
    - assert (Hi: i < length ts) by (apply nth_error_Some; congruence).
      assert (Ew: exists b, bs = mkb (N.of_nat i) :: b /\ write G H f 0 t0 x W = ROk (b, W')).
      { rewrite write_S in E; cbn [write_body] in E. rewrite H1 in E. destruct t0; try congruence;
        (apply rbind_ok in E; destruct E as [[b W1] [E2 E]]; inversion E; subst; exists b; split; [reflexivity|exact E2]). }
      destruct Ew as (b & -> & Ew).
      destruct (PV _ _ _ _ _ _ _ _ _ H3 Ew ro st rest S) as (x' & st' & ro' & R & S' & Q & X).
      exists (VVar i x'), st', ro'. split; [|split; [exact S'|split; [eapply sv_variant; eassumption|intros Hex; rewrite (X Hex); reflexivity]]].
      rewrite read_S; cbn [read_body rd_byte app rbind].
      rewrite bval_small by lia. rewrite Nnat.Nat2N.id, H1.
      destruct t0; try congruence; (eapply rbind_eq; [exact R|reflexivity]).
    - rewrite write_S in E; cbn [write_body] in E.
      destruct (struct_rt f PC ex wv rv c os fs W bs W' Hg E ro st rest S) as (os' & st' & ro' & R & S' & Q & X).
      exists (VObj os'), st', ro'. split; [|split; [exact S'|split; [exact Q|intros Hex; rewrite (X Hex); reflexivity]]].
      rewrite read_S; cbn [read_body]. eapply rbind_eq; [exact R|]. reflexivity.
  Qed.

  Lemma P_all f : P_val f /\ P_cls f.
  Proof.
    induction f as [f IH] using (well_founded_induction Wf_nat.lt_wf).
    destruct f as [|f].
    - split; [intros ex wv rv t old v W bs W' Hg E; discriminate E
             |intros ex wv rv c L fs os W bs W' V ND P E; discriminate E].
    - split.
      + apply P_val_step. intros f' Hf. apply IH. lia.
      + apply P_cls_step; apply IH; lia.
  Qed.

  (** several values written one after another with one serializer *)
  Lemma seq_values_rt f : forall (l : list (bool * N * N * ty * val * val)) W bs W',
    (forall ex wv rv t old v, In (ex, wv, rv, t, old, v) l -> good G H ex wv rv t old v) ->
    wr_iter (fun '(ex, wv, rv, t, old, v) W => write G H f wv t v W) l W = ROk (bs, W') ->
    forall ro st rest, sync ro W st ->
    exists vs st' ro',
      read_values G f (map (fun '(ex, wv, rv, t, old, v) => (rv, t, old)) l) (bs ++ rest) st = ROk (vs, rest, st')
      /\ step ro W st ro' W' st'
      /\ Forall2 (fun '(ex, wv, rv, t, old, v) v' => sv ro' t v v') l vs.
  Proof.
    induction l as [|[[[[[ex wv] rv] t] old] v] l IH]; intros W bs W' Hg E ro st rest S.
    - cbn in E. inversion E; subst. exists [], st, ro. cbn. split; [reflexivity|]. split; [apply step_refl; exact S|constructor].
    - apply wr_iter_cons in E. destruct E as (b1 & W1 & b2 & E1 & E2 & ->).
      destruct (P_all f) as [PV _].
      destruct (PV _ _ _ _ _ _ _ _ _ (Hg _ _ _ _ _ _ (or_introl eq_refl)) E1 ro st (b2 ++ rest) S) as (v' & st1 & ro1 & R1 & S1 & Q1 & _).
      destruct (IH W1 b2 W' (fun a b c d e g Hi => Hg a b c d e g (or_intror Hi)) E2 ro1 st1 rest (p_sync _ _ _ _ _ _ S1)) as (vs & st2 & ro2 & R2 & S2 & Q2).
      exists (v' :: vs), st2, ro2. split; [|split].
      + cbn [map read_values]. rewrite <- app_assoc. eapply rbind_eq; [exact R1|]. cbn beta iota.
        eapply rbind_eq; [exact R2|]. reflexivity.
      + eapply step_trans; eauto.
      + constructor; [|exact Q2]. eapply sv_mono; [apply (p_ro _ _ _ _ _ _ S2)|exact Q1].
  Qed.

  Lemma sync_init h0 : sync [] [] {| r_heap := h0; r_ptr := [] |}.
  Proof. constructor; [intros a []|intros a a' []|constructor|constructor]. Qed.

  Lemma step_graph h0 ro W st : step [] [] {| r_heap := h0; r_ptr := [] |} ro W st -> graph_iso G H h0 (r_heap st) ro.
  Proof.
    intros S. constructor.
    - apply (p_sync _ _ _ _ _ _ S).
    - apply (p_sync _ _ _ _ _ _ S).
    - intros a a' Ha. destruct (p_new _ _ _ _ _ _ S a a' Ha) as [[]|(t & x & x' & H1 & H2 & H3 & H4)].
      exists t, x, x'. auto.
    - intros a Ha. apply (p_old _ _ _ _ _ _ S). exact Ha.
    - intros a' Ha. destruct (p_cover _ _ _ _ _ _ S a' Ha) as [Hb|[a Hb]]; [left; exact Hb|right].
      apply in_map_iff. exists (a, a'). auto.
  Qed.
End RT.
