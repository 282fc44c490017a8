(** GenFacts.v -- facts about the generator model *)
From Coq Require Import String List NArith ZArith Bool Lia.
From Verif Require Import Base BaseFacts Bytes Types TypesFacts BinModel BinSpec BinFacts GenModel GenSem.
Import ListNotations.
Local Open Scope N_scope.

Lemma marker_as m n l : mt_as (marker m n l) = fst (bounds n l (mt_as m) (mt_until m)).
Proof. unfold marker, bounds. destruct l; [|reflexivity]. destruct starts_with; [reflexivity|]. destruct starts_with; reflexivity. Qed.
Lemma marker_until m n l : mt_until (marker m n l) = snd (bounds n l (mt_as m) (mt_until m)).
Proof. unfold marker, bounds. destruct l; [|reflexivity]. destruct starts_with; [reflexivity|]. destruct starts_with; reflexivity. Qed.
Lemma marker_rest m n l : mt_last_as (marker m n l) = mt_last_as m /\ mt_last_until (marker m n l) = mt_last_until m
  /\ mt_within (marker m n l) = mt_within m /\ mt_written (marker m n l) = mt_written m.
Proof. unfold marker. destruct l; [|auto]. destruct starts_with; [auto|]. destruct starts_with; auto. Qed.

(** invariant of MemberTracking *)
Definition mt_ok (m : mtrack) : Prop := mt_within m = negb (mt_last_as m =? 0) || negb (mt_last_until m =? 0).
Definition mt_stack (m : mtrack) (ver : N) : list bool :=
  if mt_within m then [condition (mt_last_as m) (mt_last_until m) ver] else [].

Lemma mt0_ok : mt_ok mt0. Proof. reflexivity. Qed.
Lemma mt_ok_marker m n l : mt_ok m -> mt_ok (marker m n l).
Proof. unfold mt_ok. destruct (marker_rest m n l) as (-> & -> & -> & _). auto. Qed.
Lemma mt_stack_marker m n l ver : mt_stack (marker m n l) ver = mt_stack m ver.
Proof. unfold mt_stack. destruct (marker_rest m n l) as (-> & -> & -> & _). reflexivity. Qed.

Lemma condition_visible a u ver k t : condition a u ver = visible ver {| bf_asof := a; bf_until := u; bf_key := k; bf_ty := t |}.
Proof. unfold condition, visible. cbn. destruct (a =? 0), (u =? 0); reflexivity. Qed.

Lemma condition_00 ver : condition 0 0 ver = true.
Proof. reflexivity. Qed.

Section E.
  Context {S : Type}.
  Variables (on_base : bytes -> N -> S -> res S) (on_version : bytes -> N -> S -> res (N * S)) (on_member : bytes -> ty -> N -> S -> res S).
  Notation exec := (exec on_base on_version on_member).

  Lemma write_condition_spec m c m1 : write_condition m = (c, m1) -> mt_ok m ->
    mt_ok m1 /\ mt_as m1 = mt_as m /\ mt_until m1 = mt_until m /\ mt_written m1 = mt_written m
    /\ mt_last_as m1 = mt_as m /\ mt_last_until m1 = mt_until m
    /\ forall ver s rest, exec (c ++ rest) (mt_stack m ver) ver s = exec rest (mt_stack m1 ver) ver s.
  Proof.
    unfold write_condition. intros E Hok.
    destruct ((mt_as m =? mt_last_as m) && (mt_until m =? mt_last_until m)) eqn:Q; inversion E; subst; clear E.
    - apply andb_true_iff in Q. destruct Q as [Q1 Q2]. apply N.eqb_eq in Q1, Q2. repeat split; auto.
    - cbn [mt_as mt_until mt_written mt_last_as mt_last_until]. repeat split; auto.
      intros ver s rest. rewrite <- app_assoc. unfold conclude, mt_stack. cbn [mt_within mt_last_as mt_last_until].
      destruct (mt_within m); cbn [app GenSem.exec];
        (destruct (negb (mt_as m =? 0) || negb (mt_until m =? 0)) eqn:Q2; cbn [app GenSem.exec];
         [replace ((mt_as m =? 0) && (mt_until m =? 0)) with false; [reflexivity|] | reflexivity]);
        destruct (mt_as m =? 0), (mt_until m =? 0); cbn in *; congruence.
  Qed.

  Lemma stack_active m ver : mt_ok m -> active (mt_stack m ver) = condition (mt_last_as m) (mt_last_until m) ver.
  Proof.
    unfold mt_ok, mt_stack. intros ->. destruct (mt_last_as m =? 0) eqn:A, (mt_last_until m =? 0) eqn:U; cbn;
    unfold active, condition; rewrite ?A, ?U; cbn; rewrite ?andb_true_r; auto.
  Qed.

  Lemma exec_padding m stk ver s rest : exec (padding m ++ rest) stk ver s = exec rest stk ver s.
  Proof. unfold padding. destruct mt_within; reflexivity. Qed.

  (** access of the members selected by the version *)
  Definition visit_members (ver : N) (fds : list bfield) (s : S) : res S :=
    rd_iter (fun fd s => on_member (snd (bf_key fd)) (bf_ty fd) ver s) (filter (visible ver) fds) s.

  Lemma exec_conclude m ver s rest : mt_ok m -> exec (conclude m ++ rest) (mt_stack m ver) ver s = exec rest [] ver s.
  Proof. intros Hok. unfold conclude, mt_stack. destruct mt_within; reflexivity. Qed.

  Lemma written_set m : mt_ok m -> mt_ok (set_written m). Proof. auto. Qed.

  Lemma writer_members_exec priv c ds : forall m ls m2, writer_members priv ds m = (ls, m2) -> mt_ok m ->
    mt_ok m2 /\ mt_written m2 = mt_written m || negb (match members priv c ds (mt_as m) (mt_until m) with [] => true | _ => false end)
    /\ forall ver s rest, exec (ls ++ conclude m2 ++ rest) (mt_stack m ver) ver s =
       (let! s' := visit_members ver (members priv c ds (mt_as m) (mt_until m)) s in exec rest [] ver s').
  Proof.
    induction ds as [|d ds IH]; intros m ls m2; cbn [writer_members members].
    - intros E Hok. inversion E; subst. repeat split; auto; [rewrite orb_false_r; reflexivity|].
      intros. cbn [app]. rewrite exec_conclude by assumption. reflexivity.
    - destruct d as [n l|n acc const t|].
      + intros E Hok. pose proof (mt_ok_marker m n l Hok) as Hok'. destruct (IH _ _ _ E Hok') as (P1 & P2 & P3).
        rewrite marker_as, marker_until in *. destruct (bounds n l (mt_as m) (mt_until m)) as [a' u']. cbn [fst snd] in *.
        split; [exact P1|]. split; [rewrite P2; destruct (marker_rest m n l) as (_ & _ & _ & ->); reflexivity|].
        intros. rewrite <- P3. rewrite mt_stack_marker. reflexivity.
      + destruct const; cbn [negb andb]; [apply IH|].
        replace (negb priv && negb (is_public acc)) with (negb (priv || is_public acc)) by (destruct priv; reflexivity).
        destruct (priv || is_public acc); cbn [negb]; [|apply IH].
        destruct (write_condition m) as [cl m1] eqn:C. destruct (writer_members priv ds (set_written m1)) as [ls' m2'] eqn:W.
        intros E Hok. inversion E; subst; clear E.
        destruct (write_condition_spec _ _ _ C Hok) as (P1 & P2 & P3 & P4 & P5 & P6 & P7).
        destruct (IH _ _ _ W (written_set _ P1)) as (Q1 & Q2 & Q3). cbn [set_written mt_as mt_until mt_written] in *.
        rewrite P2, P3 in Q2, Q3. split; [exact Q1|]. split; [rewrite Q2, orb_true_r; reflexivity|].
        intros. rewrite <- !app_assoc, P7, exec_padding. cbn [app GenSem.exec].
        rewrite stack_active by exact P1. rewrite P5, P6.
        unfold visit_members. cbn [filter].
        rewrite <- (condition_visible (mt_as m) (mt_until m) ver (c, n) t). specialize (Q3 ver).
        change (mt_stack (set_written m1) ver) with (mt_stack m1 ver) in Q3.
        destruct condition.
        * cbn [rd_iter bf_key bf_ty snd]. rewrite rbind_assoc. apply rbind_ext. intros s'. rewrite Q3. reflexivity.
        * apply Q3.
      + apply IH.
  Qed.

  Lemma reader_members_exec priv c ds : forall m ls m2, reader_members priv ds m = (ls, m2) -> mt_ok m ->
    mt_ok m2 /\ mt_written m2 = mt_written m || negb (match members priv c ds (mt_as m) (mt_until m) with [] => true | _ => false end)
    /\ forall ver s rest, exec (ls ++ conclude m2 ++ rest) (mt_stack m ver) ver s =
       (let! s' := visit_members ver (members priv c ds (mt_as m) (mt_until m)) s in exec rest [] ver s').
  Proof.
    induction ds as [|d ds IH]; intros m ls m2; cbn [reader_members members].
    - intros E Hok. inversion E; subst. repeat split; auto; [rewrite orb_false_r; reflexivity|].
      intros. cbn [app]. rewrite exec_conclude by assumption. reflexivity.
    - destruct d as [n l|n acc const t|].
      + intros E Hok. pose proof (mt_ok_marker m n l Hok) as Hok'. destruct (IH _ _ _ E Hok') as (P1 & P2 & P3).
        rewrite marker_as, marker_until in *. destruct (bounds n l (mt_as m) (mt_until m)) as [a' u']. cbn [fst snd] in *.
        split; [exact P1|]. split; [rewrite P2; destruct (marker_rest m n l) as (_ & _ & _ & ->); reflexivity|].
        intros. rewrite <- P3. rewrite mt_stack_marker. reflexivity.
      + destruct const; cbn [negb andb]; [apply IH|].
        destruct (write_condition m) as [cl m1] eqn:C.
        destruct (priv || is_public acc); [destruct (reader_members priv ds (set_written m1)) as [ls' m2'] eqn:W|
                                           destruct (reader_members priv ds m1) as [ls' m2'] eqn:W];
        intros E Hok; inversion E; subst; clear E;
        destruct (write_condition_spec _ _ _ C Hok) as (P1 & P2 & P3 & P4 & P5 & P6 & P7).
        * destruct (IH _ _ _ W (written_set _ P1)) as (Q1 & Q2 & Q3). cbn [set_written mt_as mt_until mt_written] in *.
          rewrite P2, P3 in Q2, Q3. split; [exact Q1|]. split; [rewrite Q2, orb_true_r; reflexivity|].
          intros. rewrite <- !app_assoc, P7, exec_padding. cbn [app GenSem.exec].
          rewrite stack_active by exact P1. rewrite P5, P6.
          unfold visit_members. cbn [filter].
          rewrite <- (condition_visible (mt_as m) (mt_until m) ver (c, n) t). specialize (Q3 ver).
          change (mt_stack (set_written m1) ver) with (mt_stack m1 ver) in Q3.
          destruct condition.
          -- cbn [rd_iter bf_key bf_ty snd]. rewrite rbind_assoc. apply rbind_ext. intros s'. rewrite Q3. reflexivity.
          -- apply Q3.
        * destruct (IH _ _ _ W P1) as (Q1 & Q2 & Q3). rewrite P2, P3 in Q2, Q3. rewrite P4 in Q2.
          split; [exact Q1|]. split; [exact Q2|].
          intros. rewrite <- !app_assoc, P7, exec_padding. apply Q3.
      + apply IH.
  Qed.

  Lemma exec_bases (rbs : list rclass) : forall ver s rest,
    exec (map (fun b => LBase (qname b)) rbs ++ rest) [] ver s =
    (let! s' := rd_iter (fun b s => on_base (qname b) ver s) rbs s in exec rest [] ver s').
  Proof.
    induction rbs as [|b rbs IH]; intros; cbn; [reflexivity|].
    rewrite rbind_assoc. apply rbind_ext. intros s'. apply IH.
  Qed.

  (** the whole body *)
  Definition body (rbs : list rclass) (k : rclass) (fds : list bfield) (ver : N) (s : S) : res (N * S) :=
    let! s1 := rd_iter (fun b s => on_base (qname b) ver s) rbs s in
    let! (ver', s2) := match k_base k with Some b => on_version (cb_printed b) ver s1 | None => ROk (ver, s1) end in
    let! s3 := visit_members ver' fds s2 in
    ROk (ver', s3).

  Lemma exec_writer rbs k ver s :
    exec (writer_lines rbs k) [] ver s = body rbs k (bp_fields (writer_prog rbs k)) ver s.
  Proof.
    unfold writer_lines, body, writer_prog. destruct (writer_members _ _ mt0) as [ms m] eqn:W.
    destruct (writer_members_exec _ (cr_id (k_rec k)) _ _ _ _ W mt0_ok) as (_ & _ & P).
    cbn [bp_fields]. cbn [app GenSem.exec]. rewrite exec_bases. apply rbind_ext. intros s1.
    change (mt_as mt0) with 0 in P. change (mt_until mt0) with 0 in P.
    assert (Q: forall ver' s2, exec (LNote (bs "write members") :: ms ++ conclude m ++ (if no_bases rbs && negb (mt_written m) then [LVoid] else [])) [] ver' s2
               = (let! s3 := visit_members ver' (members (befriends (k_rec k) fn_write) (cr_id (k_rec k)) (cr_decls (k_rec k)) 0 0) s2 in ROk (ver', s3))).
    { intros ver' s2. cbn [GenSem.exec]. specialize (P ver' s2). change (mt_stack mt0 ver') with (@nil bool) in P. rewrite P.
      apply rbind_ext. intros s3. destruct (no_bases rbs && negb (mt_written m)); reflexivity. }
    unfold version_lines. destruct (k_base k) as [b|].
    - cbn [app GenSem.exec active forallb]. apply rbind_ext. intros [ver' s2]. apply Q.
    - cbn [app rbind]. apply Q.
  Qed.

  Lemma exec_reader rbs k p ver s : reader_prog rbs k = Some p ->
    exec (reader_lines rbs k) [] ver s = body rbs k (bp_fields p) ver s.
  Proof.
    unfold reader_lines, body, reader_prog. destruct (reader_members _ _ mt0) as [ms m] eqn:W.
    destruct (reader_members_exec _ (cr_id (k_rec k)) _ _ _ _ W mt0_ok) as (_ & _ & P).
    destruct (cr_defctor (k_rec k)); [|discriminate]. intros E; inversion E; subst; clear E.
    cbn [bp_fields]. cbn [app GenSem.exec]. rewrite exec_bases. apply rbind_ext. intros s1.
    change (mt_as mt0) with 0 in P. change (mt_until mt0) with 0 in P.
    assert (Q: forall ver' s2, exec (LNote (bs "read members") :: ms ++ conclude m ++ (if no_bases rbs && negb (mt_written m) then [LVoid] else []) ++ [LReturn]) [] ver' s2
               = (let! s3 := visit_members ver' (members (befriends (k_rec k) fn_read) (cr_id (k_rec k)) (cr_decls (k_rec k)) 0 0) s2 in ROk (ver', s3))).
    { intros ver' s2. cbn [GenSem.exec]. specialize (P ver' s2). change (mt_stack mt0 ver') with (@nil bool) in P. rewrite P.
      apply rbind_ext. intros s3. destruct (no_bases rbs && negb (mt_written m)); reflexivity. }
    unfold version_lines. destruct (k_base k) as [b|].
    - cbn [app GenSem.exec active forallb]. apply rbind_ext. intros [ver' s2]. apply Q.
    - cbn [app rbind]. apply Q.
  Qed.
End E.
