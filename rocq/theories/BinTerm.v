(** BinTerm.v -- writing terminates for every finite object graph, whatever its values *)
From Coq Require Import List NArith ZArith Bool Lia.
From Verif Require Import Base BaseFacts Bytes Types TypesFacts BinModel FuelFacts BinTotal BinFacts.
Import ListNotations.

(** number of constructors of a value *)
Fixpoint vsize (v : val) : nat :=
  match v with
  | VList l => S (fold_right (fun x n => vsize x + n) 0 l)
  | VPair a b => S (vsize a + vsize b)
  | VOpt (Some x) => S (vsize x)
  | VVar _ x => S (vsize x)
  | VObj fs => S (fold_right (fun kv n => vsize (snd kv) + n) 0 fs)
  | _ => 1
  end.

Lemma vsize_in l x : In x l -> vsize x <= fold_right (fun x n => vsize x + n) 0 l.
Proof. induction l as [|y l IH]; cbn; [intros []|]. intros [->|Hi]; [lia|]. apply IH in Hi. lia. Qed.
Lemma vsize_member (fs : list (fkey * val)) k x : alookup fkey_eqb k fs = Some x ->
  vsize x <= fold_right (fun kv n => vsize (snd kv) + n) 0 fs.
Proof.
  induction fs as [|[k' y] fs IH]; cbn; [discriminate|]. destruct (fkey_eqb k k').
  - intros E; inversion E; lia.
  - intros E. apply IH in E. lia.
Qed.

(** a class is not its own base (C++ forbids it) *)
Definition no_base_cycle (G : genv) : Prop :=
  exists rk : N -> nat, forall c rc b, g_class G c = Some rc -> In b (bp_bases (rc_wr rc)) -> rk b < rk c.

Section Term.
  Variable G : genv.
  Variable H : heap.
  Variable rk : N -> nat.
  Hypothesis HR : forall c rc b, g_class G c = Some rc -> In b (bp_bases (rc_wr rc)) -> rk b < rk c.

  Lemma iter_term {A} (w : nat -> A -> list N -> res (bytes * list N)) n :
    (forall f f' x W, f <= f' -> le_res (w f x W) (w f' x W)) ->
    (forall f x W b W', w f x W = ROk (b, W') -> grows W W') ->
    forall l, (forall x, In x l -> forall W, unwritten H W <= n -> exists F, w F x W <> RFuel) ->
    forall W, unwritten H W <= n -> exists F, wr_iter (w F) l W <> RFuel.
  Proof.
    intros M Gr l. induction l as [|x l IH]; intros Hx W HW; [exists 0; discriminate|].
    destruct (Hx x (or_introl eq_refl) W HW) as [F1 E1].
    destruct (w F1 x W) as [[b1 W1]| | | |] eqn:Ew.
    2,3,5: exists F1; cbn; rewrite Ew; discriminate.
    2: congruence.
    assert (HW1: unwritten H W1 <= n).
    { etransitivity; [apply unwritten_incl|exact HW]. destruct (Gr _ _ _ _ _ Ew) as (news & -> & _). apply incl_appr, incl_refl. }
    destruct (IH (fun y Hy => Hx y (or_intror Hy)) W1 HW1) as [F2 E2].
    exists (max F1 F2). cbn.
    pose proof (le_res_ok _ _ (M F1 (max F1 F2) x W ltac:(lia)) ltac:(rewrite Ew; exact E1)) as E1'. rewrite Ew in E1'. rewrite E1'. cbn.
    pose proof (le_res_ok _ _ (le_wr_iter (w F2) (w (max F1 F2)) l (fun x W => M F2 (max F1 F2) x W ltac:(lia)) W1) E2) as E2'.
    rewrite E2'. destruct (wr_iter (w F2) l W1) as [[? ?]| | | |]; cbn; congruence.
  Qed.

  Definition TW (n : nat) (ver : N) (t : ty) (v : val) : Prop :=
    forall W, unwritten H W <= n -> exists F, write G H F ver t v W <> RFuel.

  Lemma bind_term {A B} (m : nat -> res A) (k : nat -> A -> res B) :
    (forall f f', f <= f' -> le_res (m f) (m f')) ->
    (forall f f' a, f <= f' -> le_res (k f a) (k f' a)) ->
    (exists F, m F <> RFuel) -> (forall F a, m F = ROk a -> exists F', k F' a <> RFuel) ->
    exists F, rbind (m F) (k F) <> RFuel.
  Proof.
    intros M1 M2 [F E] K. destruct (m F) as [a| | | |] eqn:Em.
    2,3,5: exists F; rewrite Em; cbn; discriminate.
    2: congruence.
    destruct (K F a Em) as [F' E']. exists (max F F').
    pose proof (le_res_ok _ _ (M1 F (max F F') ltac:(lia)) ltac:(rewrite Em; exact E)) as E1. rewrite Em in E1. rewrite E1. cbn.
    pose proof (le_res_ok _ _ (M2 F' (max F F') a ltac:(lia)) E') as E2. rewrite E2. exact E'.
  Qed.

  Lemma wr_varint_nofuel v : wr_varint v <> RFuel.
  Proof.
    assert (Q: forall l k, wr_varint_from l k v <> RFuel); [|apply Q].
    induction l as [|l IHl]; intros k; cbn [wr_varint_from]; [discriminate|].
    cbv zeta. destruct (v <? _)%N; [discriminate|]. apply IHl.
  Qed.
  Lemma wr_string_nofuel s : wr_string s <> RFuel.
  Proof. unfold wr_string. pose proof (wr_varint_nofuel (N.of_nat (length s))). destruct (wr_varint _); cbn; congruence. Qed.
  Lemma head_nofuel m a : wr_ptr_head m a <> RFuel.
  Proof. unfold wr_ptr_head. destruct (bigId a); [discriminate|]. pose proof (wr_varint_nofuel a). destruct (wr_varint a); cbn; congruence. Qed.

  Lemma cls_term n m : (forall ver t v, vsize v <= m -> TW n ver t v) ->
    forall fs, fold_right (fun kv n => vsize (snd kv) + n) 0 fs <= m ->
    forall r c, rk c < r -> forall ver W, unwritten H W <= n -> exists F, write_cls G H F ver c fs W <> RFuel.
  Proof.
    intros IHm fs Hfs. induction r as [|r IHr]; intros c Hr ver W HW; [lia|].
    destruct (g_class G c) as [rc|] eqn:Hc; [|exists 1; rewrite write_cls_S; unfold write_cls_body; rewrite Hc; discriminate].
    assert (Q: exists F, (let p := rc_wr rc in
        let! (bb, W1) := wr_iter (fun b => write_cls G H F ver b fs) (bp_bases p) W in
        let versioned := negb (bp_vmax p =? 0)%N in
        let ver' := if versioned && (ver =? 0)%N then bp_vmax p else ver in
        let! bv := (if versioned then wr_varint ver' else ROk []) in
        let! (bm, W2) := wr_iter (fun fd W =>
            if visible ver' fd then
              match alookup fkey_eqb (bf_key fd) fs with
              | Some v => write G H F ver' (bf_ty fd) v W
              | None => RStuck
              end
            else ROk ([], W)) (bp_fields p) W1 in
        ROk (bb ++ bv ++ bm, W2)) <> RFuel).
    { cbv zeta. apply (bind_term (fun F => wr_iter (fun b => write_cls G H F ver b fs) (bp_bases (rc_wr rc)) W)).
      - intros f f' Hle. apply le_wr_iter. intros x W0. apply (write_mono G H f f' Hle).
      - intros f f' [bb W1] Hle. apply le_rbind; [apply le_res_refl|]. intros bv. apply le_rbind; [|intros [? ?]; apply le_res_refl].
        apply le_wr_iter. intros fd W0. destruct (visible _ fd); [|apply le_res_refl].
        destruct (alookup _ _ _); [|apply le_res_refl]. apply (write_mono G H f f' Hle).
      - apply (iter_term (fun F b W => write_cls G H F ver b fs W) n); [| | |exact HW].
        + intros f f' x W0 Hle. apply (write_mono G H f f' Hle).
        + intros f x W0 b W' E. destruct (write_grows G H f) as [_ Gr]. eapply Gr; exact E.
        + intros b Hb W0 HW0. apply (IHr b); [|exact HW0]. pose proof (HR c rc b Hc Hb). lia.
      - intros F [bb W1] E1.
        assert (HW1: unwritten H W1 <= n).
        { etransitivity; [apply unwritten_incl|exact HW]. 
          assert (Gw: grows W W1) by (eapply grows_iter; [|exact E1]; intros x W0 b0 W0' E0; destruct (write_grows G H F) as [_ Gr]; eapply Gr; exact E0).
          destruct Gw as (news & -> & _). apply incl_appr, incl_refl. }
        destruct (if negb (bp_vmax (rc_wr rc) =? 0)%N then _ else _) as [bv| | | |] eqn:Ev.
        1: cbn [rbind].
        2,3,5: exists 0; cbn; discriminate.
        2:{ exfalso. destruct (negb (bp_vmax (rc_wr rc) =? 0)%N); [|discriminate]. apply wr_varint_nofuel in Ev. exact Ev. }
        match goal with |- exists F', rbind (wr_iter (@?w F') ?ll ?x) _ <> _ =>
          destruct (iter_term w n) with (l := ll) (W := x) as [F2 E2] end.
        + intros f f' fd W0 Hle. cbv beta. destruct (visible _ fd); [|apply le_res_refl].
          destruct (alookup _ _ _); [|apply le_res_refl]. apply (write_mono G H f f' Hle).
        + intros f fd W0 b W' E. cbv beta in E. destruct (visible _ fd); [|inversion E; apply grows_refl].
          destruct (alookup _ _ _); [|discriminate]. destruct (write_grows G H f) as [Gr _]. eapply Gr; exact E.
        + intros fd _ W0 HW0. cbv beta. destruct (visible _ fd); [|exists 0; discriminate].
          destruct (alookup fkey_eqb (bf_key fd) fs) as [v|] eqn:El; [|exists 0; discriminate].
          apply IHm; [|exact HW0]. apply vsize_member in El. lia.
        + exact HW1.
        + exists F2. cbv beta in E2. match goal with |- rbind ?x _ <> _ => destruct x as [[? ?]| | | |] end; cbn; congruence. }
    destruct Q as [F Q]. exists (S F). rewrite write_cls_S. unfold write_cls_body. rewrite Hc. exact Q.
  Qed.

  Lemma term_n n : forall m ver t v, vsize v <= m -> TW n ver t v.
  Proof.
    induction n as [n IHn] using (well_founded_induction Wf_nat.lt_wf).
    induction m as [|m IHm]; intros ver t v Hv; [destruct v; cbn in Hv; try destruct o; lia|].
    assert (Mw: forall ver t v W f f', f <= f' -> le_res (write G H f ver t v W) (write G H f' ver t v W)).
    { intros ver0 t0 v0 W0 f f' Hle. apply (write_mono G H f f' Hle). }
    assert (Gw: forall ver t v W n0 f b W', unwritten H W <= n0 -> write G H f ver t v W = ROk (b, W') -> unwritten H W' <= n0).
    { intros ver0 t0 v0 W0 n0 f b W' HW E. etransitivity; [apply unwritten_incl|exact HW].
      destruct (write_grows G H f) as [Gr _]. destruct (Gr _ _ _ _ _ _ E) as (news & -> & _). apply incl_appr, incl_refl. }
    assert (Sub: forall ver x, vsize x < vsize v -> forall t, TW n ver t x) by (intros; apply IHm; lia).
    assert (It: forall t l, S (fold_right (fun x n => vsize x + n) 0 l) <= vsize v -> forall W, unwritten H W <= n ->
       exists F, wr_iter (write G H F 0 t) l W <> RFuel).
    { intros t0 l Hl W HW. apply (iter_term (fun F => write G H F 0 t0) n); auto.
      - intros f x W0 b W' E. destruct (write_grows G H f) as [Gr _]. eapply Gr; exact E.
      - intros x Hx. apply (Sub 0%N x). apply vsize_in in Hx. lia. }
    intros W HW.
    assert (Q: exists F, write_body H (write G H F) (write_cls G H F) ver t v W <> RFuel).
    2:{ destruct Q as [F Q]. exists (S F). rewrite write_S. exact Q. }
    unfold write_body. 
    destruct t; try (exists 0; destruct v; discriminate);
      try (exists 0; destruct v; try discriminate; destruct (bin_kind k); discriminate).
    - (* string *) exists 0. destruct v; try discriminate. pose proof (wr_string_nofuel s). destruct (wr_string s); cbn; congruence.
    - destruct v; try (exists 0; discriminate). pose proof (wr_varint_nofuel (N.of_nat (length l))) as Nv.
      destruct (wr_varint _); cbn [rbind]; try (exists 0; congruence).
      destruct (It t l (le_n _) W HW) as [F E]. exists F. destruct (wr_iter _ l W) as [[? ?]| | | |]; cbn; congruence.
    - destruct v; try (exists 0; discriminate). pose proof (wr_varint_nofuel (N.of_nat (length l))) as Nv.
      destruct (wr_varint _); cbn [rbind]; try (exists 0; congruence).
      destruct (It t l (le_n _) W HW) as [F E]. exists F. destruct (wr_iter _ l W) as [[? ?]| | | |]; cbn; congruence.
    - destruct v; try (exists 0; discriminate). pose proof (wr_varint_nofuel (N.of_nat (length l))) as Nv.
      destruct (wr_varint _); cbn [rbind]; try (exists 0; congruence).
      destruct (It (TPair t1 t2) l (le_n _) W HW) as [F E]. exists F. destruct (wr_iter _ l W) as [[? ?]| | | |]; cbn; congruence.
    - destruct v; try (exists 0; discriminate).
      apply (bind_term (fun F => write G H F 0 t1 v1 W)).
      + intros f f' Hle. apply Mw; exact Hle.
      + intros f f' [b W1] Hle. apply le_rbind; [apply Mw; exact Hle|intros [? ?]; apply le_res_refl].
      + apply Sub; [cbn; lia|exact HW].
      + intros F [b W1] E. destruct (Sub 0%N v2 ltac:(cbn; lia) t2 W1) as [F' E']; [eapply Gw; eauto|].
        exists F'. destruct (write G H F' 0 t2 v2 W1) as [[? ?]| | | |]; cbn; congruence.
    - destruct v; try (exists 0; discriminate). destruct o as [x|]; [|exists 0; discriminate].
      destruct (Sub 0%N x ltac:(cbn; lia) t W HW) as [F E]. exists F. destruct (write G H F 0 t x W) as [[? ?]| | | |]; cbn; congruence.
    - destruct v; try (exists 0; discriminate). destruct o as [x|]; [|exists 0; discriminate].
      destruct (Sub 0%N x ltac:(cbn; lia) t W HW) as [F E]. exists F. destruct (write G H F 0 t x W) as [[? ?]| | | |]; cbn; congruence.
    - destruct v; try (exists 0; discriminate). destruct o as [a|]; [|exists 0; discriminate].
      destruct (existsb (N.eqb a) W) eqn:EW.
      + exists 0. pose proof (head_nofuel 2 a). destruct (wr_ptr_head 2 a); cbn; congruence.
      + pose proof (head_nofuel 1 a). destruct (wr_ptr_head 1 a); cbn [rbind]; try (exists 0; congruence).
        destruct (hget H a) as [[t' x]|] eqn:Ea; [|exists 0; discriminate]. destruct (ty_eqb t t'); [|exists 0; discriminate].
        assert (Hlt: unwritten H (a :: W) < unwritten H W).
        { apply unwritten_cons.
          - eapply alookup_some_key; [apply N.eqb_eq|exact Ea].
          - intros Hc. apply existsb_in in Hc. congruence. }
        destruct (IHn (unwritten H (a :: W)) ltac:(lia) (vsize x) 0%N t x (le_n _) (a :: W) (le_n _)) as [F E].
        exists F. destruct (write G H F 0 t x (a :: W)) as [[? ?]| | | |]; cbn; congruence.
    - destruct v; try (exists 0; discriminate). destruct (nth_error ts i) as [t|] eqn:En; [|exists 0; discriminate].
      destruct (Sub 0%N v ltac:(cbn; lia) t W HW) as [F E]. exists F.
      destruct t; try discriminate; (match goal with |- rbind ?x _ <> _ => destruct x as [[? ?]| | | |] end; cbn; congruence).
    - destruct v; try (exists 0; discriminate).
      eapply (cls_term n m) with (r := S (rk c)); [|cbn in Hv|lia|exact HW]; [|lia].
      intros ver0 t0 v0 H0. apply IHm; exact H0.
    - (* string view *) exists 0. destruct v; try discriminate. destruct o as [x|]; [destruct x; try discriminate |].
      + pose proof (wr_string_nofuel s). destruct (wr_string s); cbn; congruence.
      + pose proof (wr_string_nofuel []). destruct (wr_string []); cbn; congruence.
  Qed.
End Term.

Theorem write_terminates G H : no_base_cycle G -> forall ver t v W, exists F, forall fuel, F <= fuel ->
  write G H fuel ver t v W <> RFuel /\ write G H fuel ver t v W = write G H F ver t v W.
Proof.
  intros [rk HR] ver t v W. destruct (term_n G H rk HR (unwritten H W) (vsize v) ver t v (le_n _) W (le_n _)) as [F E].
  exists F. intros fuel Hle. pose proof (le_res_ok _ _ (proj1 (write_mono G H F fuel Hle) ver t v W) E) as E'.
  rewrite E'. split; [exact E|reflexivity].
Qed.
