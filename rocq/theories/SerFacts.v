(** SerFacts.v -- serialising values of supported types to binary data succeeds *)
From Coq Require Import List NArith ZArith Bool Lia.
From Verif Require Import Base BaseFacts Bytes BytesFacts Types TypesFacts BinModel FuelFacts BinTotal BinFacts BinTerm BinSpec BinSafeSpec JsonModel DispatchSpec SerSpec.
Import ListNotations.
Local Open Scope list_scope.
Local Open Scope nat_scope.

Lemma sizes_item n l x : sizes_below n (VList l) -> In x l -> sizes_below n x.
Proof. intros [_ A]. revert A. induction l as [|y l IH]; [intros _ []|]. intros [Y A] [<-|Hx]; [exact Y|exact (IH A Hx)]. Qed.
Lemma sizes_member n fs k x : sizes_below n (VObj fs) -> alookup fkey_eqb k fs = Some x -> sizes_below n x.
Proof.
  cbn [sizes_below]. induction fs as [|[k' y] fs IH]; [discriminate|]. intros [Y A]. cbn [alookup].
  destruct (fkey_eqb k k'); [intros [= <-]; exact Y|exact (IH A)].
Qed.
Lemma writable_alt G ts i t : writable G (TVariant ts) -> nth_error ts i = Some t -> t = TMono \/ writable G t.
Proof.
  intros [_ A]. revert i A. induction ts as [|u ts IH]; intros [|i] A E; try discriminate.
  - injection E as ->. apply A.
  - apply (IH i); [apply A|exact E].
Qed.

Section Writes.
  Variables (G : genv) (H : heap) (small : Prop).
  Hypothesis WO : writers_ok G.
  Hypothesis HT : heap_typed G false H.
  Hypothesis HS : small -> forall a t x, hget H a = Some (t, x) -> sizes_below (2 ^ 56) x.

  (** success, or the exception about sizes *)
  Definition fine {A} (r : res A) : Prop :=
    match r with ROk _ | RFuel => True | RThrow ExConv => ~ small | _ => False end.
  Lemma fine_bind {A B} (m : res A) (k : A -> res B) : fine m -> (forall a, m = ROk a -> fine (k a)) -> fine (rbind m k).
  Proof. destruct m as [a|e| | |]; cbn; auto. Qed.
  Lemma fine_varint n : (small -> (n < 2 ^ 56)%N) -> fine (wr_varint n).
  Proof.
    intros S. destruct (N.lt_ge_cases n (2 ^ 56)) as [L|L].
    - destruct (wr_varint_ok n L) as [b ->]. exact I.
    - rewrite (wr_varint_big n L). intros s. specialize (S s). lia.
  Qed.
  Lemma fine_string s : (small -> sizes_below (2 ^ 56) (VStr s)) -> fine (wr_string s).
  Proof. intros S. unfold wr_string. apply fine_bind; [apply fine_varint; exact S|intros b _; exact I]. Qed.
  Lemma fine_head m a : fine (wr_ptr_head m a).
  Proof.
    unfold wr_ptr_head, bigId. destruct (N.leb_spec 0x80000000000000 a) as [L|L]; [exact I|].
    apply fine_bind; [|intros b _; exact I]. apply fine_varint. intros _. eapply N.lt_trans; [exact L|reflexivity].
  Qed.
  Lemma fine_iter {A} (w : A -> list N -> res (bytes * list N)) l : (forall x, In x l -> forall W, fine (w x W)) -> forall W, fine (wr_iter w l W).
  Proof.
    induction l as [|x l IH]; intros Hx W; cbn [wr_iter]; [exact I|].
    apply fine_bind; [apply Hx; left; reflexivity|intros [b1 W1] _]. apply fine_bind; [apply IH; intros y Hy; apply Hx; right; exact Hy|intros [b2 W2] _; exact I].
  Qed.

  (** the members of class [c] exist in [fs] *)
  Definition has_members (c : N) (fs : list (fkey * val)) : Prop := exists rc, g_class G c = Some rc
    /\ forall k t, alookup fkey_eqb k (rc_layout rc) = Some t -> exists v, alookup fkey_eqb k fs = Some v /\ has_type G false H t v /\ (small -> sizes_below (2 ^ 56) v).

  Lemma struct_members c fs : has_type G false H (TStruct c) (VObj fs) -> (small -> sizes_below (2 ^ 56) (VObj fs)) -> has_members c fs.
  Proof.
    intros T S. inversion T; subst; try discriminate.
    match goal with A : g_class G c = Some ?rc, B : map fst fs = _, C : forall _ _ _, _ |- _ => rename rc into rc0, A into Hc, B into Hm, C into Hf end.
    exists rc0. split; [exact Hc|]. intros k t E.
    destruct (alookup_some_in fkey_eqb fkey_eqb_eq k fs) as [v Ev].
    { rewrite Hm. eapply alookup_some_key; [apply fkey_eqb_eq|exact E]. }
    exists v. split; [exact Ev|]. split; [eapply Hf; eassumption|]. intros s. eapply sizes_member; [exact (S s)|exact Ev].
  Qed.

  Lemma write_fine f :
    (forall ver t v W, (small -> (ver < 2 ^ 56)%N) -> writable G t -> has_type G false H t v -> (small -> sizes_below (2 ^ 56) v) -> fine (write G H f ver t v W))
    /\ (forall ver c fs W, (small -> (ver < 2 ^ 56)%N) -> has_members c fs -> fine (write_cls G H f ver c fs W)).
  Proof.
    induction f as [|f [IH IHc]]; [split; intros; exact I|]. 
    assert (Z: small -> (0 < 2 ^ 56)%N) by (intros _; reflexivity).
    split.
    - intros ver t v W Hv Hw T S. rewrite write_S. destruct T; cbn [write_body]; try exact I; try discriminate; try (exfalso; exact Hw).
      + cbn in Hw. rewrite Hw. exact I.
      + cbn in Hw. rewrite Hw. exact I.
      + apply fine_bind; [apply fine_string; exact S|intros b _; exact I].
      + apply fine_bind; [apply fine_varint; intros s; apply (S s)|intros p _]. apply fine_bind; [|intros [b W1] _; exact I].
        apply fine_iter. intros x Hx W'. apply IH; [exact Z|exact Hw|auto|]. intros s. eapply sizes_item; [exact (S s)|exact Hx].
      + apply fine_bind; [apply fine_varint; intros s; apply (S s)|intros p _]. apply fine_bind; [|intros [b W1] _; exact I].
        apply fine_iter. intros x Hx W'. apply IH; [exact Z|exact Hw|auto|]. intros s. eapply sizes_item; [exact (S s)|exact Hx].
      + apply fine_bind; [apply fine_varint; intros s; apply (S s)|intros p _]. apply fine_bind; [|intros [b W1] _; exact I].
        apply fine_iter. intros x Hx W'. apply IH; [exact Z|exact Hw| |].
        * destruct (H0 x Hx) as (k & v & ->). constructor; [eapply H1|eapply H2]; exact Hx.
        * intros s. eapply sizes_item; [exact (S s)|exact Hx].
      + destruct Hw as [Wa Wb]. apply fine_bind; [apply IH; auto; intros s; apply (S s)|intros [ba W1] _].
        apply fine_bind; [apply IH; auto; intros s; apply (S s)|intros [bb W2] _; exact I].
      + apply fine_bind; [apply IH; auto|intros [b W1] _; exact I].
      + apply fine_bind; [apply IH; auto|intros [b W1] _; exact I].
      + destruct (existsb (N.eqb a) W); [apply fine_bind; [apply fine_head|intros b _; exact I]|].
        apply fine_bind; [apply fine_head|intros b _]. unfold hty in H0. destruct (hget H a) as [[t' x]|] eqn:E; [|discriminate].
        cbn in H0. injection H0 as ->. rewrite ty_eqb_refl. apply fine_bind; [|intros [bx W1] _; exact I].
        apply IH; [exact Z|exact Hw|exact (HT _ _ _ E)|]. intros s. exact (HS s _ _ _ E).
      + rewrite H0. destruct (writable_alt G ts i t Hw H0) as [-> | Wt]; [exact I|].
        assert (Q: fine (let! (bx, W1) := write G H f 0 t x W in ROk (mkb (N.of_nat i) :: bx, W1))).
        { apply fine_bind; [apply IH; auto|intros [b W1] _; exact I]. }
        destruct t; try exact Q. exact I.
      + destruct Hw as [rc' E]. apply IHc; [exact Hv|]. apply struct_members; [|exact S]. econstructor; eassumption.
      + apply fine_bind; [apply fine_string; exact S|intros b _; exact I].
    - intros ver c fs W Hv (rc & Hc & Hm). rewrite write_cls_S. unfold write_cls_body. rewrite Hc. cbv zeta.
      apply fine_bind.
      { apply fine_iter. intros b Hb W'. apply IHc; [exact Hv|]. destruct (wo_bases G WO c rc b Hc Hb) as (rb & Eb & L).
        exists rb. split; [exact Eb|]. intros k t E. apply Hm, L, E. }
      intros [bb W1] _. apply fine_bind.
      { destruct (negb (bp_vmax (rc_wr rc) =? 0)%N); [|exact I]. apply fine_varint. intros s. destruct (ver =? 0)%N; cbn [andb]; [exact (wo_version G WO c rc Hc)|exact (Hv s)]. }
      intros bv _. apply fine_bind; [|intros [bm W2] _; exact I]. apply fine_iter. intros fd Hfd W'.
      destruct (visible _ fd); [|exact I]. destruct (Hm _ _ (wo_fields G WO c rc fd Hc Hfd)) as (v & -> & T & S).
      apply IH; [|exact (wo_types G WO c rc fd Hc Hfd)|exact T|exact S].
      intros s. destruct (negb (bp_vmax (rc_wr rc) =? 0)%N && (ver =? 0)%N); [exact (wo_version G WO c rc Hc)|exact (Hv s)].
  Qed.
End Writes.

Lemma write_succeeds G H : writers_ok G -> heap_typed G false H -> (forall a t x, hget H a = Some (t, x) -> sizes_below (2 ^ 56) x) ->
  forall ver t v W, (ver < 2 ^ 56)%N -> writable G t -> has_type G false H t v -> sizes_below (2 ^ 56) v ->
  exists F bs W', forall fuel, F <= fuel -> write G H fuel ver t v W = ROk (bs, W').
Proof.
  intros WO HT HS ver t v W Hv Hw T S. destruct (write_terminates G H (wo_acyclic G WO) ver t v W) as (F & Q).
  destruct (write_fine G H True WO HT (fun _ => HS) F) as [P _]. specialize (P ver t v W (fun _ => Hv) Hw T (fun _ => S)).
  destruct (Q F (le_n F)) as [NF _]. destruct (write G H F ver t v W) as [[bs W']|e| | |] eqn:E; cbn in P; try contradiction; try congruence.
  - exists F, bs, W'. intros fuel L. rewrite (proj2 (Q fuel L)). first [reflexivity | exact E].
  - destruct e; contradiction || (exfalso; apply P; exact I).
Qed.

Lemma write_outcome G H : writers_ok G -> heap_typed G false H ->
  forall fuel ver t v W, writable G t -> has_type G false H t v ->
  match write G H fuel ver t v W with ROk _ | RThrow ExConv | RFuel => True | _ => False end.
Proof.
  intros WO HT fuel ver t v W Hw T. destruct (write_fine G H False WO HT (fun f => match f with end) fuel) as [P _].
  specialize (P ver t v W (fun f => match f with end) Hw T (fun f => match f with end)). unfold fine in P.
  destruct (write G H fuel ver t v W) as [|e| | |]; auto. destruct e; auto.
Qed.
