(** AgainComplete.v -- a document which specifies a whole value determines the value *)
From Coq Require Import String List NArith ZArith Bool Lia.
From Verif Require Import Base BaseFacts Types TypesFacts BinModel BinSpec BinSafeSpec BinFacts ContFacts Float JsonModel JsonRel JsonErr JsonSpec JsonSafeSpec JsonSafe JsonMembers JsonColl JsonTextFacts
  EquivSpec AgainSpec AgainFacts AgainTop.
Import ListNotations.
Local Open Scope list_scope.

Lemma fields_ext (l l' : list (fkey * val)) : map fst l = map fst l' -> NoDup (map fst l) -> (forall k, In k (map fst l) -> alookup fkey_eqb k l = alookup fkey_eqb k l') -> l = l'.
Proof.
  revert l'. induction l as [|[k x] l IH]; intros [|[k' x'] l'] E ND H; try discriminate; [reflexivity|]. cbn [map fst] in E. injection E as <- E. inversion ND as [|y ys Hn ND']; subst.
  assert (x = x') as ->.
  { specialize (H k (or_introl eq_refl)). cbn [alookup] in H. rewrite (proj2 (fkey_eqb_eq k k) eq_refl) in H. congruence. }
  f_equal. apply IH; [exact E|exact ND'|]. intros k2 Hk2. specialize (H k2 (or_intror Hk2)). cbn [alookup] in H.
  destruct (fkey_eqb k2 k) eqn:Ek; [|exact H]. apply fkey_eqb_eq in Ek. subst. contradiction.
Qed.

Section Complete.
  Variables (G : genv) (J : jenv) (C : mode -> N -> Prop).
  Hypothesis HC : classes_considered G C.
  Variables (ud ud' : bool).

  Definition c_val (j : json) := forall m t, m <> Any -> considered C m t -> complete G J t j -> forall h h' o o' f st v s f2 st2 w s2, variable_ok G ud h t o -> variable_ok G ud' h' t o' ->
    pull G J f t o j st = POk v s -> pull G J f2 t o' j st2 = POk w s2 -> v = w.

  Lemma tuple_complete m f f2 h h' : m <> Any -> forall ts js, Forall2 (complete G J) ts js -> (forall j, In j js -> c_val j) ->
    (fix all l := match l with [] => True | t :: l' => considered C m t /\ all l' end) ts ->
    forall os os' st xs s st2 ys s2, length os = length ts -> length os' = length ts -> (forall i t x, nth_error ts i = Some t -> nth_error os i = Some x -> has_type G ud h t x) ->
    (forall i t x, nth_error ts i = Some t -> nth_error os' i = Some x -> has_type G ud' h' t x) ->
    pull_tuple (pull G J f) ts os js st = POk xs s -> pull_tuple (pull G J f2) ts os' js st2 = POk ys s2 -> xs = ys.
  Proof.
    intros Hm ts js F. induction F as [|t j ts js Hj F IH]; intros HI K os os' st xs s st2 ys s2 Lo Lo' HO HO' E E2.
    - destruct os; [|discriminate]. destruct os'; [|discriminate]. cbn in E, E2. unfold ret in E, E2. congruence.
    - destruct os as [|o os]; [discriminate|]. destruct os' as [|o' os']; [discriminate|]. cbn [pull_tuple] in E, E2. unfold bind in E, E2.
      destruct (pull G J f t o j st) as [x s1| | | |] eqn:E1; try discriminate. destruct (pull_tuple _ ts os js s1) as [r s3| | | |] eqn:E3; try discriminate. injection E as <- <-.
      destruct (pull G J f2 t o' j st2) as [y s1'| | | |] eqn:E1'; try discriminate. destruct (pull_tuple _ ts os' js s1') as [r' s3'| | | |] eqn:E3'; try discriminate. injection E2 as <- <-.
      f_equal.
      + eapply (HI j (or_introl eq_refl) m t Hm (proj1 K) Hj h h' o o'); [left; exact (HO 0 t o eq_refl eq_refl)|left; exact (HO' 0 t o' eq_refl eq_refl)|exact E1|exact E1'].
      + eapply IH; [intros; apply HI; right; assumption|exact (proj2 K)| | | | |exact E3|exact E3']; cbn in Lo, Lo'; try lia;
          intros i t1 x1 H1 H2; [eapply (HO (S i))|eapply (HO' (S i))]; eassumption.
  Qed.

  Lemma complete_all j : c_val j.
  Proof.
    induction j as [j IH] using json_children. intros m t Hm K CP h h' o o' f st v s f2 st2 w s2 O O' E E2. destruct f as [|f]; [discriminate|]. destruct f2 as [|f2]; [discriminate|].
    assert (Fresh : (forall o o' st, pull G J (S f2) t o j st = pull G J (S f2) t o' j st) -> v = w).
    { intros H. rewrite (H o' o) in E2. eapply (proj1 (value_det G J C HC (S f)) (S f2) m t o j Hm K); eassumption. }
    inversion CP as [b|k j' En|j' En|j' En|k z En|s0|s0 z En|s0 z En|t' js|ord multi t' js|t' j'|t' j'|ta tb ja jb Ca Cb|ts js F|ts ms z jd t' E1 E3 E4 E5|c rc L ms Ec HL NL NR Hi HF]; subst.
    - apply Fresh. intros; rewrite !pull_S; reflexivity.
    - apply Fresh. intros. rewrite !pull_S. cbn [pull_body]. rewrite En. reflexivity.
    - apply Fresh. intros. rewrite !pull_S. cbn [pull_body]. destruct j; try discriminate En; reflexivity.
    - apply Fresh. intros. rewrite !pull_S. cbn [pull_body]. destruct j; try discriminate En; reflexivity.
    - apply Fresh. intros. rewrite !pull_S. cbn [pull_body]. rewrite En. reflexivity.
    - apply Fresh. intros; rewrite !pull_S; reflexivity.
    - apply Fresh. intros. rewrite !pull_S. cbn [pull_body]. unfold bind, ret. rewrite En. reflexivity.
    - apply Fresh. intros. rewrite !pull_S. cbn [pull_body]. unfold bind, ret. rewrite En. reflexivity.
    - apply Fresh. intros; rewrite !pull_S; reflexivity.
    - apply Fresh. intros; rewrite !pull_S; reflexivity.
    - apply Fresh. intros; rewrite !pull_S; reflexivity.
    - apply Fresh. intros; rewrite !pull_S; reflexivity.
    - (* pair *) destruct O as [O|[O _]]; [|discriminate]. destruct O' as [O'|[O' _]]; [|discriminate].
      inversion O as [ ? ? X| | | | | | | | | | | | ta' tb' a b Oa Ob | | | | | | | | | | | | | | |  ]; subst; [discriminate X|].
      inversion O' as [ ? ? X| | | | | | | | | | | | ta' tb' a' b' Oa' Ob' | | | | | | | | | | | | | | |  ]; subst; [discriminate X|].
      rewrite pull_S in E, E2. unfold pull_body in E, E2. cbn [length Nat.eqb nth_error] in E, E2. destruct K as [Ka Kb].
      unfold bind in E. destruct (pull G J f ta a ja st) as [x s1| | | |] eqn:E1; try discriminate. destruct (pull G J f tb b jb s1) as [y s3| | | |] eqn:E3; try discriminate. injection E as <- <-.
      unfold bind in E2. destruct (pull G J f2 ta a' ja st2) as [x' s1'| | | |] eqn:E1'; try discriminate. destruct (pull G J f2 tb b' jb s1') as [y' s3'| | | |] eqn:E3'; try discriminate. injection E2 as <- <-.
      f_equal; [eapply (IH ja (or_introl eq_refl) m ta Hm Ka Ca h h'); [left; exact Oa|left; exact Oa'|exact E1|exact E1']
               |eapply (IH jb (or_intror (or_introl eq_refl)) m tb Hm Kb Cb h h'); [left; exact Ob|left; exact Ob'|exact E3|exact E3']].
    - (* tuple *) destruct O as [O|[O _]]; [|discriminate]. destruct O' as [O'|[O' _]]; [|discriminate].
      inversion O as [ ? ? X| | | | | | | | | | | | | | | | | | | | | | ts' l Ll Ol | | | | |  ]; subst; [discriminate X|].
      inversion O' as [ ? ? X| | | | | | | | | | | | | | | | | | | | | | ts' l' Ll' Ol' | | | | |  ]; subst; [discriminate X|].
      rewrite pull_S in E, E2. unfold pull_body in E, E2. destruct ts as [|t0 ts]; [discriminate|].
      destruct (Nat.eqb_spec (length js) (length (t0 :: ts))) as [L2|L2]; [|exfalso; apply L2; symmetry; clear - F; induction F; cbn; congruence].
      unfold bind in E. destruct (pull_tuple _ _ _ js st) as [xs s1| | | |] eqn:E1; try discriminate. injection E as <- <-.
      unfold bind in E2. destruct (pull_tuple _ _ _ js st2) as [ys s3| | | |] eqn:E3; try discriminate. injection E2 as <- <-. f_equal.
      eapply (tuple_complete m f f2 h h' Hm (t0 :: ts) js F); [|exact K|exact Ll|exact Ll'|exact Ol|exact Ol'|exact E1|exact E3]. intros j Hj. apply IH. exact Hj.
    - (* variant *) apply Fresh. intros. rewrite !pull_S. unfold pull_body. rewrite E1, E3, E4.
      assert (Z.to_N z <? N.of_nat (length ts) = true)%N as ->. { apply N.ltb_lt. assert (Z.to_nat z < length ts) by (apply nth_error_Some; congruence). lia. }
      rewrite E5. destruct t'; reflexivity.
    - (* class *) destruct O as [O|[O _]]; [|discriminate]. destruct O' as [O'|[O' _]]; [|discriminate].
      inversion O as [ ? ? X| | | | | | | | | | | | | | | | | | | | | c' rc1 fs Ec1 Ef Of | | | | | |  ]; subst; [discriminate X|].
      inversion O' as [ ? ? X| | | | | | | | | | | | | | | | | | | | | c' rc2 fs' Ec2 Ef' Of' | | | | | |  ]; subst; [discriminate X|].
      rewrite Ec in Ec1, Ec2. injection Ec1 as <-. injection Ec2 as <-.
      destruct (HC m c K) as (rc0 & L0 & _ & HL0 & HF0 & _). rewrite (members_fun _ _ _ _ HL0 _ HL) in HF0.
      destruct (struct_updated G J c L ms _ _ _ _ _ HL E) as (os & -> & U1 & _ & U3). destruct (struct_updated G J c L ms _ _ _ _ _ HL E2) as (os' & -> & U1' & _ & U3'). f_equal.
      apply fields_ext; [congruence|rewrite U1, Ef; exact NR|]. intros k Hk. rewrite U1, Ef in Hk. apply Hi in Hk. apply in_map_iff in Hk. destruct Hk as (fd & <- & Hfd).
      destruct (HF fd Hfd) as (El & j & Ej & Cj).
      destruct (U3 NL fd j Hfd Ej) as (p & x & g1 & sa & sb & Ep & Ex & Pp & _). destruct (U3' NL fd j Hfd Ej) as (p' & x' & g2 & sa' & sb' & Ep' & Ex' & Pp' & _). rewrite Ex, Ex'. f_equal.
      eapply (IH j (lookup_child _ _ _ Ej) m (jf_ty fd) Hm (HF0 _ Hfd) Cj h h'); [left; eapply Of; eassumption|left; eapply Of'; eassumption|exact Pp|exact Pp'].
  Qed.
End Complete.
