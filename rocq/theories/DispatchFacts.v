(** DispatchFacts.v -- overload resolution for the types the model's types stand for. *)
From Coq Require Import List NArith ZArith Bool Lia.
From Verif Require Import Base Types BinModel BinSafeSpec JsonModel JsonSafeSpec DispatchModel DispatchSpec.
Import ListNotations.
Open Scope nat_scope.

Section Facts.
  Variable K : N -> kclass.
  Variable G : genv.
  Hypothesis SC : same_classes K G.

  Ltac facts :=
    unfold IsArray, IsIteratableExceptString, IsArrayOrSet, IsMapOrHash, IsMultiMapOrHash, IsSet, IsMultiSet, IsVariant,
      TreatAsMapOrHash, TreatAsMultiMapOrHash, TreatAsSet, TreatAsMultiSet, IsResizable, IsReservable, HasSize, IsIteratable,
      BinIsCustomType, BinIsBuiltInType, JsonIsBuiltInType, IsJsonSerializable, base_scalar, spec_any, spec_of,
      is_integral, is_floating_point, is_enum, is_pointer, is_bool, is_int, is_chars, is_string, is_string_view.
  Ltac use_class :=
    repeat match goal with
    | H : treated _ _ ?m |- _ => unfold treated in H; decompose [and] H; clear H
    | H : ordinary _ |- _ => unfold ordinary in H; decompose [and] H; clear H
    end;
    repeat match goal with H : _ = andb _ _ |- _ => cbn [andb orb negb] in H end;
    repeat match goal with H : ?f (K ?c) = ?b |- context[?f (K ?c)] => rewrite H end.
  Ltac kinds :=
    repeat match goal with
    | H : sequence ?tm = true |- _ => destruct tm; try discriminate H; clear H
    | H : set_kind ?tm = Some _ |- _ => destruct tm; try discriminate H; clear H
    | H : map_kind ?tm = Some _ |- _ => destruct tm; try discriminate H; clear H
    end.

  (** ** reading *)
  Lemma all_iff (P : ty -> Prop) ts :
    (fix all l := match l with [] => True | t :: l' => (t = TMono \/ P t) /\ all l' end) ts -> forall t, In t ts -> t = TMono \/ P t.
  Proof. induction ts as [| x ts IH]; [easy |]. intros [H1 H2] t [-> | Hin]; auto. Qed.
  Lemma all_tuple (P : ty -> Prop) ts :
    (fix all l := match l with [] => True | t :: l' => P t /\ all l' end) ts -> forall t, In t ts -> P t.
  Proof. induction ts as [| x ts IH]; [easy |]. intros [H1 H2] t [-> | Hin]; auto. Qed.

  Lemma denotes_mono X : denotes K X TMono -> X = CMono.
  Proof. inversion 1; reflexivity. Qed.
  Lemma Forall2_in {A B} (R : A -> B -> Prop) l m x : Forall2 R l m -> In x l -> exists y, In y m /\ R x y.
  Proof.
    induction 1 as [| a b l m H1 H2 IH]; [easy |]. intros [<- | Hin]; [exists b; split; [now left | exact H1] |].
    destruct (IH Hin) as [y [Hy R']]. exists y. split; [now right | exact R'].
  Qed.

  Lemma element_set tm ord multi a : set_kind tm = Some (ord, multi) -> element K (CSpec tm [a]) = Some a.
  Proof. destruct tm; try discriminate; reflexivity. Qed.

  Lemma resolve_read_ok X t : denotes K X t -> readable G t -> exists o, read_branch t = Some o /\ resolve_read K X = Some o.
  Proof.
    intros D R. destruct D; cbn in R; try contradiction; try (destruct multi); kinds; eexists; (split; [reflexivity |]);
      unfold resolve_read, select, count, read_overloads, read_fits, template_if;
      try reflexivity; try (destruct k; cbn in R; try discriminate R; reflexivity);
      facts; facts; use_class; reflexivity.
  Qed.

  Lemma resolve_write_ok X t : denotes K X t -> writable G t -> exists o, write_branch t = Some o /\ resolve_write K X = Some o.
  Proof.
    intros D R. destruct D; cbn in R; try contradiction; try (destruct multi); kinds; eexists; (split; [reflexivity |]);
      unfold resolve_write, select, count, write_overloads, write_fits, template_if;
      try reflexivity; try (destruct k; cbn in R; try discriminate R; reflexivity);
      facts; facts; use_class; reflexivity.
  Qed.

  Lemma resolve_read_version_ok X t : denotes K X t -> readable G t -> exists o, version_branch t = Some o /\ resolve_read_version K X = Some o.
  Proof.
    intros D R. destruct D; cbn in R; try contradiction; try (destruct multi); kinds; eexists; (split; [reflexivity |]);
      unfold resolve_read_version, select, count, read_overloads, read_version_fits, template_if;
      try reflexivity; try (destruct k; cbn in R; try discriminate R; reflexivity);
      try (destruct a; [ | destruct k | .. ]; reflexivity);
      facts; facts; use_class; reflexivity.
  Qed.

  Lemma resolve_write_version_ok X t : denotes K X t -> writable G t -> exists o, version_branch t = Some o /\ resolve_write_version K X = Some o.
  Proof.
    intros D R. destruct D; cbn in R; try contradiction; try (destruct multi); kinds; eexists; (split; [reflexivity |]);
      unfold resolve_write_version, select, count, write_overloads, write_version_fits, template_if;
      try reflexivity; try (destruct k; cbn in R; try discriminate R; reflexivity);
      try (destruct a; [ | destruct k | .. ]; reflexivity);
      facts; facts; use_class; reflexivity.
  Qed.

  (** the calls the bodies make are again for types which the model covers *)
  Definition all_read (P : cxx -> Prop) (l : list bcall) : Prop :=
    forall c, In c l -> exists a, (c = CallRead a \/ c = CallReadVersion a) /\ P a.
  Definition all_write (P : cxx -> Prop) (l : list bcall) : Prop :=
    forall c, In c l -> exists a, (c = CallWrite a \/ c = CallWriteVersion a) /\ P a.

  Lemma element_seq tm a : sequence tm = true -> ~ (tm = StdVector /\ a = CBool) -> element K (CSpec tm [a]) = Some a /\ const_element K (CSpec tm [a]) = Some a.
  Proof.
    intros S D. destruct tm; try discriminate S; try (split; reflexivity).
    destruct a; try (split; reflexivity). exfalso. apply D. split; reflexivity.
  Qed.

  Section Read.
  Hypothesis Rd : forall c rc p fd, g_class G c = Some rc -> rc_rd rc = Some p -> In fd (bp_fields p) -> readable G (bf_ty fd).

  Lemma read_inner_ok X t o : denotes K X t -> readable G t -> read_branch t = Some o ->
    exists l, read_inner K o X = Some l /\ all_read (fun a => exists t', denotes K a t' /\ readable G t') l.
  Proof.
    intros D R E. destruct D; cbn in R; try contradiction; cbn [read_branch] in E; injection E as <-; cbn [read_inner].
    all: try (eexists; split; [reflexivity |]; intros ? []; fail).
    - eexists. split; [reflexivity |]. intros x [<- | []]. eexists. split; [left; reflexivity |]. exists (TInt k). split; [constructor | exact R].
    - eexists. split; [reflexivity |]. intros x [<- | []]. eexists. split; [left; reflexivity |]. exists (TInt KU64). split; [constructor | reflexivity].
    - eexists. split; [reflexivity |]. intros x [<- | []]. eexists. split; [left; reflexivity |]. exists (TInt KI64). split; [constructor | reflexivity].
    - destruct (element_seq tm a H H0) as [-> _].
      eexists. split; [reflexivity |]. intros x [<- | []]. eexists. split; [left; reflexivity |]. exists t. split; assumption.
    - assert (E : has_emplace K (CSpec tm [a]) = true) by (destruct tm; try discriminate; reflexivity).
      rewrite E, (element_set tm _ _ a H).
      eexists. split; [reflexivity |]. intros x [<- | []]. eexists. split; [left; reflexivity |]. exists t. split; assumption.
    - assert (E : has_emplace K (CSpec tm [a; b]) = true) by (destruct tm; try discriminate; reflexivity).
      assert (E' : element K (CSpec tm [a; b]) = Some (CSpec StdPair [a; b])) by (destruct tm; try discriminate; reflexivity).
      rewrite E, E'. eexists. split; [reflexivity |]. intros x [<- | []]. eexists. split; [left; reflexivity |].
      exists (TPair kt vt). split; [constructor; assumption | exact R].
    - unfold has_emplace, element. destruct H as (_ & _ & -> & _). rewrite H0.
      eexists. split; [reflexivity |]. intros x [<- | []]. eexists. split; [left; reflexivity |]. exists t. split; assumption.
    - unfold has_emplace, element. destruct H as (_ & _ & -> & _). rewrite H0.
      eexists. split; [reflexivity |]. intros x [<- | []]. eexists. split; [left; reflexivity |].
      exists (TPair kt vt). split; [constructor; assumption | exact R].
    - eexists. split; [reflexivity |]. destruct R as [R1 R2].
      intros x [<- | [<- | []]]; eexists; (split; [left; reflexivity |]); eexists; split; eassumption.
    - eexists. split; [reflexivity |]. intros x [<- | []]. eexists. split; [left; reflexivity |]. eexists; split; eassumption.
    - eexists. split; [reflexivity |]. intros x [<- | []]. eexists. split; [left; reflexivity |]. eexists; split; eassumption.
    - eexists. split; [reflexivity |]. intros x [<- | []]. eexists. split; [left; reflexivity |]. eexists; split; eassumption.
    - eexists. split; [reflexivity |]. intros x Hx. apply in_map_iff in Hx as [a [<- Ha]]. apply filter_In in Ha as [Ha Hm].
      destruct (Forall2_in _ _ _ _ H Ha) as [t' [Ht Dt]]. eexists. split; [left; reflexivity |]. exists t'. split; [exact Dt |].
      destruct (all_iff _ _ (proj2 R) t' Ht) as [-> | ?]; [| assumption].
      apply denotes_mono in Dt as ->. discriminate Hm.
    - destruct R as (rc & p & Hc & Hp). destruct (sc_read K G SC c rc p Hc Hp) as (l & -> & F).
      eexists. split; [reflexivity |]. intros x Hx. apply in_map_iff in Hx as [a [<- Ha]].
      destruct (Forall2_in _ _ _ _ F Ha) as [t' [Ht Dt]]. apply in_map_iff in Ht as [fd [<- Hf]].
      eexists. split; [right; reflexivity |]. eexists. split; [exact Dt | eapply Rd; eassumption].
  Qed.

  Lemma read_reaches_from c c' : breaches K c c' -> (exists a, (c = CallRead a \/ c = CallReadVersion a) /\ exists t, denotes K a t /\ readable G t) ->
    exists a, (c' = CallRead a \/ c' = CallReadVersion a) /\ exists t, denotes K a t /\ readable G t.
  Proof.
    intros B. induction B as [c | c o l c' c'' E I Hin B IH]; [auto |].
    intros (a & Hc & t' & D & R). apply IH. clear IH B.
    destruct (read_branch t') as [o'|] eqn:Eb'; [| destruct t'; cbn in R; contradiction || discriminate].
    destruct (resolve_read_ok a t' D R) as (o1 & Eb1 & Er1). rewrite Eb' in Eb1. injection Eb1 as <-.
    destruct (read_inner_ok a t' o' D R Eb') as (l1 & El1 & Al1).
    destruct Hc as [-> | ->]; cbn in E, I.
    + rewrite Er1 in E. injection E as <-. rewrite El1 in I. injection I as <-. exact (Al1 _ Hin).
    + destruct (resolve_read_version_ok a t' D R) as (o2 & Eb2 & Er2). rewrite Er2 in E. injection E as <-.
      assert (o2 = BBuiltIn \/ o2 = o') as [-> | ->]
        by (destruct t'; try discriminate Eb2; injection Eb2 as <-; try discriminate Eb'; injection Eb' as <-; auto).
      * injection I as <-. destruct Hin as [<- | []]. exists a. split; [left; reflexivity |]. exists t'. split; assumption.
      * rewrite El1 in I. injection I as <-. exact (Al1 _ Hin).
  Qed.

  Lemma read_compiles X t : denotes K X t -> readable G t -> bcompiles K (CallRead X) /\ bcompiles K (CallReadVersion X).
  Proof.
    assert (A : forall c c', breaches K c c' -> (exists a, (c = CallRead a \/ c = CallReadVersion a) /\ exists t, denotes K a t /\ readable G t) ->
      exists o l, bresolve K c' = Some o /\ binner K o c' = Some l).
    { intros c c' B. induction B as [c | c o l c' c'' E I Hin B IH].
      - intros (a & [-> | ->] & t' & D & R).
        + destruct (resolve_read_ok a t' D R) as (o & Eb & Er). destruct (read_inner_ok a t' o D R Eb) as (l & El & _).
          exists o, l. split; assumption.
        + destruct (resolve_read_version_ok a t' D R) as (o & Eb & Er). exists o.
          destruct (read_branch t') as [o'|] eqn:Eb'; [| destruct t'; cbn in R; contradiction || discriminate].
          destruct (read_inner_ok a t' o' D R Eb') as (l & El & _).
          destruct t'; try discriminate Eb; injection Eb as <-; try discriminate Eb'; injection Eb' as <-;
            (eexists; split; [exact Er |]); try reflexivity; exact El.
      - intros (a & Hc & t' & D & R). apply IH. clear IH B.
        destruct (read_branch t') as [o'|] eqn:Eb'; [| destruct t'; cbn in R; contradiction || discriminate].
        destruct (resolve_read_ok a t' D R) as (o1 & Eb1 & Er1). rewrite Eb' in Eb1. injection Eb1 as <-.
        destruct (read_inner_ok a t' o' D R Eb') as (l1 & El1 & Al1).
        destruct Hc as [-> | ->]; cbn in E, I.
        + rewrite Er1 in E. injection E as <-. rewrite El1 in I. injection I as <-. exact (Al1 _ Hin).
        + destruct (resolve_read_version_ok a t' D R) as (o2 & Eb2 & Er2). rewrite Er2 in E. injection E as <-.
          assert (o2 = BBuiltIn \/ o2 = o') as [-> | ->]
            by (destruct t'; try discriminate Eb2; injection Eb2 as <-; try discriminate Eb'; injection Eb' as <-; auto).
          * injection I as <-. destruct Hin as [<- | []]. exists a. split; [left; reflexivity |]. exists t'. split; assumption.
          * rewrite El1 in I. injection I as <-. exact (Al1 _ Hin). }
    intros D R. split; intros c' B; (apply (A _ c' B)); exists X; (split; [auto |]); exists t; split; assumption.
  Qed.

  End Read.

  (** ** writing *)
  Section Write.
  Hypothesis Wr : forall c rc fd, g_class G c = Some rc -> In fd (bp_fields (rc_wr rc)) -> writable G (bf_ty fd).

  Lemma write_inner_ok X t o : denotes K X t -> writable G t -> write_branch t = Some o ->
    exists l, write_inner K o X = Some l /\ all_write (fun a => exists t', denotes K a t' /\ writable G t') l.
  Proof.
    intros D R E. destruct D; cbn in R; try contradiction; cbn [write_branch] in E; injection E as <-; cbn [write_inner].
    all: try (eexists; split; [reflexivity |]; intros ? []; fail).
    - eexists. split; [reflexivity |]. intros x [<- | []]. eexists. split; [left; reflexivity |]. exists (TInt k). split; [constructor | exact R].
    - eexists. split; [reflexivity |]. intros x [<- | []]. eexists. split; [left; reflexivity |]. exists (TInt KChar). split; [constructor | reflexivity].
    - eexists. split; [reflexivity |]. intros x [<- | []]. eexists. split; [left; reflexivity |]. exists (TInt KU64). split; [constructor | reflexivity].
    - eexists. split; [reflexivity |]. intros x [<- | []]. eexists. split; [left; reflexivity |]. exists (TInt KI64). split; [constructor | reflexivity].
    - destruct (element_seq tm a H H0) as [_ ->].
      eexists. split; [reflexivity |]. intros x [<- | []]. eexists. split; [left; reflexivity |]. exists t. split; assumption.
    - assert (E : const_element K (CSpec tm [a]) = Some a) by (destruct tm; try discriminate; reflexivity). rewrite E.
      eexists. split; [reflexivity |]. intros x [<- | []]. eexists. split; [left; reflexivity |]. exists t. split; assumption.
    - assert (E' : const_element K (CSpec tm [a; b]) = Some (CSpec StdPair [a; b])) by (destruct tm; try discriminate; reflexivity).
      rewrite E'. eexists. split; [reflexivity |]. intros x [<- | []]. eexists. split; [left; reflexivity |].
      exists (TPair kt vt). split; [constructor; assumption | exact R].
    - unfold const_element, element. rewrite H0.
      eexists. split; [reflexivity |]. intros x [<- | []]. eexists. split; [left; reflexivity |]. exists t. split; assumption.
    - unfold const_element, element. rewrite H0.
      eexists. split; [reflexivity |]. intros x [<- | []]. eexists. split; [left; reflexivity |].
      exists (TPair kt vt). split; [constructor; assumption | exact R].
    - eexists. split; [reflexivity |]. destruct R as [R1 R2].
      intros x [<- | [<- | []]]; eexists; (split; [left; reflexivity |]); eexists; split; eassumption.
    - eexists. split; [reflexivity |]. intros x [<- | []]. eexists. split; [left; reflexivity |]. eexists; split; eassumption.
    - eexists. split; [reflexivity |]. intros x [<- | []]. eexists. split; [left; reflexivity |]. eexists; split; eassumption.
    - eexists. split; [reflexivity |]. intros x [<- | []]. eexists. split; [left; reflexivity |]. eexists; split; eassumption.
    - eexists. split; [reflexivity |]. intros x Hx. apply in_map_iff in Hx as [a [<- Ha]]. apply filter_In in Ha as [Ha Hm].
      destruct (Forall2_in _ _ _ _ H Ha) as [t' [Ht Dt]]. eexists. split; [left; reflexivity |]. exists t'. split; [exact Dt |].
      destruct (all_iff _ _ (proj2 R) t' Ht) as [-> | ?]; [| assumption].
      apply denotes_mono in Dt as ->. discriminate Hm.
    - destruct R as (rc & Hc). destruct (sc_written K G SC c rc Hc) as (l & -> & F).
      eexists. split; [reflexivity |]. intros x Hx. apply in_map_iff in Hx as [a [<- Ha]].
      destruct (Forall2_in _ _ _ _ F Ha) as [t' [Ht Dt]]. apply in_map_iff in Ht as [fd [<- Hf]].
      eexists. split; [right; reflexivity |]. eexists. split; [exact Dt | eapply Wr; eassumption].
  Qed.

  Lemma write_reaches_from c c' : breaches K c c' -> (exists a, (c = CallWrite a \/ c = CallWriteVersion a) /\ exists t, denotes K a t /\ writable G t) ->
    exists a, (c' = CallWrite a \/ c' = CallWriteVersion a) /\ exists t, denotes K a t /\ writable G t.
  Proof.
    intros B. induction B as [c | c o l c' c'' E I Hin B IH]; [auto |].
    intros (a & Hc & t' & D & R). apply IH. clear IH B.
    destruct (write_branch t') as [o'|] eqn:Eb'; [| destruct t'; cbn in R; contradiction || discriminate].
    destruct (resolve_write_ok a t' D R) as (o1 & Eb1 & Er1). rewrite Eb' in Eb1. injection Eb1 as <-.
    destruct (write_inner_ok a t' o' D R Eb') as (l1 & El1 & Al1).
    destruct Hc as [-> | ->]; cbn in E, I.
    + rewrite Er1 in E. injection E as <-. rewrite El1 in I. injection I as <-. exact (Al1 _ Hin).
    + destruct (resolve_write_version_ok a t' D R) as (o2 & Eb2 & Er2). rewrite Er2 in E. injection E as <-.
      assert (o2 = BBuiltIn \/ o2 = o') as [-> | ->]
        by (destruct t'; try discriminate Eb2; injection Eb2 as <-; try discriminate Eb'; injection Eb' as <-; auto).
      * injection I as <-. destruct Hin as [<- | []]. exists a. split; [left; reflexivity |]. exists t'. split; assumption.
      * rewrite El1 in I. injection I as <-. exact (Al1 _ Hin).
  Qed.

  Lemma write_compiles X t : denotes K X t -> writable G t -> bcompiles K (CallWrite X) /\ bcompiles K (CallWriteVersion X).
  Proof.
    assert (A : forall c c', breaches K c c' -> (exists a, (c = CallWrite a \/ c = CallWriteVersion a) /\ exists t, denotes K a t /\ writable G t) ->
      exists o l, bresolve K c' = Some o /\ binner K o c' = Some l).
    { intros c c' B. induction B as [c | c o l c' c'' E I Hin B IH].
      - intros (a & [-> | ->] & t' & D & R).
        + destruct (resolve_write_ok a t' D R) as (o & Eb & Er). destruct (write_inner_ok a t' o D R Eb) as (l & El & _).
          exists o, l. split; assumption.
        + destruct (resolve_write_version_ok a t' D R) as (o & Eb & Er). exists o.
          destruct (write_branch t') as [o'|] eqn:Eb'; [| destruct t'; cbn in R; contradiction || discriminate].
          destruct (write_inner_ok a t' o' D R Eb') as (l & El & _).
          destruct t'; try discriminate Eb; injection Eb as <-; try discriminate Eb'; injection Eb' as <-;
            (eexists; split; [exact Er |]); try reflexivity; exact El.
      - intros (a & Hc & t' & D & R). apply IH. clear IH B.
        destruct (write_branch t') as [o'|] eqn:Eb'; [| destruct t'; cbn in R; contradiction || discriminate].
        destruct (resolve_write_ok a t' D R) as (o1 & Eb1 & Er1). rewrite Eb' in Eb1. injection Eb1 as <-.
        destruct (write_inner_ok a t' o' D R Eb') as (l1 & El1 & Al1).
        destruct Hc as [-> | ->]; cbn in E, I.
        + rewrite Er1 in E. injection E as <-. rewrite El1 in I. injection I as <-. exact (Al1 _ Hin).
        + destruct (resolve_write_version_ok a t' D R) as (o2 & Eb2 & Er2). rewrite Er2 in E. injection E as <-.
          assert (o2 = BBuiltIn \/ o2 = o') as [-> | ->]
            by (destruct t'; try discriminate Eb2; injection Eb2 as <-; try discriminate Eb'; injection Eb' as <-; auto).
          * injection I as <-. destruct Hin as [<- | []]. exists a. split; [left; reflexivity |]. exists t'. split; assumption.
          * rewrite El1 in I. injection I as <-. exact (Al1 _ Hin). }
    intros D R. split; intros c' B; (apply (A _ c' B)); exists X; (split; [auto |]); exists t; split; assumption.
  Qed.

  End Write.

  (** ** JSON *)
  Lemma count_ext {O} (f g : O -> option fit) x l : (forall o, In o l -> f o = g o) -> count f x l = count g x l.
  Proof.
    intros E. unfold count. apply filter_ext_in. intros o Ho. now rewrite (E o Ho).
  Qed.
  Lemma select_ext {O} (f g : O -> option fit) l : (forall o, In o l -> f o = g o) -> select f l = select g l.
  Proof.
    intros E. unfold select. now rewrite (count_ext f g ExactFunction l E), (count_ext f g ExactTemplate l E), (count_ext f g Conversion l E).
  Qed.
  Definition candidates (c : jcall) : list jov := if is_push c then push_overloads else pull_overloads.
  (** the position of the call does not matter if all overloads the condition of which holds are declared before *)
  Lemma jresolve_lines c : (forall o, In o (candidates c) -> jcond K c o = true -> declared o < call_line c) ->
    jresolve K c = select (fun o => template_if (jcond K c o)) (candidates c).
  Proof.
    intros E. unfold jresolve. apply select_ext. intros o Ho. unfold jfits.
    destruct (jcond K c o) eqn:Ec; [| reflexivity]. specialize (E o Ho Ec). apply Nat.ltb_lt in E. now rewrite E.
  Qed.

  Definition pull_ok (t : ty) : Prop := pullable G (fun _ => True) false t.

  (** where a call of push for a value may be *)
  Definition push_line (line : nat) (t : ty) : Prop := 338 < line \/ (324 < line /\ is_variant t = false).

  Lemma push_declared line X t : denotes K X t -> push_line line t ->
    forall o, In o push_overloads -> jcond K (Push line X) o = true -> declared o < line.
  Proof.
    intros D L o Ho C.
    assert (B : declared o <= 338 /\ (declared o <= 324 \/ o = PushVariant)).
    { unfold push_overloads in Ho. cbn [In] in Ho.
      repeat match goal with H : _ \/ _ |- _ => destruct H as [<- | H] end; try (split; [vm_compute; lia | first [left; vm_compute; lia | right; reflexivity]]). }
    destruct B as [B1 B2]. destruct L as [L | [L V]]; [lia |]. destruct B2 as [B2 | ->]; [lia |].
    exfalso. destruct D; try discriminate V; try discriminate C; kinds; discriminate C.
  Qed.

  Lemma push_ok_resolves line X t : denotes K X t -> pushable G t -> push_line line t ->
    exists o, push_branch t = Some o /\ jresolve K (Push line X) = Some o.
  Proof.
    intros D R L. rewrite (jresolve_lines (Push line X) (push_declared line X t D L)). clear L.
    unfold candidates, is_push, select, count, push_overloads, jcond, template_if.
    destruct D; cbn in R; try contradiction; try (destruct multi); kinds; eexists; (split; [reflexivity |]);
      try reflexivity; try (destruct k; cbn in R; intuition discriminate || reflexivity; fail);
      facts; facts; use_class; reflexivity.
  Qed.

  Definition pull_line (line : nat) (X : cxx) : Prop := 614 < line \/ (531 < line /\ X = CInt KI32).
  Lemma pull_declared line X : pull_line line X ->
    forall o, In o pull_overloads -> jcond K (Pull line X) o = true -> declared o < line.
  Proof.
    intros L o Ho C. unfold pull_overloads in Ho. cbn [In] in Ho.
    destruct L as [L | [L ->]].
    - assert (B : declared o <= 614); [| lia].
      repeat match goal with H : _ \/ _ |- _ => destruct H as [<- | H] end; try (vm_compute; lia).
    - repeat match goal with H : _ \/ _ |- _ => destruct H as [<- | H] end; try discriminate C; try (cbn; lia); try contradiction.
  Qed.

  Lemma pull_ok_resolves line X t : denotes K X t -> pull_ok t -> pull_line line X ->
    exists o, In o (pull_branch t) /\ jresolve K (Pull line X) = Some o.
  Proof.
    intros D R L. rewrite (jresolve_lines (Pull line X) (pull_declared line X L)). clear L.
    unfold candidates, is_push, select, count, pull_overloads, jcond, template_if.
    destruct D; cbn in R; try contradiction; try (destruct multi); kinds;
      try (eexists; (split; [left; reflexivity |]); reflexivity);
      try (eexists; (split; [right; left; reflexivity |]); reflexivity);
      try (destruct k; cbn in R; try (exfalso; intuition discriminate); eexists; (split; [left; reflexivity |]); reflexivity);
      facts; facts; use_class; try (eexists; (split; [left; reflexivity |]); reflexivity).
    all: destruct (k_reserve (K c)); first [eexists; (split; [left; reflexivity |]); reflexivity | eexists; (split; [right; left; reflexivity |]); reflexivity].
  Qed.

  Lemma pull_array_resolves line X t o : denotes K X t -> array_branch t = Some o -> 455 < line ->
    jresolve K (PullFromArray line X) = Some o.
  Proof.
    intros D A L. rewrite jresolve_lines.
    2:{ intros o' Ho C. unfold candidates, is_push, pull_overloads in Ho. cbn [In] in Ho. cbn [call_line].
        repeat match goal with H : _ \/ _ |- _ => destruct H as [<- | H] end; try discriminate C; try (cbn; lia); try contradiction. }
    unfold candidates, is_push, select, count, pull_overloads, jcond, template_if.
    destruct D; try discriminate A; try (destruct multi; cbn in A; try discriminate A); cbn in A; injection A as <-; kinds;
      try reflexivity; facts; facts; use_class; reflexivity.
  Qed.

  Lemma push_array_resolves line X : 113 < line ->
    jresolve K (PushToArray line X) = Some (if IsJsonSerializable K X then PushArrayObject else PushArrayOther).
  Proof.
    intros L. rewrite jresolve_lines.
    2:{ intros o' Ho C. unfold candidates, is_push, push_overloads in Ho. cbn [In] in Ho. cbn [call_line].
        repeat match goal with H : _ \/ _ |- _ => destruct H as [<- | H] end; try discriminate C; try (cbn; lia); try contradiction. }
    unfold candidates, is_push, select, count, push_overloads, jcond, template_if. destruct (IsJsonSerializable K X); reflexivity.
  Qed.
  Lemma push_member_resolves line X : 126 < line ->
    jresolve K (PushAsMember line X) = Some (if IsJsonSerializable K X then PushMemberObject else PushMemberOther).
  Proof.
    intros L. rewrite jresolve_lines.
    2:{ intros o' Ho C. unfold candidates, is_push, push_overloads in Ho. cbn [In] in Ho. cbn [call_line].
        repeat match goal with H : _ \/ _ |- _ => destruct H as [<- | H] end; try discriminate C; try (cbn; lia); try contradiction. }
    unfold candidates, is_push, select, count, push_overloads, jcond, template_if. destruct (IsJsonSerializable K X); reflexivity.
  Qed.
  Lemma push_object_resolves line c : ordinary (K c) -> 134 < line -> jresolve K (PushToObject line (CClass c)) = Some PushObject.
  Proof.
    intros O L. rewrite jresolve_lines.
    2:{ intros o' Ho C. unfold candidates, is_push, push_overloads in Ho. cbn [In] in Ho. cbn [call_line].
        repeat match goal with H : _ \/ _ |- _ => destruct H as [<- | H] end; try discriminate C; try (cbn; lia); try contradiction. }
    unfold candidates, is_push, select, count, push_overloads, jcond, template_if. facts. facts. use_class. reflexivity.
  Qed.
  Lemma pull_object_resolves line c : ordinary (K c) -> 418 < line -> jresolve K (PullFromObject line (CClass c)) = Some PullObject.
  Proof.
    intros O L. rewrite jresolve_lines.
    2:{ intros o' Ho C. unfold candidates, is_push, pull_overloads in Ho. cbn [In] in Ho. cbn [call_line].
        repeat match goal with H : _ \/ _ |- _ => destruct H as [<- | H] end; try discriminate C; try (cbn; lia); try contradiction. }
    unfold candidates, is_push, select, count, pull_overloads, jcond, template_if. facts. facts. use_class. reflexivity.
  Qed.
  Lemma pull_member_resolves line X : 518 < line -> jresolve K (PullAsMember line X) = Some PullMember.
  Proof.
    intros L. rewrite jresolve_lines.
    2:{ intros o' Ho C. unfold candidates, is_push, pull_overloads in Ho. cbn [In] in Ho. cbn [call_line].
        repeat match goal with H : _ \/ _ |- _ => destruct H as [<- | H] end; try discriminate C; try (cbn; lia); try contradiction. }
    reflexivity.
  Qed.

  (** the calls which compile *)
  Definition good_call (c : jcall) : Prop :=
    match c with
    | Push line X => exists t, denotes K X t /\ pushable G t /\ push_line line t
    | PushToArray line X => exists t, denotes K X t /\ pushable G t /\ 113 < line
    | PushAsMember line X => exists t, denotes K X t /\ pushable G t /\ 126 < line
    | PushToObject line X => exists c rc, X = CClass c /\ ordinary (K c) /\ g_class G c = Some rc /\ 134 < line
    | Pull line X => exists t, denotes K X t /\ pull_ok t /\ pull_line line X
    | PullFromArray line X => exists t o, denotes K X t /\ pull_ok t /\ array_branch t = Some o /\ 455 < line
    | PullAsMember line X => exists t, denotes K X t /\ pull_ok t /\ 518 < line
    | PullFromObject line X => exists c rc p, X = CClass c /\ ordinary (K c) /\ g_class G c = Some rc /\ rc_pull rc = Some p /\ 418 < line
    end.


  Lemma serializable_class X t : denotes K X t -> IsJsonSerializable K X = true -> exists c, X = CClass c /\ ordinary (K c) /\ t = TStruct c.
  Proof.
    intros D S. destruct D; try discriminate S.
    - cbn in S. destruct H as (_ & _ & _ & E & _). congruence.
    - cbn in S. destruct H as (_ & _ & _ & E & _). congruence.
    - exists c. auto.
  Qed.

  Definition calls_good (l : list jcall) : Prop := forall c, In c l -> good_call c.
  Lemma good_one c : good_call c -> calls_good [c].
  Proof. intros H x [<- | []]. exact H. Qed.
  Lemma good_two c d : good_call c -> good_call d -> calls_good [c; d].
  Proof. intros H H' x [<- | [<- | []]]; assumption. Qed.
  Lemma good_none : calls_good [].
  Proof. intros x []. Qed.

  Lemma set_elements tm ord multi a : set_kind tm = Some (ord, multi) ->
    element K (CSpec tm [a]) = Some a /\ const_element K (CSpec tm [a]) = Some a /\ has_emplace K (CSpec tm [a]) = true.
  Proof. destruct tm; try discriminate; intros _; repeat split; reflexivity. Qed.
  Lemma map_element tm ord multi a b : map_kind tm = Some (ord, multi) -> element K (CSpec tm [a; b]) = Some (CSpec StdPair [a; b]).
  Proof. destruct tm; try discriminate; reflexivity. Qed.
  Lemma denotes_string X : denotes K X TString -> X = std_string.
  Proof. inversion 1; reflexivity. Qed.

  Lemma push_step line X t o : denotes K X t -> pushable G t -> push_branch t = Some o ->
    exists l, jinner K o (call_type (Push line X)) = Some l /\ calls_good l.
  Proof.
    intros D R E. cbn [call_type].
    destruct D; cbn in R; try contradiction; cbn [push_branch] in E; try (destruct multi); injection E as <-; cbn [jinner rapidjson_number];
      try (eexists; split; [reflexivity |]; exact good_none).
    - destruct k; cbn in R; try (exfalso; intuition discriminate); (eexists; split; [reflexivity |]; exact good_none).
    - destruct (element_seq tm a H H0) as [_ ->]. eexists. split; [reflexivity |]. apply good_one. exists t. repeat split; try assumption; lia.
    - destruct (set_elements _ _ _ a H) as (_ & -> & _). eexists. split; [reflexivity |]. apply good_one. exists t. repeat split; try assumption; lia.
    - destruct (set_elements _ _ _ a H) as (_ & -> & _). eexists. split; [reflexivity |]. apply good_one. exists t. repeat split; try assumption; lia.
    - destruct R as [-> R]. apply denotes_string in D1 as ->. unfold string_map. rewrite (map_element _ _ _ _ _ H). cbn [is_string std_string].
      eexists. split; [reflexivity |]. apply good_one. exists vt. repeat split; try assumption; lia.
    - destruct R as [-> R]. apply denotes_string in D1 as ->. unfold string_map. rewrite (map_element _ _ _ _ _ H). cbn [is_string std_string].
      eexists. split; [reflexivity |]. apply good_one. exists vt. repeat split; try assumption; lia.
    - unfold const_element, element. rewrite H0. eexists. split; [reflexivity |]. apply good_one. exists t. repeat split; try assumption; lia.
    - unfold const_element, element. rewrite H0. eexists. split; [reflexivity |]. apply good_one. exists t. repeat split; try assumption; lia.
    - destruct R as [-> R]. apply denotes_string in D1 as ->. unfold string_map, element. rewrite H0. cbn [is_string std_string].
      eexists. split; [reflexivity |]. apply good_one. exists vt. repeat split; try assumption; lia.
    - destruct R as [-> R]. apply denotes_string in D1 as ->. unfold string_map, element. rewrite H0. cbn [is_string std_string].
      eexists. split; [reflexivity |]. apply good_one. exists vt. repeat split; try assumption; lia.
    - destruct R as [R1 R2]. eexists. split; [reflexivity |]. apply good_two; eexists; (split; [eassumption |]); (split; [assumption | lia]).
    - destruct R as [R1 R2]. destruct l as [| x l]; [inversion H; subst; contradiction |].
      eexists. split; [reflexivity |]. intros y Hy. change (In y (map (PushToArray 284) (x :: l))) in Hy.
      apply in_map_iff in Hy as [a [<- Ha]].
      destruct (Forall2_in _ _ _ _ H Ha) as [t' [Ht Dt]]. exists t'. split; [exact Dt |]. split; [| lia]. exact (all_tuple _ _ R2 t' Ht).
    - destruct R as [R1 R2]. eexists. split; [reflexivity |]. apply good_one. exists t. split; [assumption |]. split; [assumption |]. right. split; [lia | assumption].
    - destruct R as [R1 R2]. eexists. split; [reflexivity |]. apply good_one. exists t. split; [assumption |]. split; [assumption |]. right. split; [lia | assumption].
    - destruct R as [R1 R2]. eexists. split; [reflexivity |]. apply good_one. exists t. split; [assumption |]. split; [assumption |]. right. split; [lia | assumption].
    - eexists. split; [reflexivity |]. intros x Hx. apply in_map_iff in Hx as [a [<- Ha]]. apply filter_In in Ha as [Ha Hm].
      destruct (Forall2_in _ _ _ _ H Ha) as [t' [Ht Dt]]. exists t'. split; [exact Dt |]. split; [| left; lia].
      destruct (all_iff _ _ (proj2 R) t' Ht) as [-> | ?]; [| assumption].
      apply denotes_mono in Dt as ->. discriminate Hm.
    - eexists. split; [reflexivity |]. destruct R as [rc Hc]. apply good_one. exists c, rc. repeat split; try apply H; try assumption; lia.
  Qed.

  Lemma pull_step line X t o : denotes K X t -> pull_ok t -> In o (pull_branch t) ->
    exists l, jinner K o (call_type (Pull line X)) = Some l /\ calls_good l.
  Proof.
    intros D R E. cbn [call_type]. unfold pull_ok in R.
    assert (D0 := D).
    destruct D; cbn in R; try contradiction; try (destruct multi); cbn [pull_branch In] in E;
      repeat match goal with H : _ \/ _ |- _ => destruct H as [<- | H] | H : False |- _ => destruct H end; cbn [jinner rapidjson_number];
      try (eexists; split; [reflexivity |]; exact good_none).
    - destruct k; cbn in R; try (exfalso; intuition discriminate); cbn [byte_kind jinner];
        (eexists; split; [reflexivity |]);
        first [exact good_none | apply good_one; exists (TInt KI32); repeat split; [constructor | right; split; [lia | reflexivity]]].
    - eexists. split; [reflexivity |]. apply good_one. exists TString. repeat split; [constructor | left; unfold user; lia].
    - eexists. split; [reflexivity |]. apply good_one. exists TString. repeat split; [constructor | left; unfold user; lia].
    - eexists. split; [reflexivity |]. apply good_one. eexists. eexists. split; [exact D0 |]. split; [exact R |]. split; [reflexivity | lia].
    - eexists. split; [reflexivity |]. apply good_one. eexists. eexists. split; [exact D0 |]. split; [exact R |]. split; [reflexivity | lia].
    - eexists. split; [reflexivity |]. apply good_one. eexists. eexists. split; [exact D0 |]. split; [exact R |]. split; [reflexivity | lia].
    - eexists. split; [reflexivity |]. apply good_one. eexists. eexists. split; [exact D0 |]. split; [exact R |]. split; [reflexivity | lia].
    - eexists. split; [reflexivity |]. apply good_one. eexists. eexists. split; [exact D0 |]. split; [exact R |]. split; [reflexivity | lia].
    - eexists. split; [reflexivity |]. apply good_one. eexists. eexists. split; [exact D0 |]. split; [exact R |]. split; [reflexivity | lia].
    - destruct R as [-> R]. apply denotes_string in D1 as ->. unfold string_map. rewrite (map_element _ _ _ _ _ H). cbn [is_string std_string].
      eexists. split; [reflexivity |]. apply good_two; exists vt; (split; [assumption |]); (split; [exact R | left; lia]).
    - destruct R as [-> R]. apply denotes_string in D1 as ->. unfold string_map. rewrite (map_element _ _ _ _ _ H). cbn [is_string std_string].
      eexists. split; [reflexivity |]. apply good_one; exists vt; (split; [assumption |]); (split; [exact R | left; lia]).
    - eexists. split; [reflexivity |]. apply good_one. eexists. eexists. split; [exact D0 |]. split; [exact R |]. split; [reflexivity | lia].
    - eexists. split; [reflexivity |]. apply good_one. eexists. eexists. split; [exact D0 |]. split; [exact R |]. split; [reflexivity | lia].
    - eexists. split; [reflexivity |]. apply good_one. eexists. eexists. split; [exact D0 |]. split; [exact R |]. split; [reflexivity | lia].
    - eexists. split; [reflexivity |]. apply good_one. eexists. eexists. split; [exact D0 |]. split; [exact R |]. split; [reflexivity | lia].
    - destruct R as [-> R]. apply denotes_string in D1 as ->. unfold string_map, element. rewrite H0. cbn [is_string std_string].
      eexists. split; [reflexivity |]. apply good_two; exists vt; (split; [assumption |]); (split; [exact R | left; lia]).
    - destruct R as [-> R]. apply denotes_string in D1 as ->. unfold string_map, element. rewrite H0. cbn [is_string std_string].
      eexists. split; [reflexivity |]. apply good_one; exists vt; (split; [assumption |]); (split; [exact R | left; lia]).
    - destruct R as [R1 R2]. eexists. split; [reflexivity |]. apply good_two; eexists; (split; [eassumption |]); (split; [assumption | left; lia]).
    - destruct R as [R1 R2]. destruct l as [| x l]; [inversion H; subst; contradiction |].
      eexists. split; [reflexivity |]. intros y Hy. change (In y (map (Pull 798) (x :: l))) in Hy.
      apply in_map_iff in Hy as [a [<- Ha]].
      destruct (Forall2_in _ _ _ _ H Ha) as [t' [Ht Dt]]. exists t'. split; [exact Dt |]. split; [| left; lia]. exact (all_tuple _ _ R2 t' Ht).
    - eexists. split; [reflexivity |]. apply good_one. exists t. split; [assumption |]. split; [exact R |]. left. lia.
    - eexists. split; [reflexivity |]. apply good_one. exists t. split; [assumption |]. split; [exact R |]. left. lia.
    - eexists. split; [reflexivity |]. apply good_one. exists t. split; [assumption |]. split; [exact R |]. left. lia.
    - eexists. split; [reflexivity |]. intros x Hx. apply in_map_iff in Hx as [a [<- Ha]]. apply filter_In in Ha as [Ha Hm].
      destruct (Forall2_in _ _ _ _ H Ha) as [t' [Ht Dt]]. exists t'. split; [exact Dt |]. split; [| left; lia].
      destruct (all_iff _ _ (proj2 R) t' Ht) as [-> | ?]; [| assumption].
      apply denotes_mono in Dt as ->. discriminate Hm.
    - eexists. split; [reflexivity |]. destruct R as (rc & p & Hc & Hp). apply good_one. exists c, rc, p.
      split; [reflexivity |]. split; [exact H |]. split; [exact Hc |]. split; [exact Hp | lia].
  Qed.

  Lemma pull_array_step line X t o : denotes K X t -> pull_ok t -> array_branch t = Some o ->
    exists l, jinner K o (call_type (PullFromArray line X)) = Some l /\ calls_good l.
  Proof.
    intros D R E. cbn [call_type]. unfold pull_ok in R.
    destruct D; cbn in R; try contradiction; try discriminate E; try (destruct multi); try discriminate E; cbn [array_branch] in E; injection E as <-; cbn [jinner].
    - assert (B : has_emplace_back K (CSpec tm [a]) = true) by (destruct tm; try discriminate; reflexivity). rewrite B.
      destruct (element_seq tm a H H0) as [-> _]. eexists. split; [reflexivity |]. apply good_one. exists t. split; [assumption |]. split; [exact R | left; lia].
    - destruct (set_elements _ _ _ a H) as (-> & _ & ->). eexists. split; [reflexivity |]. apply good_one. exists t. split; [assumption |]. split; [apply R | left; lia].
    - destruct (set_elements _ _ _ a H) as (-> & _ & ->). eexists. split; [reflexivity |]. apply good_one. exists t. split; [assumption |]. split; [apply R | left; lia].
    - unfold has_emplace, element. destruct H as (_ & _ & -> & _). rewrite H0. eexists. split; [reflexivity |]. apply good_one. exists t. split; [assumption |]. split; [apply R | left; lia].
    - unfold has_emplace, element. destruct H as (_ & _ & -> & _). rewrite H0. eexists. split; [reflexivity |]. apply good_one. exists t. split; [assumption |]. split; [apply R | left; lia].
  Qed.

  Lemma inner_direction c o l c' : jresolve K c = Some o -> jinner K o (call_type c) = Some l -> In c' l -> is_push c' = is_push c.
  Proof.
    intros E I Hin.
    assert (A : In o (candidates c)).
    { unfold jresolve, select in E. fold (candidates c) in E.
      assert (S : forall f, forall x, In x (count (jfits K c) f (candidates c)) -> In x (candidates c)) by (intros f x Hx; apply filter_In in Hx; tauto).
      destruct (count (jfits K c) ExactFunction (candidates c)) as [| a [| b r]] eqn:E1.
      - destruct (count (jfits K c) ExactTemplate (candidates c)) as [| a [| b r]] eqn:E2.
        + destruct (count (jfits K c) Conversion (candidates c)) as [| a [| b r]] eqn:E3; try discriminate E. injection E as <-.
          apply (S Conversion). rewrite E3. now left.
        + injection E as <-. apply (S ExactTemplate). rewrite E2. now left.
        + discriminate E.
      - injection E as <-. apply (S ExactFunction). rewrite E1. now left.
      - discriminate E. }
    clear E. generalize dependent I. generalize (call_type c). intros X I. unfold candidates in A.
    destruct (is_push c); unfold push_overloads, pull_overloads in A; cbn [In] in A;
      repeat match goal with H : _ \/ _ |- _ => destruct H as [<- | H] end; try contradiction; cbn [jinner] in I;
      repeat match goal with
      | H : (if ?b then _ else _) = Some _ |- _ => destruct b
      | H : match ?x with _ => _ end = Some _ |- _ => destruct x
      end; try discriminate I; try (injection I as <-; repeat (destruct Hin as [<- | Hin]; [reflexivity |]); try contradiction).
    all: try (apply in_map_iff in Hin as [a [<- _]]; reflexivity).
    all: unfold option_map in I; match type of I with match ?x with _ => _ end = _ => destruct x; try discriminate I end;
      injection I as <-; apply in_map_iff in Hin as [a [<- _]]; reflexivity.
  Qed.

  Section PushCalls.
  Hypothesis Pu : forall c rc fd, g_class G c = Some rc -> In fd (jp_fields (rc_push rc)) -> pushable G (jf_ty fd).
  Lemma json_step_push c : is_push c = true -> good_call c -> exists o l, jresolve K c = Some o /\ jinner K o (call_type c) = Some l /\ calls_good l.
  Proof.
    intros P GC. destruct c as [line X | line X | line X | line X | line X | line X | line X | line X]; try discriminate P; cbn [good_call] in GC.
    - destruct GC as (t & D & R & L). destruct (push_ok_resolves line X t D R L) as (o & Eb & Er).
      destruct (push_step line X t o D R Eb) as (l & El & Gl). exists o, l. auto.
    - destruct GC as (t & D & R & L). rewrite (push_array_resolves line X L).
      destruct (IsJsonSerializable K X) eqn:Es; (eexists; eexists; split; [reflexivity |]; split; [reflexivity |]); apply good_one.
      + destruct (serializable_class X t D Es) as (c & -> & O & ->). destruct R as [rc Hc]. exists c, rc.
        split; [reflexivity |]. split; [exact O |]. split; [exact Hc | lia].
      + exists t. split; [exact D |]. split; [exact R | left; lia].
    - destruct GC as (t & D & R & L). rewrite (push_member_resolves line X L).
      destruct (IsJsonSerializable K X) eqn:Es; (eexists; eexists; split; [reflexivity |]; split; [reflexivity |]); apply good_one.
      + destruct (serializable_class X t D Es) as (c & -> & O & ->). destruct R as [rc Hc]. exists c, rc.
        split; [reflexivity |]. split; [exact O |]. split; [exact Hc | lia].
      + exists t. split; [exact D |]. split; [exact R | left; lia].
    - destruct GC as (c & rc & -> & O & Hc & L). rewrite (push_object_resolves line c O L).
      destruct (sc_pushed K G SC c rc Hc) as (l & E & F). eexists; eexists. split; [reflexivity |].
      cbn [jinner call_type]. rewrite E. split; [reflexivity |]. intros x Hx. apply in_map_iff in Hx as [a [<- Ha]].
      destruct (Forall2_in _ _ _ _ F Ha) as [t' [Ht Dt]]. apply in_map_iff in Ht as [fd [<- Hf]].
      eexists. split; [exact Dt |]. split; [eapply Pu; eassumption | unfold user; lia].
  Qed.
  Lemma push_reaches c c' : is_push c = true -> good_call c -> jreaches K c c' -> is_push c' = true /\ good_call c'.
  Proof.
    intros P GC B. induction B as [c | c o l c' c'' E I Hin B IH]; [auto |].
    destruct (json_step_push c P GC) as (o1 & l1 & E1 & I1 & G1). apply IH.
    - rewrite (inner_direction _ _ _ _ E I Hin). exact P.
    - rewrite E in E1. injection E1 as <-. rewrite I in I1. injection I1 as <-. exact (G1 _ Hin).
  Qed.
  Lemma json_compiles_push c : is_push c = true -> good_call c -> jcompiles K c.
  Proof.
    intros P GC c' B. destruct (push_reaches c c' P GC B) as [P' GC'].
    destruct (json_step_push c' P' GC') as (o & l & E & I & _). exists o, l. auto.
  Qed.

  End PushCalls.
  Section PullCalls.
  Hypothesis Pl : forall c rc p fd, g_class G c = Some rc -> rc_pull rc = Some p -> In fd (jp_fields p) -> pull_ok (jf_ty fd).
  Lemma json_step_pull c : is_push c = false -> good_call c -> exists o l, jresolve K c = Some o /\ jinner K o (call_type c) = Some l /\ calls_good l.
  Proof.
    intros P GC. destruct c as [line X | line X | line X | line X | line X | line X | line X | line X]; try discriminate P; cbn [good_call] in GC.
    - destruct GC as (t & D & R & L). destruct (pull_ok_resolves line X t D R L) as (o & Eb & Er).
      destruct (pull_step line X t o D R Eb) as (l & El & Gl). exists o, l. auto.
    - destruct GC as (t & o & D & R & E & L). exists o. destruct (pull_array_step line X t o D R E) as (l & El & Gl).
      exists l. split; [exact (pull_array_resolves line X t o D E L) |]. split; assumption.
    - destruct GC as (t & D & R & L). rewrite (pull_member_resolves line X L). eexists; eexists. split; [reflexivity |]. split; [reflexivity |].
      apply good_one. exists t. split; [exact D |]. split; [exact R | left; lia].
    - destruct GC as (c & rc & p & -> & O & Hc & Hp & L). rewrite (pull_object_resolves line c O L).
      destruct (sc_pulled K G SC c rc p Hc Hp) as (l & E & F). eexists; eexists. split; [reflexivity |].
      cbn [jinner call_type]. rewrite E. split; [reflexivity |]. intros x Hx. apply in_map_iff in Hx as [a [<- Ha]].
      destruct (Forall2_in _ _ _ _ F Ha) as [t' [Ht Dt]]. apply in_map_iff in Ht as [fd [<- Hf]].
      eexists. split; [exact Dt |]. split; [eapply Pl; eassumption | unfold user; lia].
  Qed.
  Lemma pull_reaches c c' : is_push c = false -> good_call c -> jreaches K c c' -> is_push c' = false /\ good_call c'.
  Proof.
    intros P GC B. induction B as [c | c o l c' c'' E I Hin B IH]; [auto |].
    destruct (json_step_pull c P GC) as (o1 & l1 & E1 & I1 & G1). apply IH.
    - rewrite (inner_direction _ _ _ _ E I Hin). exact P.
    - rewrite E in E1. injection E1 as <-. rewrite I in I1. injection I1 as <-. exact (G1 _ Hin).
  Qed.
  Lemma json_compiles_pull c : is_push c = false -> good_call c -> jcompiles K c.
  Proof.
    intros P GC c' B. destruct (pull_reaches c c' P GC B) as [P' GC'].
    destruct (json_step_pull c' P' GC') as (o & l & E & I & _). exists o, l. auto.
  Qed.
  End PullCalls.
End Facts.
