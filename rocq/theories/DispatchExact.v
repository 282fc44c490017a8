(** DispatchExact.v -- the predicates [readable], [writable], [pushable] and [pullable] of the specifications say exactly for
    which types the calls compile. *)
From Coq Require Import List NArith ZArith Bool Lia.
From Verif Require Import Base Types TypesFacts BinModel BinSafeSpec JsonModel JsonSafeSpec DispatchModel DispatchSpec DispatchFacts.
Import ListNotations.
Open Scope nat_scope.

Section Exact.
  Variable K : N -> kclass.
  Variable G : genv.
  Hypothesis SC : same_classes K G.

  Ltac facts :=
    unfold IsArray, IsIteratableExceptString, IsArrayOrSet, IsMapOrHash, IsMultiMapOrHash, IsSet, IsMultiSet, IsVariant,
      TreatAsMapOrHash, TreatAsMultiMapOrHash, TreatAsSet, TreatAsMultiSet, IsResizable, IsReservable, HasSize, IsIteratable,
      BinIsCustomType, BinIsBuiltInType, JsonIsBuiltInType, IsJsonSerializable, base_scalar, spec_any, spec_of,
      is_integral, is_floating_point, is_enum, is_pointer, is_bool, is_int, is_chars, is_string, is_string_view.
  Ltac use_class :=
    repeat match goal with
    | H : treated _ _ ?m |- _ => unfold treated in H; decompose [and] H; clear H
    | H : ordinary _ |- _ => unfold ordinary in H; decompose [and] H; clear H
    end;
    repeat match goal with H : _ = andb _ _ |- _ => cbn [andb orb negb] in H end;
    repeat match goal with H : ?f (K ?c) = ?b |- context[?f (K ?c)] => rewrite H end.
  Ltac kinds :=
    repeat match goal with
    | H : sequence ?tm = true |- _ => destruct tm; try discriminate H; clear H
    | H : set_kind ?tm = Some _ |- _ => destruct tm; try discriminate H; clear H
    | H : map_kind ?tm = Some _ |- _ => destruct tm; try discriminate H; clear H
    end.

  (** the overload taken for any type, also if its body does not compile *)
  Definition read_taken (t : ty) : bov :=
    match t with
    | TInt KI8 => BCustom
    | TView => BIteratable
    | _ => match read_branch t with Some o => o | None => BCustom end
    end.
  Definition write_taken (t : ty) : bov :=
    match t with
    | TInt KI8 => BCustom
    | TView => BIteratable
    | _ => match write_branch t with Some o => o | None => BCustom end
    end.

  Lemma resolve_read_taken X t : denotes K X t -> resolve_read K X = Some (read_taken t).
  Proof.
    intros D. destruct D; try (destruct multi); kinds;
      unfold resolve_read, select, count, read_overloads, read_fits, template_if;
      try reflexivity; try (destruct k; reflexivity);
      facts; facts; use_class; reflexivity.
  Qed.
  Lemma resolve_write_taken X t : denotes K X t -> resolve_write K X = Some (write_taken t).
  Proof.
    intros D. destruct D; try (destruct multi); kinds;
      unfold resolve_write, select, count, write_overloads, write_fits, template_if;
      try reflexivity; try (destruct k; reflexivity);
      facts; facts; use_class; reflexivity.
  Qed.

  Lemma bc_inner c c' o l : bcompiles K c -> bresolve K c = Some o -> binner K o c = Some l -> In c' l -> bcompiles K c'.
  Proof. intros B E I Hin c'' R. apply B. eapply br_step; eassumption. Qed.
  Lemma bc_here c o : bcompiles K c -> bresolve K c = Some o -> exists l, binner K o c = Some l.
  Proof. intros B E. destruct (B c (br_self K c)) as (o' & l & E' & I). rewrite E in E'. injection E' as <-. now exists l. Qed.

  Lemma bc_read X t : denotes K X t -> bcompiles K (CallRead X) ->
    exists l, read_inner K (read_taken t) X = Some l /\ forall c, In c l -> bcompiles K c.
  Proof.
    intros D B. assert (E := resolve_read_taken X t D). destruct (bc_here (CallRead X) _ B E) as [l I]. exists l.
    split; [exact I |]. intros c Hin. exact (bc_inner (CallRead X) c _ l B E I Hin).
  Qed.
  Lemma bc_write X t : denotes K X t -> bcompiles K (CallWrite X) ->
    exists l, write_inner K (write_taken t) X = Some l /\ forall c, In c l -> bcompiles K c.
  Proof.
    intros D B. assert (E := resolve_write_taken X t D). destruct (bc_here (CallWrite X) _ B E) as [l I]. exists l.
    split; [exact I |]. intros c Hin. exact (bc_inner (CallWrite X) c _ l B E I Hin).
  Qed.

  Lemma Forall2_in_r {A B} (R : A -> B -> Prop) l m y : Forall2 R l m -> In y m -> exists x, In x l /\ R x y.
  Proof.
    induction 1 as [| a b l m H1 H2 IH]; [easy |]. intros [<- | Hin]; [exists a; split; [now left | exact H1] |].
    destruct (IH Hin) as [x [Hx R']]. exists x. split; [now right | exact R'].
  Qed.
  Lemma all_of (P : ty -> Prop) ts : (forall t, In t ts -> t = TMono \/ P t) ->
    (fix all l := match l with [] => True | t :: l' => (t = TMono \/ P t) /\ all l' end) ts.
  Proof. induction ts as [| x ts IH]; [easy |]. intros H. split; [apply H; now left |]. apply IH. intros t Ht. apply H. now right. Qed.
  Lemma all_tuple_of (P : ty -> Prop) ts : (forall t, In t ts -> P t) ->
    (fix all l := match l with [] => True | t :: l' => P t /\ all l' end) ts.
  Proof. induction ts as [| x ts IH]; [easy |]. intros H. split; [apply H; now left |]. apply IH. intros t Ht. apply H. now right. Qed.

  Lemma read_kind k : bcompiles K (CallRead (CInt k)) -> bin_kind k = true.
  Proof.
    intros B. destruct (bc_read (CInt k) (TInt k) (de_int K k) B) as (l & I & _). destruct k; try reflexivity. discriminate I.
  Qed.
  Lemma write_kind k : bcompiles K (CallWrite (CInt k)) -> bin_kind k = true.
  Proof.
    intros B. destruct (bc_write (CInt k) (TInt k) (de_int K k) B) as (l & I & _). destruct k; try reflexivity. discriminate I.
  Qed.

  Lemma read_pair a b : bcompiles K (CallRead (CSpec StdPair [a; b])) -> bcompiles K (CallRead a) /\ bcompiles K (CallRead b).
  Proof.
    intros B. split; eapply (bc_inner (CallRead (CSpec StdPair [a; b]))); try exact B; try reflexivity; cbn; auto.
  Qed.
  Lemma write_pair a b : bcompiles K (CallWrite (CSpec StdPair [a; b])) -> bcompiles K (CallWrite a) /\ bcompiles K (CallWrite b).
  Proof.
    intros B. split; eapply (bc_inner (CallWrite (CSpec StdPair [a; b]))); try exact B; try reflexivity; cbn; auto.
  Qed.

  Lemma read_exact t : forall X, denotes K X t -> bcompiles K (CallRead X) -> readable G t.
  Proof.
    induction t using ty_ind'; intros X D B; destruct (bc_read X _ D B) as (l & I & N); cbn [readable].
    all: try exact Logic.I.
    - inversion D; subst. now apply read_kind.
    - inversion D; subst. cbn in I. injection I as <-. apply read_kind. apply N. now left.
    - inversion D; subst. apply (IHt a); [assumption |]. cbn [read_taken read_branch read_inner] in I.
      destruct (element_seq K tm a) as [E _]; [assumption | assumption |]. rewrite E in I. injection I as <-. apply N. now left.
    - inversion D; subst.
      + apply (IHt a); [assumption |]. cbn [read_taken read_branch read_inner] in I.
        destruct (set_elements K tm o m a) as (E & _ & E'); [assumption |]. rewrite E, E' in I. injection I as <-. apply N. now left.
      + apply (IHt a); [assumption |]. cbn [read_taken read_branch read_inner element] in I.
        match goal with H : k_elements _ = _ |- _ => rewrite H in I end.
        destruct (has_emplace K (CClass c)); [| discriminate I]. injection I as <-. apply N. now left.
    - inversion D; subst.
      + cbn [read_taken read_branch read_inner] in I. erewrite map_element in I by eassumption.
        destruct (has_emplace K (CSpec tm [a; b])); [| discriminate I]. injection I as <-.
        destruct (read_pair a b (N _ (or_introl eq_refl))) as [B1 B2]. split; [eapply IHt1 | eapply IHt2]; eassumption.
      + cbn [read_taken read_branch read_inner element] in I.
        match goal with H : k_elements _ = _ |- _ => rewrite H in I end.
        destruct (has_emplace K (CClass c)); [| discriminate I]. injection I as <-.
        destruct (read_pair a b (N _ (or_introl eq_refl))) as [B1 B2]. split; [eapply IHt1 | eapply IHt2]; eassumption.
    - inversion D; subst. destruct (read_pair _ _ B) as [B1 B2]. split; [eapply IHt1 | eapply IHt2]; eassumption.
    - inversion D; subst. discriminate I.
    - inversion D; subst. cbn in I. injection I as <-. eapply IHt; [eassumption |]. apply N. now left.
    - inversion D; subst. cbn in I. injection I as <-. eapply IHt; [eassumption |]. apply N. now left.
    - inversion D; subst. cbn in I. injection I as <-. eapply IHt; [eassumption |]. apply N. now left.
    - inversion D as [| | | | | | | | | | | | | | | | | | | | | l' ts' F NE |]; subst. split.
      { intros ->. inversion F; subst. now apply NE. }
      cbn in I. injection I as <-. apply all_of. intros t Ht. destruct (Forall2_in_r _ _ _ _ F Ht) as [x [Hx Dx]].
      destruct (not_mono x) eqn:Em.
      + right. rewrite Forall_forall in H. apply (H t Ht x Dx). apply N. apply in_map. apply filter_In. auto.
      + left. destruct x; try discriminate Em. inversion Dx. reflexivity.
    - inversion D; subst. discriminate I.
    - inversion D; subst. cbn in I. destruct (k_read (K c)) as [m|] eqn:Ek; [| discriminate I]. exact (sc_readers K G SC c m Ek).
    - inversion D; subst. discriminate I.
    - inversion D; subst. discriminate I.
  Qed.

  Lemma write_exact t : forall X, denotes K X t -> bcompiles K (CallWrite X) -> writable G t.
  Proof.
    induction t using ty_ind'; intros X D B; destruct (bc_write X _ D B) as (l & I & N); cbn [writable].
    all: try exact Logic.I.
    - inversion D; subst. now apply write_kind.
    - inversion D; subst. cbn in I. injection I as <-. apply write_kind. apply N. now left.
    - inversion D; subst. apply (IHt a); [assumption |]. cbn [write_taken write_branch write_inner] in I.
      destruct (element_seq K tm a) as [_ E]; [assumption | assumption |]. rewrite E in I. injection I as <-. apply N. now left.
    - inversion D; subst.
      + apply (IHt a); [assumption |]. cbn [write_taken write_branch write_inner] in I.
        destruct (set_elements K tm o m a) as (_ & E & _); [assumption |]. rewrite E in I. injection I as <-. apply N. now left.
      + apply (IHt a); [assumption |]. cbn [write_taken write_branch write_inner const_element element] in I.
        match goal with H : k_elements _ = _ |- _ => rewrite H in I end.
        injection I as <-. apply N. now left.
    - inversion D; subst.
      + assert (E : const_element K (CSpec tm [a; b]) = Some (CSpec StdPair [a; b])) by (destruct tm; try discriminate; reflexivity).
        cbn [write_taken write_branch write_inner] in I. rewrite E in I. injection I as <-.
        destruct (write_pair a b (N _ (or_introl eq_refl))) as [B1 B2]. split; [eapply IHt1 | eapply IHt2]; eassumption.
      + cbn [write_taken write_branch write_inner const_element element] in I.
        match goal with H : k_elements _ = _ |- _ => rewrite H in I end.
        injection I as <-.
        destruct (write_pair a b (N _ (or_introl eq_refl))) as [B1 B2]. split; [eapply IHt1 | eapply IHt2]; eassumption.
    - inversion D; subst. destruct (write_pair _ _ B) as [B1 B2]. split; [eapply IHt1 | eapply IHt2]; eassumption.
    - inversion D; subst. discriminate I.
    - inversion D; subst. cbn in I. injection I as <-. eapply IHt; [eassumption |]. apply N. now left.
    - inversion D; subst. cbn in I. injection I as <-. eapply IHt; [eassumption |]. apply N. now left.
    - inversion D; subst. cbn in I. injection I as <-. eapply IHt; [eassumption |]. apply N. now left.
    - inversion D as [| | | | | | | | | | | | | | | | | | | | | l' ts' F NE |]; subst. split.
      { intros ->. inversion F; subst. now apply NE. }
      cbn in I. injection I as <-. apply all_of. intros t Ht. destruct (Forall2_in_r _ _ _ _ F Ht) as [x [Hx Dx]].
      destruct (not_mono x) eqn:Em.
      + right. rewrite Forall_forall in H. apply (H t Ht x Dx). apply N. apply in_map. apply filter_In. auto.
      + left. destruct x; try discriminate Em. inversion Dx. reflexivity.
    - inversion D; subst. discriminate I.
    - inversion D; subst. cbn in I. destruct (k_written (K c)) as [m|] eqn:Ek; [| discriminate I]. exact (sc_writers K G SC c m Ek).
    - inversion D; subst. discriminate I.
  Qed.

  (** ** JSON *)
  Definition push_taken (t : ty) : jov := match push_branch t with Some o => o | None => PushCustom end.

  Lemma push_resolves line X t : denotes K X t -> push_line line t -> jresolve K (Push line X) = Some (push_taken t).
  Proof.
    intros D L. rewrite (jresolve_lines K (Push line X) (push_declared K line X t D L)). clear L.
    unfold candidates, is_push, select, count, push_overloads, jcond, template_if.
    destruct D; try (destruct multi); kinds;
      try reflexivity; try (destruct k; reflexivity);
      facts; facts; use_class; reflexivity.
  Qed.
  Lemma hidden_variant l : jresolve K (Push 332 (CSpec StdVariant l)) = None.
  Proof. reflexivity. Qed.

  Lemma jc_inner c c' o l : jcompiles K c -> jresolve K c = Some o -> jinner K o (call_type c) = Some l -> In c' l -> jcompiles K c'.
  Proof. intros B E I Hin c'' R. apply B. eapply jr_step; eassumption. Qed.
  Lemma jc_here c o : jcompiles K c -> jresolve K c = Some o -> exists l, jinner K o (call_type c) = Some l.
  Proof. intros B E. destruct (B c (jr_self K c)) as (o' & l & E' & I). rewrite E in E'. injection E' as <-. now exists l. Qed.
  Lemma jc_next c o : jcompiles K c -> jresolve K c = Some o ->
    exists l, jinner K o (call_type c) = Some l /\ forall c', In c' l -> jcompiles K c'.
  Proof.
    intros B E. destruct (jc_here c o B E) as [l I]. exists l. split; [exact I |]. intros c' Hin. exact (jc_inner c c' o l B E I Hin).
  Qed.

  (** pushing to an array or as member compiles only if pushing to a value does *)
  Lemma push_value_of line X t : denotes K X t -> (jcompiles K (PushToArray line X) /\ 113 < line \/ jcompiles K (PushAsMember line X) /\ 126 < line) ->
    exists line', 338 < line' /\ (jcompiles K (Push line' X) \/ exists c, t = TStruct c /\ jcompiles K (PushToObject line' X)).
  Proof.
    intros D [[B L] | [B L]].
    - destruct (IsJsonSerializable K X) eqn:Es.
      + destruct (serializable_class K X t D Es) as (c & E & _ & ->). exists 372. split; [lia |]. right. exists c. split; [reflexivity |].
        eapply (jc_inner (PushToArray line X)); [exact B | rewrite (push_array_resolves K line X L), Es; reflexivity | reflexivity | now left].
      + exists 383. split; [lia |]. left.
        eapply (jc_inner (PushToArray line X)); [exact B | rewrite (push_array_resolves K line X L), Es; reflexivity | reflexivity | now left].
    - destruct (IsJsonSerializable K X) eqn:Es.
      + destruct (serializable_class K X t D Es) as (c & E & _ & ->). exists 396. split; [lia |]. right. exists c. split; [reflexivity |].
        eapply (jc_inner (PushAsMember line X)); [exact B | rewrite (push_member_resolves K line X L), Es; reflexivity | reflexivity | now left].
      + exists 408. split; [lia |]. left.
        eapply (jc_inner (PushAsMember line X)); [exact B | rewrite (push_member_resolves K line X L), Es; reflexivity | reflexivity | now left].
  Qed.

  Lemma push_object_exact line c : ordinary (K c) -> 134 < line -> jcompiles K (PushToObject line (CClass c)) -> exists rc, g_class G c = Some rc.
  Proof.
    intros O L B. destruct (jc_here _ _ B (push_object_resolves K line c O L)) as [l I]. cbn in I.
    destruct (k_pushed (K c)) as [m|] eqn:E; [| discriminate I]. exact (sc_pushers K G SC c m E).
  Qed.

  Definition push_exact_at (t : ty) : Prop :=
    (forall X line, denotes K X t -> push_line line t -> jcompiles K (Push line X) -> pushable G t).
  Lemma push_exact_nested t X line : push_exact_at t -> denotes K X t ->
    (jcompiles K (PushToArray line X) /\ 113 < line \/ jcompiles K (PushAsMember line X) /\ 126 < line) -> pushable G t.
  Proof.
    intros IH D B. destruct (push_value_of line X t D B) as (line' & L & [C | (c & -> & C)]).
    - apply (IH X line' D); [now left | exact C].
    - inversion D; subst. cbn. eapply push_object_exact; [eassumption | | exact C]. lia.
  Qed.

  Lemma string_map_some X b : string_map K X = Some b -> exists a, element K X = Some (CSpec StdPair [a; b]) /\ a = std_string.
  Proof.
    unfold string_map. destruct (element K X) as [x|]; [| discriminate]. destruct x as [| | | | | | | | | | | | tm args |]; try discriminate.
    destruct tm; try discriminate. destruct args as [| a [| b' [|]]]; try discriminate.
    destruct (is_string a) eqn:E; [| discriminate]. intros H; injection H as ->. exists a. split; [reflexivity |].
    destruct a as [| | | | | | | | | | | | tm args |]; try discriminate E. destruct tm; try discriminate E.
    destruct args as [| x [|]]; try discriminate E; destruct x; try discriminate E; try (destruct k; discriminate E || reflexivity).
  Qed.
  Lemma denotes_std_string t : denotes K std_string t -> t = TString.
  Proof.
    inversion 1; subst; try reflexivity; match goal with H : _ StdBasicString = _ |- _ => discriminate H end.
  Qed.

  Lemma push_exact t : push_exact_at t.
  Proof.
    induction t using ty_ind'; intros X line D L B;
      destruct (jc_next (Push line X) _ B (push_resolves line X _ D L)) as (l & I & N); cbn [call_type] in I; cbn [pushable].
    all: try exact Logic.I.
    - inversion D; subst. destruct k; cbn in I; try discriminate I; cbn; auto.
    - inversion D; subst. unfold push_taken in I. cbn [push_branch jinner] in I.
      destruct (element_seq K tm a) as [_ E]; [assumption | assumption |]. rewrite E in I. injection I as <-.
      eapply push_exact_nested; [exact IHt | eassumption |]. left. split; [apply N; now left | lia].
    - inversion D; subst.
      + unfold push_taken in I. cbn [push_branch jinner] in I.
        destruct (set_elements K tm o m a) as (_ & E & _); [assumption |]. rewrite E in I. injection I as <-.
        eapply push_exact_nested; [exact IHt | eassumption |]. left. split; [apply N; now left | lia].
      + unfold push_taken in I. cbn [push_branch jinner const_element element] in I.
        match goal with H : k_elements _ = _ |- _ => rewrite H in I end. injection I as <-.
        eapply push_exact_nested; [exact IHt | eassumption |]. left. split; [apply N; now left | lia].
    - assert (Q : exists b l', string_map K X = Some b /\ l = [l'] /\ ((exists line, l' = PushToArray line b /\ 113 < line) \/ (exists line, l' = PushAsMember line b /\ 126 < line))).
      { unfold push_taken in I. destruct m; cbn [push_branch jinner] in I; destruct (string_map K X) as [b|]; try discriminate I; injection I as <-;
          exists b; eexists; (split; [reflexivity |]); (split; [reflexivity |]).
        - left. eexists. split; [reflexivity | lia].
        - right. eexists. split; [reflexivity | lia]. }
      destruct Q as (b & l' & E & -> & Q). destruct (string_map_some X b E) as (a & Ee & ->).
      assert (Hk : denotes K std_string t1 /\ denotes K b t2).
      { inversion D; subst.
        - erewrite map_element in Ee by eassumption. injection Ee as <- <-. split; assumption.
        - cbn [element] in Ee. match goal with H : k_elements _ = _ |- _ => rewrite H in Ee end. injection Ee as <- <-. split; assumption. }
      destruct Hk as [D1 D2]. split; [exact (denotes_std_string _ D1) |].
      destruct Q as [(line0 & -> & L') | (line0 & -> & L')]; (eapply push_exact_nested; [exact IHt2 | eassumption |]);
        [left | right]; (split; [apply N; now left | lia]).
    - inversion D; subst. cbn in I. injection I as <-.
      split; (eapply push_exact_nested; [first [exact IHt1 | exact IHt2] | eassumption |]); left; (split; [apply N; cbn; auto | lia]).
    - inversion D as [| | | | | | | | | | | | | | | | | l' ts' F | | | | |]; subst. destruct l' as [| x l']; [discriminate I |].
      split; [intros ->; inversion F |]. unfold push_taken in I. cbn [push_branch jinner] in I. injection I as <-.
      apply all_tuple_of. intros t Ht. destruct (Forall2_in_r _ _ _ _ F Ht) as [y [Hy Dy]].
      rewrite Forall_forall in H. eapply (push_exact_nested t y 284); [exact (H t Ht) | exact Dy |].
      left. split; [apply N; change (In (PushToArray 284 y) (map (PushToArray 284) (x :: l'))); now apply in_map | lia].
    - inversion D; subst. cbn in I. injection I as <-. assert (C := N _ (or_introl eq_refl)).
      destruct (is_variant t) eqn:Ev.
      + exfalso. destruct t; try discriminate Ev. inversion D; subst.
        match goal with H : denotes K _ (TVariant _) |- _ => inversion H; subst end.
        destruct (C _ (jr_self K _)) as (o9 & l9 & E9 & _). discriminate E9.
      + split; [| reflexivity]. eapply IHt; [eassumption | | exact C]. right. split; [lia | exact Ev].
    - inversion D; subst. cbn in I. injection I as <-. assert (C := N _ (or_introl eq_refl)).
      destruct (is_variant t) eqn:Ev.
      + exfalso. destruct t; try discriminate Ev. inversion D; subst.
        match goal with H : denotes K _ (TVariant _) |- _ => inversion H; subst end.
        destruct (C _ (jr_self K _)) as (o9 & l9 & E9 & _). discriminate E9.
      + split; [| reflexivity]. eapply IHt; [eassumption | | exact C]. right. split; [lia | exact Ev].
    - inversion D; subst. cbn in I. injection I as <-. assert (C := N _ (or_introl eq_refl)).
      destruct (is_variant t) eqn:Ev.
      + exfalso. destruct t; try discriminate Ev. inversion D; subst.
        match goal with H : denotes K _ (TVariant _) |- _ => inversion H; subst end.
        destruct (C _ (jr_self K _)) as (o9 & l9 & E9 & _). discriminate E9.
      + split; [| reflexivity]. eapply IHt; [eassumption | | exact C]. right. split; [lia | exact Ev].
    - inversion D as [| | | | | | | | | | | | | | | | | | | | | l' ts' F NE |]; subst. split.
      { intros ->. inversion F; subst. now apply NE. }
      cbn in I. injection I as <-. apply all_of. intros t Ht. destruct (Forall2_in_r _ _ _ _ F Ht) as [x [Hx Dx]].
      destruct (not_mono x) eqn:Em.
      + right. rewrite Forall_forall in H. apply (H t Ht x 351 Dx); [left; lia |]. apply N. apply in_map. apply filter_In. auto.
      + left. destruct x; try discriminate Em. inversion Dx. reflexivity.
    - inversion D; subst. unfold push_taken in I. cbn in I. injection I as <-.
      destruct (N _ (or_introl eq_refl) _ (jr_self K _)) as (o & l & E & I). cbn in E. injection E as <-. discriminate I.
    - inversion D; subst. unfold push_taken in I. cbn in I. injection I as <-.
      eapply (push_object_exact 145); [assumption | lia | apply N; now left].
  Qed.

  Definition pull_taken_ok (X : cxx) (t : ty) (o : jov) : Prop := match t with TMono => o = PullCustom | _ => In o (pull_branch t) end.
  Lemma pull_resolves line X t : denotes K X t -> pull_line line X -> exists o, pull_taken_ok X t o /\ jresolve K (Pull line X) = Some o.
  Proof.
    intros D L. rewrite (jresolve_lines K (Pull line X) (pull_declared K line X L)). clear L.
    unfold candidates, is_push, select, count, pull_overloads, jcond, template_if.
    destruct D; try (destruct multi); kinds;
      try (eexists; (split; [left; reflexivity |]); reflexivity);
      try (eexists; (split; [right; left; reflexivity |]); reflexivity);
      try (eexists; (split; [reflexivity |]); reflexivity);
      try (destruct k; eexists; (split; [left; reflexivity |]); reflexivity);
      facts; facts; use_class; try (eexists; (split; [left; reflexivity |]); reflexivity).
    all: destruct (k_reserve (K c)); first [eexists; (split; [left; reflexivity |]); reflexivity | eexists; (split; [right; left; reflexivity |]); reflexivity].
  Qed.

  Lemma pull_object_exact line c : ordinary (K c) -> 418 < line -> jcompiles K (PullFromObject line (CClass c)) ->
    exists rc p, g_class G c = Some rc /\ rc_pull rc = Some p.
  Proof.
    intros O L B. destruct (jc_here _ _ B (pull_object_resolves K line c O L)) as [l I]. cbn in I.
    destruct (k_pulled (K c)) as [m|] eqn:E; [| discriminate I]. exact (sc_pullers K G SC c m E).
  Qed.

  (** pulling from an array *)
  Lemma pull_array_of X t o' : denotes K X t -> array_branch t = Some o' -> forall o, In o (pull_branch t) -> forall l, jinner K o X = Some l ->
    (forall c, In c l -> jcompiles K c) -> exists l', jinner K o' X = Some l' /\ forall c, In c l' -> jcompiles K c.
  Proof.
    intros D A o Ho l I N.
    assert (Q : exists line, l = [PullFromArray line X] /\ 455 < line).
    { destruct t; try discriminate A; cbn in Ho; destruct Ho as [<- | [<- | []]]; cbn in I; injection I as <-; eexists; split; try reflexivity; lia. }
    destruct Q as (line & -> & L).
    exact (jc_next (PullFromArray line X) o' (N _ (or_introl eq_refl)) (pull_array_resolves K line X t o' D A L)).
  Qed.

  Lemma pull_exact t : forall X line, denotes K X t -> pull_line line X -> jcompiles K (Pull line X) -> pull_ok G t.
  Proof.
    induction t using ty_ind'; intros X line D L B;
      destruct (pull_resolves line X _ D L) as (o' & Ho & E); destruct (jc_next (Pull line X) _ B E) as (l & I & N); cbn [call_type] in I;
      unfold pull_ok; cbn [pullable]; cbn [pull_taken_ok] in Ho.
    all: try exact Logic.I.
    - inversion D; subst. cbn [pull_branch In] in Ho. destruct Ho as [<- | []]. destruct k; cbn in I; try discriminate I; cbn; auto.
    - inversion D; subst. destruct (pull_array_of _ _ PullArrayArray D eq_refl o' Ho l I N) as (l' & I' & N').
      cbn [jinner] in I'. destruct (element_seq K tm a) as [Ee _]; [assumption | assumption |]. rewrite Ee in I'.
      destruct (has_emplace_back K (CSpec tm [a])); [| discriminate I']. injection I' as <-.
      eapply IHt; [eassumption | | apply N'; now left]. left. lia.
    - split; [| discriminate].
      assert (Q : exists a line, denotes K a t /\ 614 < line /\ jcompiles K (Pull line a)).
      { destruct (pull_array_of _ _ (if m then PullArrayMultiSet else PullArraySet) D ltac:(destruct m; reflexivity) o' Ho l I N) as (l' & I' & N').
        inversion D; subst.
        - destruct (set_elements K tm o m a) as (Ee & _ & E'); [assumption |].
          destruct m; cbn [jinner] in I'; rewrite Ee, E' in I'; injection I' as <-;
            exists a; eexists; (split; [assumption |]); (split; [| apply N'; now left]); lia.
        - destruct m; cbn [jinner element] in I'; destruct (has_emplace K (CClass c)); try discriminate I';
            match goal with H : k_elements _ = _ |- _ => rewrite H in I' end; injection I' as <-;
            exists a; eexists; (split; [assumption |]); (split; [| apply N'; now left]); lia. }
      destruct Q as (a & line' & Da & L' & C). apply (IHt a line' Da); [now left | exact C].
    - assert (Q : exists b line, string_map K X = Some b /\ 614 < line /\ In (Pull line b) l).
      { destruct m; cbn [pull_branch In] in Ho; destruct Ho as [<- | []]; cbn [jinner] in I; destruct (string_map K X) as [b|]; try discriminate I;
          injection I as <-; exists b; eexists; (split; [reflexivity |]); (split; [| now left]); lia. }
      destruct Q as (b & line' & Es & L' & Hin). destruct (string_map_some X b Es) as (a & Ee & ->).
      assert (Hk : denotes K std_string t1 /\ denotes K b t2).
      { inversion D; subst.
        - erewrite map_element in Ee by eassumption. injection Ee as <- <-. split; assumption.
        - cbn [element] in Ee. match goal with H : k_elements _ = _ |- _ => rewrite H in Ee end. injection Ee as <- <-. split; assumption. }
      destruct Hk as [D1 D2]. split; [exact (denotes_std_string _ D1) |]. apply (IHt2 b line' D2); [now left | apply N; exact Hin].
    - inversion D; subst. destruct Ho as [<- | []]. cbn in I. injection I as <-.
      split; [eapply IHt1 | eapply IHt2]; try eassumption; try (left; shelve); apply N; cbn; auto.
      Unshelve. all: lia.
    - inversion D as [| | | | | | | | | | | | | | | | | l' ts' F | | | | |]; subst. destruct Ho as [<- | []].
      destruct l' as [| x l']; [discriminate I |]. split; [intros ->; inversion F |]. cbn [jinner] in I. injection I as <-.
      apply all_tuple_of. intros t Ht. destruct (Forall2_in_r _ _ _ _ F Ht) as [y [Hy Dy]].
      rewrite Forall_forall in H. apply (H t Ht y 798 Dy); [left; lia |]. apply N.
      change (In (Pull 798 y) (map (Pull 798) (x :: l'))). now apply in_map.
    - inversion D; subst. destruct Ho as [<- | []]. cbn in I. injection I as <-.
      eapply IHt; [eassumption | | apply N; now left]. left. lia.
    - inversion D; subst. destruct Ho as [<- | []]. cbn in I. injection I as <-.
      eapply IHt; [eassumption | | apply N; now left]. left. lia.
    - inversion D; subst. destruct Ho as [<- | []]. cbn in I. injection I as <-.
      eapply IHt; [eassumption | | apply N; now left]. left. lia.
    - inversion D as [| | | | | | | | | | | | | | | | | | | | | l' ts' F NE |]; subst. destruct Ho as [<- | []]. split.
      { intros ->. inversion F; subst. now apply NE. }
      cbn in I. injection I as <-. apply all_of. intros t Ht. destruct (Forall2_in_r _ _ _ _ F Ht) as [x [Hx Dx]].
      destruct (not_mono x) eqn:Em.
      + right. rewrite Forall_forall in H. apply (H t Ht x 909 Dx); [left; lia |]. apply N. apply in_map. apply filter_In. auto.
      + left. destruct x; try discriminate Em. inversion Dx. reflexivity.
    - subst o'. inversion D; subst. cbn in I. injection I as <-.
      destruct (N _ (or_introl eq_refl) _ (jr_self K _)) as (o & l & E' & I). cbn in E'. injection E' as <-. discriminate I.
    - inversion D; subst. destruct Ho as [<- | []]. cbn in I. injection I as <-.
      eapply (pull_object_exact 1011); [assumption | lia | apply N; now left].
  Qed.

  (** ** toJsonDocument, toJson, fromJson *)
  Lemma document_resolves X t : denotes K X t -> resolve_document K X = document_branch K t.
  Proof.
    clear SC. intros D. destruct D; try (destruct multi); kinds; try reflexivity;
      unfold resolve_document, select, count, top_overloads, document_fits, template_if, document_branch;
      facts; facts; use_class; cbn; try reflexivity; try (destruct (k_serializable (K c)); reflexivity).
  Qed.
  Lemma parse_resolves X t : denotes K X t -> resolve_parse K X = parse_branch K t.
  Proof.
    clear SC. intros D. destruct D; try (destruct multi); kinds; try reflexivity;
      unfold resolve_parse, select, count, top_overloads, parse_fits, template_if, parse_branch, document_branch;
      facts; facts; use_class; cbn; try reflexivity; try (destruct (k_serializable (K c)); reflexivity).
  Qed.
  Lemma toJson_offered X t : denotes K X t -> (toJson_enabled K X = true <-> document_branch K t <> None \/ t = TString \/ t = TCStr).
  Proof.
    clear SC. intros D. destruct D; try (destruct multi); kinds; cbn; try (intuition congruence);
      unfold toJson_enabled, document_branch; facts; facts; use_class; cbn; try (intuition congruence);
      try (destruct (k_serializable (K c)); cbn; intuition congruence).
  Qed.
End Exact.
