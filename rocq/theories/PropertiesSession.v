(** PropertiesSession.v -- property C80: one serializer is used for several values while the program continues to run in between (vocabulary in SessionSpec.v) *)
From Coq Require Import List NArith ZArith Bool Lia.
From Verif Require Import Base BaseFacts Types TypesFacts BinModel FuelFacts BinSpec BinSafeSpec BinSafe BinPaths BinExcSpec SessionSpec SessionFacts.
Import ListNotations.

(** C80: values have been written one after another with the same serializer; objects have been created, modified and destroyed in between, but no address has been used for
    objects of different types.  Then a deserializer, which may have been used before, restores all of them, and a copy of the object graph; each object is restored
    with the content it had when it has been written for the first time. *)
Theorem C80_session : forall G l, alloc_ok G -> place_ok G -> (forall c, In c l -> proper G c) -> types_agree l ->
  exists F, forall fuel, (F <= fuel)%nat -> exists bs W S,
    write_all G fuel l [] = ROk (bs, W) /\ snapshot G fuel l S /\ from_calls l S
    /\ forall st rest, exists vs st' ro,
         read_all G fuel l (bs ++ rest) st = ROk (vs, rest, st')
         /\ Forall2 (fun c v' => same_value G ro (cl_ty c) (cl_val c) v' /\ (cl_ex c = true -> v' = cl_val c)) l vs
         /\ graph_iso G S (r_heap st) (r_heap st') ro
         /\ (forall a, In a W <-> In a (map fst ro)).
Proof. intros G l HA HP HL T. exact (session_round_trip G HA HP l HL T). Qed.
Print Assumptions C80_session.
(** C80: an object which is reached by values written in different calls is restored once, and is reached by both restored values; different objects stay different *)
Theorem C80_shared_between_calls : forall G l, alloc_ok G -> place_ok G -> (forall c, In c l -> proper G c) -> types_agree l ->
  exists F, forall fuel, (F <= fuel)%nat -> exists bs W S,
    write_all G fuel l [] = ROk (bs, W) /\ snapshot G fuel l S
    /\ forall st rest, exists vs st', read_all G fuel l (bs ++ rest) st = ROk (vs, rest, st')
         /\ forall i j c d v w p q tp tq a b, nth_error l i = Some c -> nth_error l j = Some d -> nth_error vs i = Some v -> nth_error vs j = Some w ->
              at_path G S (cl_ty c) (cl_val c) p tp (VShared (Some a)) -> at_path G S (cl_ty d) (cl_val d) q tq (VShared (Some b)) ->
              exists a' b', at_path G (r_heap st') (cl_ty c) v p tp (VShared (Some a')) /\ at_path G (r_heap st') (cl_ty d) w q tq (VShared (Some b')) /\ (a' = b' <-> a = b).
Proof.
  intros G l HA HP HL T. destruct (C80_session G l HA HP HL T) as [F HF]. exists F. intros fuel Hf. destruct (HF fuel Hf) as (bs & W & S & E & Sn & _ & R). exists bs, W, S. split; [exact E|]. split; [exact Sn|].
  intros st rest. destruct (R st rest) as (vs & st' & ro & Er & A & I & _). exists vs, st'. split; [exact Er|]. intros i j c d v w p q tp tq a b Ec Ed Ev Ew Pa Pb.
  assert (X : forall l vs i c v, Forall2 (fun c v' => same_value G ro (cl_ty c) (cl_val c) v' /\ (cl_ex c = true -> v' = cl_val c)) l vs -> nth_error l i = Some c -> nth_error vs i = Some v -> same_value G ro (cl_ty c) (cl_val c) v).
  { clear. intros l vs i c v Q. revert i. induction Q as [|x y l vs [Q1 _] Q IH]; intros [|i] E1 E2; try discriminate; cbn in E1, E2; [injection E1 as <-; injection E2 as <-; exact Q1|eapply IH; eassumption]. }
  pose proof (X _ _ _ _ _ A Ec Ev) as Sv. pose proof (X _ _ _ _ _ A Ed Ew) as Sw.
  destruct (forth G S (r_heap st) (r_heap st') ro I _ _ _ _ _ Pa _ Sv) as (v' & Pa' & Sa). destruct (forth G S (r_heap st) (r_heap st') ro I _ _ _ _ _ Pb _ Sw) as (w' & Pb' & Sb).
  assert (Y : forall t a v', same_value G ro t (VShared (Some a)) v' -> exists a', v' = VShared (Some a') /\ In (a, a') ro).
  { clear. intros t a v' Q. inversion Q; subst; [match goal with X : shfree _ = true |- _ => discriminate X end|eauto]. }
  destruct (Y _ _ _ Sa) as (a' & -> & Ia). destruct (Y _ _ _ Sb) as (b' & -> & Ib). exists a', b'. split; [exact Pa'|]. split; [exact Pb'|]. split.
  - intros ->. pose proof (gi_inj _ _ _ _ _ I) as N. clear - Ia Ib N. induction ro as [|[x y] ro IH]; [destruct Ia|]. cbn in N. inversion N as [|? ? Ny N']; subst. destruct Ia as [Ea|Ia], Ib as [Eb|Ib].
    + congruence.
    + injection Ea as -> ->. exfalso. apply Ny. apply (in_map snd) in Ib. exact Ib.
    + injection Eb as -> ->. exfalso. apply Ny. apply (in_map snd) in Ia. exact Ia.
    + apply IH; assumption.
  - intros ->. pose proof (gi_fun _ _ _ _ _ I) as N. clear - Ia Ib N. induction ro as [|[x y] ro IH]; [destruct Ia|]. cbn in N. inversion N as [|? ? Ny N']; subst. destruct Ia as [Ea|Ia], Ib as [Eb|Ib].
    + congruence.
    + injection Ea as -> ->. exfalso. apply Ny. apply (in_map fst) in Ib. exact Ib.
    + injection Eb as -> ->. exfalso. apply Ny. apply (in_map fst) in Ia. exact Ia.
    + apply IH; assumption.
Qed.
Print Assumptions C80_shared_between_calls.
(** C80: an object which is written for the first time by the call [c] is restored with the content it has at the time of that call *)
Theorem C80_content_when_first_written : forall G l, alloc_ok G -> place_ok G -> (forall c, In c l -> proper G c) -> types_agree l ->
  exists F, forall fuel, (F <= fuel)%nat -> exists bs W,
    write_all G fuel l [] = ROk (bs, W)
    /\ forall st rest, exists vs st' ro,
         read_all G fuel l (bs ++ rest) st = ROk (vs, rest, st')
         /\ Forall2 (fun c v' => same_value G ro (cl_ty c) (cl_val c) v') l vs
         /\ forall done c todo b1 W1 b2 W2 a t x, l = done ++ c :: todo -> write_all G fuel done [] = ROk (b1, W1) ->
              write G (cl_heap c) fuel (cl_wv c) (cl_ty c) (cl_val c) W1 = ROk (b2, W2) -> In a W2 -> ~ In a W1 -> hget (cl_heap c) a = Some (t, x) ->
              exists a' x', In (a, a') ro /\ hget (r_heap st') a' = Some (t, x') /\ same_value G ro t x x'.
Proof.
  intros G l HA HP HL T. destruct (C80_session G l HA HP HL T) as [F HF]. exists F. intros fuel Hf. destruct (HF fuel Hf) as (bs & W & S & E & Sn & _ & R). exists bs, W. split; [exact E|].
  intros st rest. destruct (R st rest) as (vs & st' & ro & Er & A & I & D). exists vs, st', ro. split; [exact Er|]. split.
  { clear - A. induction A as [|c v l vs [Q _] A IH]; constructor; assumption. }
  intros done c todo b1 W1 b2 W2 a t x El E1 E2 Ha Hn Eg. pose proof (Sn _ _ _ _ _ _ _ _ _ El E1 E2 Ha Hn Eg) as ES.
  assert (Hin : In a W).
  { clear - El E E1 E2 Ha. subst l. revert E E1. generalize (@nil N). revert bs b1. induction done as [|d done IH]; intros bs b1 W0 E E1; cbn [app] in E.
    - injection E1 as _ <-. apply wa_cons in E. destruct E as (b3 & W3 & b4 & E3 & E4 & _). rewrite E2 in E3. injection E3 as _ <-. eapply write_all_grow; eassumption.
    - apply wa_cons in E. destruct E as (b3 & W3 & b4 & E3 & E4 & _). apply wa_cons in E1. destruct E1 as (b5 & W5 & b6 & E5 & E6 & _). rewrite E3 in E5. injection E5 as <- <-. eapply IH; eassumption. }
  apply D in Hin. apply in_map_iff in Hin. destruct Hin as ([a0 a'] & Ea & Ia). cbn in Ea. subst a0. destruct (gi_content _ _ _ _ _ I a a' Ia) as (t1 & x1 & x' & H1 & H2 & H3 & _).
  rewrite ES in H1. injection H1 as <- <-. exists a', x'. auto.
Qed.
Print Assumptions C80_content_when_first_written.
(** C80: if no object is modified while the serializer is used (new ones may be created and others destroyed as long as their addresses are not used again), the result is a copy
    of the object graph as it is *)
Theorem C80_not_modified : forall G l H, alloc_ok G -> place_ok G -> (forall c, In c l -> proper G c) -> (forall c, In c l -> heap_extends (cl_heap c) H) ->
  exists F, forall fuel, (F <= fuel)%nat -> exists bs W,
    write_all G fuel l [] = ROk (bs, W)
    /\ forall st rest, exists vs st' ro,
         read_all G fuel l (bs ++ rest) st = ROk (vs, rest, st')
         /\ Forall2 (fun c v' => same_value G ro (cl_ty c) (cl_val c) v' /\ (cl_ex c = true -> v' = cl_val c)) l vs
         /\ graph_iso G H (r_heap st) (r_heap st') ro.
Proof.
  intros G l H HA HP HL HE.
  assert (T : types_agree l).
  { intros c c' a t t' Hc Hc' E E'. unfold hty in *. destruct (hget (cl_heap c) a) as [[u x]|] eqn:Eg; [|discriminate]. destruct (hget (cl_heap c') a) as [[u' x']|] eqn:Eg'; [|discriminate].
    apply HE in Eg; [|exact Hc]. apply HE in Eg'; [|exact Hc']. cbn in E, E'. congruence. }
  destruct (C80_session G l HA HP HL T) as [F HF]. exists F. intros fuel Hf. destruct (HF fuel Hf) as (bs & W & S & E & _ & Fc & R). exists bs, W. split; [exact E|].
  intros st rest. destruct (R st rest) as (vs & st' & ro & Er & A & I & _). exists vs, st', ro. split; [exact Er|]. split; [exact A|]. destruct I as [I1 I2 I3 I4 I5]. constructor; try assumption.
  intros a a' Ia. destruct (I3 a a' Ia) as (t & x & x' & H1 & H2 & H3 & H4). exists t, x, x'. split; [|auto]. destruct (Fc _ _ H1) as (c & Hc & Q). exact (HE c Hc _ _ Q).
Qed.
Print Assumptions C80_not_modified.
(** C80: data written by a serializer which has not been used before can be read by any deserializer, whatever it has read before; nothing is shared with what has been read before *)
Theorem C80_used_deserializer : forall G H ex wv rv t old v, alloc_ok G -> place_ok G -> heap_good G H -> good G H ex wv rv t old v ->
  exists F, forall fuel, (F <= fuel)%nat -> exists bs W,
    write G H fuel wv t v [] = ROk (bs, W)
    /\ forall st rest, exists v' st' ro,
         read G fuel rv t old (bs ++ rest) st = ROk (v', rest, st') /\ same_value G ro t v v' /\ (ex = true -> v' = v) /\ graph_iso G H (r_heap st) (r_heap st') ro.
Proof.
  intros G H ex wv rv t old v HA HP HH Hg. destruct (C80_not_modified G [mkcall H ex wv rv t old v] H HA HP) as [F HF].
  { intros c [<-|[]]. split; assumption. }
  { intros c [<-|[]] a x E. exact E. }
  exists F. intros fuel Hf. destruct (HF fuel Hf) as (bs & W & E & R). apply wa_cons in E. destruct E as (b1 & W1 & b2 & E1 & E2 & ->). injection E2 as <- <-. cbn [cl_heap cl_wv cl_ty cl_val] in E1.
  exists b1, W1. split; [exact E1|]. intros st rest. destruct (R st rest) as (vs & st' & ro & Er & A & I). rewrite app_nil_r in Er. unfold read_all in Er. cbn [map read_values cl_rv cl_ty cl_old] in Er.
  destruct (read G fuel rv t old (b1 ++ rest) st) as [[[v' r] st1]| | | |] eqn:E; try discriminate Er. cbn in Er. injection Er as <- -> ->. inversion A as [|? ? ? ? [Q1 Q2] _]; subst.
  exists v', st', ro. auto.
Qed.
Print Assumptions C80_used_deserializer.
