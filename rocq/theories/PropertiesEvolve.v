(** PropertiesEvolve.v -- C54: data written by one program is read by another one in which the classes have
    changed.  [across], [alike], [evolves]: EvolveSpec.v; the other terms: BinSpec.v and GenSpec.v. *)
From Coq Require Import String List NArith ZArith Bool Lia.
From Verif Require Import Base Bytes Types TypesFacts BinModel BinSpec BinFacts GenModel GenSem GenSpec EvolveSpec EvolveTop EvolveGen.
Import ListNotations.
Local Open Scope N_scope.

(** C54: a value [v0] the program [Gw] writes is restored by the program [Gr] as a value which is equal to [v], a
    value which has the same content as [v0] as far as it is written; everything which is not written
    has the value it had before ([good] says so of the members [v] has but which are not written) *)
Theorem C54_value_of_other_program : forall Gw Gr H0 H ex wv rv t old v0 v,
  alloc_ok Gr -> place_ok Gr -> heap_good (across Gw Gr) H -> heap_alike Gw H0 H ->
  good (across Gw Gr) H ex wv rv t old v -> alike Gw wv t v0 v ->
  exists F, forall fuel, (F <= fuel)%nat -> exists bs W,
    write Gw H0 fuel wv t v0 [] = ROk (bs, W)
    /\ forall h0 rest, exists v' h' ptrs ro,
         read Gr fuel rv t old (bs ++ rest) {| r_heap := h0; r_ptr := [] |}
           = ROk (v', rest, {| r_heap := h'; r_ptr := ptrs |})
         /\ same_value Gr ro t v v' /\ graph_iso Gr H h0 h' ro.
Proof. exact evolve_value. Qed.
Print Assumptions C54_value_of_other_program.

(** C54: toBinary of one program and restoreFromBinary of the other one, where the classes may have
    different members: the members [L] both access for the version are restored, the others are left alone *)
Theorem C54_object_of_other_program : forall Gw Gr H0 H ex ver c L fs0 os,
  alloc_ok Gr -> place_ok Gr -> heap_good (across Gw Gr) H -> heap_alike Gw H0 H ->
  visits (across Gw Gr) ver 0 c L -> repeatable (across Gw Gr) L ->
  (forall x, In x L -> exists o v0 v, alookup fkey_eqb (vi_key x) os = Some o /\ alookup fkey_eqb (vi_key x) fs0 = Some v0
      /\ alike Gw (vi_w x) (vi_ty x) v0 v /\ good (across Gw Gr) H ex (vi_w x) (vi_r x) (vi_ty x) o v) ->
  exists F, forall fuel, (F <= fuel)%nat -> exists bs,
    toBinary Gw H0 fuel c fs0 ver = ROk bs
    /\ forall h0 rest, exists os' h' ptrs ro,
         restoreFromBinary Gr fuel c os (bs ++ rest) h0
           = ROk (os', restored_version (across Gw Gr) ver 0 c, rest, {| r_heap := h'; r_ptr := ptrs |})
         /\ graph_iso Gr H h0 h' ro
         /\ (forall x, In x L -> exists v0 v v', alookup fkey_eqb (vi_key x) fs0 = Some v0 /\ alike Gw (vi_w x) (vi_ty x) v0 v
               /\ alookup fkey_eqb (vi_key x) os' = Some v' /\ same_value Gr ro (vi_ty x) v v')
         /\ (forall k, ~ In k (map vi_key L) -> alookup fkey_eqb k os' = alookup fkey_eqb k os).
Proof. exact evolve_class. Qed.
Print Assumptions C54_object_of_other_program.

(** C54: adding members behind [as_of_version] of a later version, and ending members with [until_version]
    of a version which is not earlier, does not change what belongs to the versions up to [n] *)
Theorem C54_previous_versions_kept : forall n old new, evolves n old new -> forall ver, ver <= n -> forall friend names,
  selected friend ver [] new names <-> selected friend ver [] old names.
Proof. exact evolves_selects. Qed.
Print Assumptions C54_previous_versions_kept.

(** C54: hence the code generated for the class before ([kw], in program [Gw]) and after ([kr], in program [Gr])
    such changes meets what the second theorem requires: [L] are the members of the bases and the selected members *)
Theorem C54_generated_code_compatible : forall Gw Gr ow dw ork dr kw kr rcw rcr ver Ls,
  g_class Gw (cr_id (k_rec kw)) = Some rcw -> generated_binary ow dw kw rcw ->
  g_class Gr (cr_id (k_rec kr)) = Some rcr -> generated_binary ork dr kr rcr ->
  cr_id (k_rec kw) = cr_id (k_rec kr) -> cr_defctor (k_rec kr) = true ->
  befriends (k_rec kw) fn_write = befriends (k_rec kr) fn_read ->
  map (fun b => cr_id (k_rec b)) (find_bases dw (relevant_classes ow dw) kw)
    = map (fun b => cr_id (k_rec b)) (find_bases dr (relevant_classes ork dr) kr) ->
  Forall2 (visits (across Gw Gr) ver 0) (map (fun b => cr_id (k_rec b)) (find_bases dw (relevant_classes ow dw) kw)) Ls ->
  class_version kw <> 0 -> class_version kw < 2 ^ 56 ->
  class_version kw <= class_version kr -> ver <= class_version kw ->
  evolves (class_version kw) (cr_decls (k_rec kw)) (cr_decls (k_rec kr)) ->
  exists own, visits (across Gw Gr) ver 0 (cr_id (k_rec kr)) (concat Ls ++ own)
    /\ selected (befriends (k_rec kw) fn_write) (if ver =? 0 then class_version kw else ver) [] (cr_decls (k_rec kw))
         (map (fun x => snd (vi_key x)) own)
    /\ (forall x, In x own -> fst (vi_key x) = cr_id (k_rec kw)).
Proof.
  intros Gw Gr ow dw ork dr kw kr rcw rcr ver Ls Hw GW Hr GR Eid D F Eb HB Vw V56 Vle Hv Ev.
  destruct (generated_evolves Gw Gr ow dw ork dr kw kr rcw rcr ver Ls Hw GW Hr GR Eid D F Eb HB Vw
    (if ver =? 0 then class_version kw else ver) eq_refl) as (own & V & S & Q).
  - destruct (ver =? 0); lia.
  - destruct (ver =? 0); lia.
  - lia.
  - intros priv c. apply (evolves_members _ _ _ Ev). destruct (ver =? 0); lia.
  - exists own. split; [exact V|]. split; [exact S|]. intros x Hx. apply (Q x Hx).
Qed.
Print Assumptions C54_generated_code_compatible.

(** C54: the other direction: the newer program ([kw]) can write data for the older one ([kr]) by specifying a
    version the older one knows *)
Theorem C54_written_for_older_program : forall Gw Gr ow dw ork dr kw kr rcw rcr ver Ls,
  g_class Gw (cr_id (k_rec kw)) = Some rcw -> generated_binary ow dw kw rcw ->
  g_class Gr (cr_id (k_rec kr)) = Some rcr -> generated_binary ork dr kr rcr ->
  cr_id (k_rec kw) = cr_id (k_rec kr) -> cr_defctor (k_rec kr) = true ->
  befriends (k_rec kw) fn_write = befriends (k_rec kr) fn_read ->
  map (fun b => cr_id (k_rec b)) (find_bases dw (relevant_classes ow dw) kw)
    = map (fun b => cr_id (k_rec b)) (find_bases dr (relevant_classes ork dr) kr) ->
  Forall2 (visits (across Gw Gr) ver 0) (map (fun b => cr_id (k_rec b)) (find_bases dw (relevant_classes ow dw) kw)) Ls ->
  class_version kw <> 0 -> class_version kr < 2 ^ 56 -> ver <> 0 -> ver <= class_version kr ->
  evolves (class_version kr) (cr_decls (k_rec kr)) (cr_decls (k_rec kw)) ->
  exists own, visits (across Gw Gr) ver 0 (cr_id (k_rec kr)) (concat Ls ++ own)
    /\ selected (befriends (k_rec kr) fn_read) ver [] (cr_decls (k_rec kr)) (map (fun x => snd (vi_key x)) own)
    /\ (forall x, In x own -> fst (vi_key x) = cr_id (k_rec kr)).
Proof.
  intros Gw Gr ow dw ork dr kw kr rcw rcr ver Ls Hw GW Hr GR Eid D F Eb HB Vw V56 Hv0 Hv Ev.
  destruct (generated_evolves Gw Gr ow dw ork dr kw kr rcw rcr ver Ls Hw GW Hr GR Eid D F Eb HB Vw ver) as (own & V & S & Q).
  - apply N.eqb_neq in Hv0. rewrite Hv0. reflexivity.
  - exact Hv.
  - lia.
  - lia.
  - intros priv c. symmetry. apply (evolves_members _ _ _ Ev). exact Hv.
  - exists own. split; [exact V|]. split.
    + rewrite <- F. apply (evolves_selects _ _ _ Ev ver Hv). exact S.
    + intros x Hx. rewrite <- Eid. apply (Q x Hx).
Qed.
Print Assumptions C54_written_for_older_program.

(** C54: data of a version the reading program does not know is refused instead of being misread *)
Theorem C54_newer_refused : forall Gw Gr H0 fuel fuel' c w r p fs0 os ver bs rest h0,
  g_class Gw c = Some w -> g_class Gr c = Some r -> rc_rd r = Some p ->
  bp_bases (rc_wr w) = [] -> bp_bases p = [] -> bp_vmax (rc_wr w) <> 0 -> bp_vmax p <> 0 ->
  toBinary Gw H0 fuel c fs0 ver = ROk bs ->
  bp_vmax p < (if ver =? 0 then bp_vmax (rc_wr w) else ver) ->
  restoreFromBinary Gr (S fuel') c os (bs ++ rest) h0
    = RThrow (ExVersion (if ver =? 0 then bp_vmax (rc_wr w) else ver) (bp_vmax p) (rc_name r)).
Proof. exact newer_refused. Qed.
Print Assumptions C54_newer_refused.

(** C54: likewise if the class has base classes, which are read first: [Ls] are the members of the bases *)
Theorem C54_newer_refused_derived : forall Gw Gr H0 H ex fuel c w r p Ls fs0 os ver bs,
  alloc_ok Gr -> place_ok Gr -> heap_good (across Gw Gr) H -> heap_alike Gw H0 H ->
  g_class Gw c = Some w -> g_class Gr c = Some r -> rc_rd r = Some p ->
  bp_bases (rc_wr w) = bp_bases p -> Forall2 (visits (across Gw Gr) ver 0) (bp_bases p) Ls -> repeatable (across Gw Gr) (concat Ls) ->
  (forall x, In x (concat Ls) -> exists o v0 v, alookup fkey_eqb (vi_key x) os = Some o /\ alookup fkey_eqb (vi_key x) fs0 = Some v0
      /\ alike Gw (vi_w x) (vi_ty x) v0 v /\ good (across Gw Gr) H ex (vi_w x) (vi_r x) (vi_ty x) o v) ->
  bp_vmax (rc_wr w) <> 0 -> bp_vmax p <> 0 ->
  toBinary Gw H0 fuel c fs0 ver = ROk bs ->
  bp_vmax p < (if ver =? 0 then bp_vmax (rc_wr w) else ver) ->
  exists F, forall fuel', (F <= fuel')%nat -> forall rest h0, restoreFromBinary Gr fuel' c os (bs ++ rest) h0
    = RThrow (ExVersion (if ver =? 0 then bp_vmax (rc_wr w) else ver) (bp_vmax p) (rc_name r)).
Proof. exact newer_refused_derived. Qed.
Print Assumptions C54_newer_refused_derived.
