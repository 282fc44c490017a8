(** PropertiesFull.v -- C76: from declarations via the generated text to restored objects.

    The vocabulary is in FullSpec.v: [binary_program] and [json_program] say that the generator was run on the declarations, that its
    output, read as C++ code (CxxText.v), is part of the program.  The statements are about declarations, members and
    values only. *)
From Coq Require Import String List NArith ZArith Bool Lia.
From Verif Require Import Base Bytes Types TypesFacts BinModel BinSpec BinRoundTrip GenModel GenSem GenSpec Float JsonModel JsonRel JsonErr JsonSpec JsonGen JsonText JsonTextSpec JsonTextFacts CxxText CxxTop FullSpec FullFacts FullJson.
Import ListNotations.
Local Open Scope list_scope.
Local Open Scope N_scope.

(** C76: the functions which the generator writes for a class serialize an object of it to bytes from which they restore the object:
    each member (also those of base classes, directly or indirectly; the members of base classes of base classes are accessed more than once) which belongs to the version has the same value as before, everything else in the object is left alone, what follows
    in the input is not touched and the version is returned *)
Theorem C76_binary : forall o ds G resolve W R, binary_program o ds G resolve W R ->
  forall H ex ver k mtype vmax fs os,
  alloc_ok G -> place_ok G -> heap_good G H ->
  In k (relevant_classes o ds) ->
  (forall b, part_of o ds k b -> restorable b ver /\ distinct_members b) ->
  (forall b n t, revisited o ds k b -> serialized b ver n -> has_member b n t -> rereadable G (version_of b ver) (version_of b ver) t) ->
  declared_types k mtype -> version_constant vmax k ->
  (forall b n t, part_of o ds k b -> serialized b ver n -> has_member b n t -> exists old v,
     alookup fkey_eqb (cr_id (k_rec b), n) os = Some old /\ alookup fkey_eqb (cr_id (k_rec b), n) fs = Some v
     /\ good G H ex (version_of b ver) (version_of b ver) t old v) ->
  exists F, forall f, (F <= f)%nat -> exists bs Ws e,
    run_write vmax (lib_write_base G H f resolve fs) (lib_write_member G H f (cr_id (k_rec k)) mtype fs) lib_write_varint (W k) ver ([], []) = ROk (e, (bs, Ws))
    /\ forall h0 rest, exists os' h' ptrs ro,
      run_read vmax (lib_read_base G f resolve) (lib_read_member G f (cr_id (k_rec k)) mtype) lib_read_varint (R k) 0 (os, bs ++ rest, {| r_heap := h0; r_ptr := [] |})
        = ROk (version_of k ver, (os', rest, {| r_heap := h'; r_ptr := ptrs |}))
      /\ graph_iso G H h0 h' ro
      /\ (forall b n t, part_of o ds k b -> serialized b ver n -> has_member b n t -> exists v v',
            alookup fkey_eqb (cr_id (k_rec b), n) fs = Some v /\ alookup fkey_eqb (cr_id (k_rec b), n) os' = Some v' /\ same_value G ro t v v')
      /\ (forall key, (forall b n, part_of o ds k b -> serialized b ver n -> key <> (cr_id (k_rec b), n)) -> alookup fkey_eqb key os' = alookup fkey_eqb key os).
Proof. intros; eapply full_binary; eauto. Qed.
Print Assumptions C76_binary.

(** C76: the functions which the generator writes for a class push an object of it into a JSON object with exactly one member per pushed member variable (also those of base classes)
    under its name; this document survives being written as text and parsed (if its doubles do); and pulling it restores each member variable which is
    pulled, leaves everything else in the object alone and reports no error *)
Theorem C76_json : forall o ds G resolve W R, json_program o ds G resolve W R ->
  forall J H ex k mtype fs os,
  alloc_ok G -> place_ok G ->
  In k (relevant_classes o ds) -> names_apart o ds k ->
  (forall b, part_of o ds k b -> transferable b /\ distinct_members b) ->
  (forall b n t, revisited o ds k b -> pulled b n -> has_member b n t -> repullable G t) ->
  declared_types k mtype ->
  (forall b n t, part_of o ds k b -> pushed b n -> has_member b n t -> exists old v,
     (pulled b n -> alookup fkey_eqb (cr_id (k_rec b), n) os = Some old) /\ alookup fkey_eqb (cr_id (k_rec b), n) fs = Some v /\ jgood G J H ex t old v) ->
  exists F ms, forall f, (F <= f)%nat ->
    run_push_text (lib_push_base G J H f resolve fs) (lib_push_member G J H f (cr_id (k_rec k)) mtype fs) (W k) [] = ROk ms
    /\ (two_levels o ds k -> NoDup (map fst ms)) /\ (forall n, In n (map fst ms) <-> exists b, part_of o ds k b /\ pushed b n)
    /\ (forall T, dtoa_ok T -> finite (JObj ms) -> doubles (survives T) (JObj ms) -> parseJsonDocFromString T (serializeJsonDocToString T (JObj ms)) = TOk (JObj ms) [])
    /\ forall h er, exists os' h' er',
      run_pull_text (lib_pull_base G J f resolve ms) (lib_pull_member G J f (cr_id (k_rec k)) mtype ms) (R k) os {| p_heap := h; p_err := er |}
        = POk os' {| p_heap := h'; p_err := er' |}
      /\ hext h h' /\ quiet er er'
      /\ (forall b n t, part_of o ds k b -> pulled b n -> has_member b n t -> exists v v',
            alookup fkey_eqb (cr_id (k_rec b), n) fs = Some v /\ alookup fkey_eqb (cr_id (k_rec b), n) os' = Some v' /\ jsame G H h h' t v v' /\ (ex = true -> v' = v))
      /\ (forall key, (forall b n, part_of o ds k b -> pulled b n -> key <> (cr_id (k_rec b), n)) -> alookup fkey_eqb key os' = alookup fkey_eqb key os).
Proof. intros; eapply full_json; eauto. Qed.
Print Assumptions C76_json.
