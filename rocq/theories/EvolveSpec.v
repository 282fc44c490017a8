(** EvolveSpec.v -- vocabulary for data which is written by one program and read by another one in
    which the classes have changed (e.g. an older and a newer version of an application).  Nothing
    here is used by the model. *)
From Coq Require Import List NArith ZArith Bool Lia.
From Verif Require Import Base Types BinModel GenModel GenSpec.
Import ListNotations.
Local Open Scope N_scope.

(** A class the writing program does not have cannot be written: its code is a function which only
    calls itself. *)
Definition never (c : N) : bprog := {| bp_bases := [c]; bp_vmax := 0; bp_fields := []; bp_ret0 := false |}.

(** [across Gw Gr]: a program the classes of which are those of [Gr] (in particular the members they
    have and what is restored) but are written like [Gw] writes them *)
Definition across (Gw Gr : genv) : genv := {|
  g_class := fun c => match g_class Gr c with
    | None => None
    | Some r => Some {| rc_name := rc_name r; rc_layout := rc_layout r; rc_dinit := rc_dinit r; rc_vinit := rc_vinit r;
                        rc_wr := match g_class Gw c with Some w => rc_wr w | None => never c end;
                        rc_rd := rc_rd r; rc_push := rc_push r; rc_pull := rc_pull r |}
    end;
  g_lt := g_lt Gr; g_eq := g_eq Gr; g_place := g_place Gr; g_alloc := g_alloc Gr |}.

(** [written_as G ver c k e t]: when class [c] is written with version [ver], its member [k] of type [t]
    is written with version [e] *)
Inductive written_as (G : genv) (ver : N) : N -> fkey -> N -> ty -> Prop :=
| wa_own c rc fd e :
    g_class G c = Some rc -> In fd (bp_fields (rc_wr rc)) ->
    e = (if bp_vmax (rc_wr rc) =? 0 then ver else if ver =? 0 then bp_vmax (rc_wr rc) else ver) ->
    visible e fd = true ->
    written_as G ver c (bf_key fd) e (bf_ty fd)
| wa_base c rc b k e t :
    g_class G c = Some rc -> In b (bp_bases (rc_wr rc)) -> written_as G ver b k e t -> written_as G ver c k e t.

(** [alike G ver t v0 v]: the value [v0] of the writing program and the value [v] of the reading
    program have the same content as far as it is written with version [ver]: class objects may
    differ in the members which are not written (because the member does not exist in the other program
    or is not part of the version) *)
Inductive alike (G : genv) : N -> ty -> val -> val -> Prop :=
| al_same ver t v : alike G ver t v v
| al_seq ver t l0 l : Forall2 (alike G 0 t) l0 l -> alike G ver (TSeq t) (VList l0) (VList l)
| al_set ver ord multi t l0 l : Forall2 (alike G 0 t) l0 l -> alike G ver (TSet ord multi t) (VList l0) (VList l)
| al_map ver ord multi kt vt l0 l : Forall2 (alike G 0 (TPair kt vt)) l0 l ->
    alike G ver (TMap ord multi kt vt) (VList l0) (VList l)
| al_pair ver ta tb a0 b0 a b : alike G 0 ta a0 a -> alike G 0 tb b0 b -> alike G ver (TPair ta tb) (VPair a0 b0) (VPair a b)
| al_optional ver t x0 x : alike G 0 t x0 x -> alike G ver (TOptional t) (VOpt (Some x0)) (VOpt (Some x))
| al_unique ver t x0 x : alike G 0 t x0 x -> alike G ver (TUnique t) (VOpt (Some x0)) (VOpt (Some x))
| al_variant ver ts i t x0 x : nth_error ts i = Some t -> alike G 0 t x0 x -> alike G ver (TVariant ts) (VVar i x0) (VVar i x)
| al_struct ver c fs0 fs :
    (forall k e t v, written_as G ver c k e t -> alookup fkey_eqb k fs = Some v ->
       exists v0, alookup fkey_eqb k fs0 = Some v0 /\ alike G e t v0 v) ->
    alike G ver (TStruct c) (VObj fs0) (VObj fs).

(** the same for the objects owned by shared pointers (they are at the same addresses) *)
Definition heap_alike (G : genv) (H0 H : heap) : Prop :=
  forall a t x, hget H a = Some (t, x) -> exists x0, hget H0 a = Some (t, x0) /\ alike G 0 t x0 x.

(** declarations without version markers *)
Definition markerless (ds : list mdecl) : Prop :=
  forall x, In x ds -> (forall a, ~ as_of_marker x a) /\ (forall u, ~ until_marker x u).

(** [appended old new n]: [new] has further declarations which begin with [as_of_version(a)] for a version
    later than [n] and do not go back to [n]: all further [as_of_version] markers are later than [n], too, and
    no [until_version] marker contradicts (and hence lifts) one of them *)
Definition appended (old new : list mdecl) (n : N) : Prop := exists m a more,
  new = old ++ m :: more /\ as_of_marker m a /\ n < a
  /\ (forall x a', In x more -> as_of_marker x a' -> n < a')
  /\ (forall x u, In x more -> until_marker x u -> a <= u /\ forall y a', In y more -> as_of_marker y a' -> a' <= u).

(** [retired old new n]: [new] has additionally the marker [until_version(u)] for a version which is not
    before [n] somewhere in front of the last declarations, none of which is a marker; no other [until_version]
    is in effect there and the [as_of_version] in effect is not contradicted *)
Definition retired (old new : list mdecl) (n : N) : Prop := exists pre m u mid,
  old = pre ++ mid /\ new = pre ++ m :: mid /\ until_marker m u /\ n <= u /\ markerless mid
  /\ (forall u', until_in_effect pre u' -> u' = 0) /\ (forall a', as_of_in_effect pre a' -> a' <= u).

(** a sequence of such changes *)
Inductive evolves (n : N) : list mdecl -> list mdecl -> Prop :=
| ev_refl ds : evolves n ds ds
| ev_append ds1 ds2 ds3 : evolves n ds1 ds2 -> appended ds2 ds3 n -> evolves n ds1 ds3
| ev_retire ds1 ds2 ds3 : evolves n ds1 ds2 -> retired ds2 ds3 n -> evolves n ds1 ds3.
