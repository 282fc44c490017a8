(** HanaSpec.v -- a program using the code generator and the same program using Boost.Hana instead for
    some (or all) of its classes.  Nothing here is used by the model itself. *)
From Coq Require Import List NArith ZArith Bool.
From Verif Require Import Base Types BinModel JsonModel JsonSpec.
Import ListNotations.
Local Open Scope N_scope.

(** the functions of lib/json/reflector-boosthana.h:31-46 for a class adapted with the members [L]
    (BOOST_HANA_ADAPT_STRUCT): one push/pull per member, no base classes, no record name for errors *)
Definition hana_json (L : list jfield) : jprog := {| jp_bases := []; jp_record := None; jp_fields := L |}.

(** the functions of lib/binary/reflector-boosthana.h:27-38: one write/read per member, no base classes,
    no version, and the reader returns 0 *)
Definition hana_binary (L : list bfield) : bprog := {| bp_bases := []; bp_vmax := 0; bp_fields := L; bp_ret0 := true |}.

(** [unversioned G prog c L]: the generated writer ([rc_wr]) or reader of class [c] and of all its base classes
    stores no version and has no version conditions; [L] lists the members it accesses, those of
    the base classes first *)
Inductive unversioned (G : genv) (prog : rtclass -> option bprog) : N -> list bfield -> Prop :=
| unversioned_intro c rc p Ls :
    g_class G c = Some rc -> prog rc = Some p -> bp_vmax p = 0 ->
    (forall fd, In fd (bp_fields p) -> bf_asof fd = 0 /\ bf_until fd = 0) ->
    Forall2 (unversioned G prog) (bp_bases p) Ls ->
    unversioned G prog c (concat Ls ++ bp_fields p).
Definition written_by (rc : rtclass) : option bprog := Some (rc_wr rc).

(** [adapted G c rc rc']: [rc'] is class [c] ([rc] in the program [G]) with some of the generated functions
    replaced by the Boost.Hana ones for the same members (all members including inherited ones, in
    the same order).  Everything else about the class is the same. *)
Record adapted (G : genv) (c : N) (rc rc' : rtclass) : Prop := {
  ad_name : rc_name rc' = rc_name rc;
  ad_layout : rc_layout rc' = rc_layout rc;
  ad_dinit : rc_dinit rc' = rc_dinit rc;
  ad_vinit : rc_vinit rc' = rc_vinit rc;
  ad_push : rc_push rc' = rc_push rc \/ exists L, members G pushed_by c L /\ rc_push rc' = hana_json L;
  ad_pull : rc_pull rc' = rc_pull rc \/ exists L, members G rc_pull c L /\ rc_pull rc' = Some (hana_json L);
  ad_wr : rc_wr rc' = rc_wr rc \/ exists L, unversioned G written_by c L /\ rc_wr rc' = hana_binary L;
  ad_rd : rc_rd rc' = rc_rd rc \/ exists L, unversioned G rc_rd c L /\ rc_rd rc' = Some (hana_binary L) }.

(** the program [G] with other code for its classes *)
Definition with_classes (G : genv) (cls : N -> option rtclass) : genv :=
  {| g_class := cls; g_lt := g_lt G; g_eq := g_eq G; g_place := g_place G; g_alloc := g_alloc G |}.

(** [with_hana G cls]: [with_classes G cls] is the program [G] with Boost.Hana used for some classes *)
Definition with_hana (G : genv) (cls : N -> option rtclass) : Prop :=
  forall c, match g_class G c, cls c with
            | None, None => True
            | Some rc, Some rc' => adapted G c rc rc'
            | _, _ => False
            end.

(** a program has finitely many classes *)
Definition finitely_many_classes (G : genv) : Prop := exists cs, forall c, g_class G c <> None -> In c cs.

(** Outcomes of deserialising which are the same apart from the record name of the errors: the same values,
    the same objects owned by shared pointers, the same errors (kind, types, member, index) in the
    same order, the same exception. *)
Definition same_error (x y : jerror) : Prop :=
  e_kind x = e_kind y /\ e_expected x = e_expected y /\ e_actual x = e_actual y /\ e_member x = e_member y /\ e_index x = e_index y.
Definition same_errors (e e' : option est) : Prop :=
  match e, e' with
  | None, None => True
  | Some a, Some b =>
      Forall2 same_error (es_errs a) (es_errs b) /\ es_member a = es_member b /\ es_index a = es_index b /\ es_throw a = es_throw b
  | _, _ => False
  end.
Definition same_pst (s s' : pst) : Prop := p_heap s = p_heap s' /\ same_errors (p_err s) (p_err s').
Definition same_out {A} (o o' : out A) : Prop :=
  match o, o' with
  | POk a s, POk b s' => a = b /\ same_pst s s'
  | PThrow x s, PThrow y s' => same_error x y /\ same_pst s s'
  | PUB, PUB | PFuel, PFuel | PStuck, PStuck => True
  | _, _ => False
  end.

(** what readCustomType did, apart from the version it returns *)
Definition but_version {A B C D} (r : res (A * B * C * D)) : res (A * C * D) :=
  let! (a, _, c, d) := r in ROk (a, c, d).
