(** LocalSpec.v -- vocabulary for property C79 (generated code depends on the class and its base classes, not on what else is declared); nothing here is used by the model itself. *)
From Coq Require Import String List NArith ZArith Bool Permutation.
From Verif Require Import Base Types GenModel GenSem GenSpec.
Import ListNotations.
Local Open Scope list_scope.
Local Open Scope N_scope.

(** [inserted P l l']: [l'] is [l] with further elements, for which [P] holds, at any places *)
Inductive inserted {A : Type} (P : A -> Prop) : list A -> list A -> Prop :=
| ins_end : inserted P [] []
| ins_same x l l' : inserted P l l' -> inserted P (x :: l) (x :: l')
| ins_more x l l' : P x -> inserted P l l' -> inserted P l (x :: l').
Definition anything {A : Type} (_ : A) : Prop := True.

(** a class which is neither defined in [ds] nor a base class of a class defined there *)
Definition unrelated (ds : list decl) (r : crecord) : Prop := cr_complete r = true -> forall r', In (DRecord r') ds -> cr_complete r' = true ->
  cr_id r' <> cr_id r /\ (forall b, In b (cr_bases r') -> cb_id b <> Some (cr_id r)).
(** no adaption which counts: it would have to be in the main file *)
Definition no_adaption (o : gopts) (r : crecord) : Prop := forall q, adapts o r q -> cr_file r <> o_main o.

(** a further declaration: not a class (a function, an alias, an enumeration, ...) or an unrelated class *)
Definition another (o : gopts) (ds : list decl) (d : decl) : Prop := forall r, d = DRecord r -> unrelated ds r /\ no_adaption o r.
(** ... for which, if it is a class, no code is to be generated *)
Definition unwanted (o : gopts) (ds' : list decl) (d : decl) : Prop := forall r, d = DRecord r -> ~ wanted o ds' r.
(** ... which is located in a file which is only included *)
Definition elsewhere (o : gopts) (d : decl) : Prop := forall r, d = DRecord r -> cr_file r <> o_main o.

(** the output: one section per class, in a namespace *)
Definition section (q t : bytes) : Prop := exists rest, t = bs "// define code for (de)serializing " ++ q ++ bs " objects" ++ [Byte.x0a] ++ rest.
Definition output (ns : string) (sections : list (bytes * bytes)) : bytes :=
  match sections with
  | [] => []
  | _ => bs "namespace ReflectiveRapidJSON {" ++ [Byte.x0a] ++ bs "namespace " ++ bs ns ++ bs " {" ++ [Byte.x0a] ++ [Byte.x0a]
         ++ concat (map snd sections)
         ++ bs "} // namespace " ++ bs ns ++ [Byte.x0a] ++ bs "} // namespace ReflectiveRapidJSON" ++ [Byte.x0a]
  end.

(** declarations within a class which do not matter to binary (de)serialisation: methods, friends, nested types, ..., static member variables
    which are no version markers, and const members; to JSON (de)serialisation: everything but (non-static) member variables *)
Definition silent_binary (d : mdecl) : Prop :=
  d = MOther \/ (exists n, d = MVar n None)
  \/ (exists n l, d = MVar n l /\ (forall s, n <> bs "rrjAsOfVersion" ++ s) /\ (forall s, n <> bs "rrjUntilVersion" ++ s))
  \/ (exists n acc t, d = MField n acc true t).
Definition silent_json (d : mdecl) : Prop := d = MOther \/ exists n l, d = MVar n l.

(** The same class with further declarations of this kind and with its base classes listed in another order (only one of which may be an
    instantiation of the template).  *)
Definition extended_class (o : gopts) (P : mdecl -> Prop) (r r' : crecord) : Prop :=
  cr_id r' = cr_id r /\ cr_qname r' = cr_qname r /\ cr_hasdef r' = cr_hasdef r /\ cr_complete r' = cr_complete r /\ cr_file r' = cr_file r /\ cr_spec r' = cr_spec r
  /\ cr_friends r' = cr_friends r /\ cr_defctor r' = cr_defctor r
  /\ inserted P (cr_decls r) (cr_decls r')
  /\ Permutation (cr_bases r) (cr_bases r')
  /\ (forall b b', In b (cr_bases r) -> In b' (cr_bases r) -> cb_id b <> None -> cb_id b' <> None -> cb_qname b = o_template o -> cb_qname b' = o_template o -> b = b').
Definition extended (o : gopts) (P : mdecl -> Prop) (ds ds' : list decl) : Prop := Forall2 (fun d d' => match d, d' with
  | DRecord r, DRecord r' => extended_class o P r r'
  | DOther, DOther => True
  | _, _ => False
  end) ds ds'.
