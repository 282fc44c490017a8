(** FullSpec.v -- vocabulary for the whole way from declarations to restored objects (property C76): the generator reads declarations, its output is compiled, the compiled
    functions serialize and deserialize objects.  Nothing here is used by the model itself. *)
From Coq Require Import String List NArith ZArith Bool.
From Verif Require Import Base Types BinModel GenModel GenSem GenSpec JsonModel JsonGen CxxText.
Import ListNotations.
Local Open Scope N_scope.

(** The generator, run with the options [o] on the declarations [ds], wrote the text; [W k] and [R k] are the bodies of the functions in it for class [k]
    (read as C++ code, CxxText.v); they are part of the program the classes of which are described by [G]; [resolve] is name lookup. *)
Record binary_program (o : gopts) (ds : list decl) (G : genv) (resolve : bytes -> option N) (W R : rclass -> list node) : Prop := {
  bpr_names : proper_names o ds;
  bpr_defined : one_definition ds;
  bpr_bases : wf_bases ds;
  bpr_once : NoDup (map (fun k => cr_id (k_rec k)) (relevant_classes o ds));
  bpr_file : file "BinaryReflector" (generate_binary o ds) = Some (file_functions FWrite FRead (relevant_classes o ds) W R);
  bpr_resolve : forall k, In k (relevant_classes o ds) -> resolve (qname k) = Some (cr_id (k_rec k));
  bpr_code : forall k, In k (relevant_classes o ds) -> exists rc, g_class G (cr_id (k_rec k)) = Some rc /\ generated_binary o ds k rc }.
Record json_program (o : gopts) (ds : list decl) (G : genv) (resolve : bytes -> option N) (W R : rclass -> list node) : Prop := {
  jpr_names : proper_names o ds;
  jpr_defined : one_definition ds;
  jpr_bases : wf_bases ds;
  jpr_once : NoDup (map (fun k => cr_id (k_rec k)) (relevant_classes o ds));
  jpr_file : file "JsonReflector" (generate_json o ds) = Some (file_functions FPush FPull (relevant_classes o ds) W R);
  jpr_resolve : forall k, In k (relevant_classes o ds) -> resolve (qname k) = Some (cr_id (k_rec k));
  jpr_code : forall k, In k (relevant_classes o ds) -> exists rc, g_class G (cr_id (k_rec k)) = Some rc /\ generated_json o ds k rc }.

(** class [k] itself or a (direct or indirect) base class code is generated for, too *)
Definition part_of (o : gopts) (ds : list decl) (k b : rclass) : Prop :=
  b = k \/ (In b (relevant_classes o ds) /\ cr_id (k_rec k) <> cr_id (k_rec b) /\ derives ds (cr_id (k_rec k)) (cr_id (k_rec b))).
(** the base classes of [k] code is generated for have no such base classes themselves *)
Definition two_levels (o : gopts) (ds : list decl) (k : rclass) : Prop := forall b c, part_of o ds k b -> b <> k -> part_of o ds b c -> c = b.

(** the generated code for [k] accesses the members of [b] more than once: [b] is a base class of one of the base classes of [k] (see C39) *)
Definition revisited (o : gopts) (ds : list decl) (k b : rclass) : Prop := exists c, part_of o ds k c /\ c <> k /\ part_of o ds c b /\ b <> c.

(** the class declares a member variable, each name once *)
Definition has_member (b : rclass) (n : bytes) (t : ty) : Prop := exists acc const, In (MField n acc const t) (cr_decls (k_rec b)).
Definition member_names (ds : list mdecl) : list bytes := flat_map (fun d => match d with MField n _ _ _ => [n] | _ => [] end) ds.
Definition distinct_members (b : rclass) : Prop := NoDup (member_names (cr_decls (k_rec b))).

(** the version class [b] is written with if [ver] is passed to toBinary *)
Definition version_of (b : rclass) (ver : N) : N := if class_version b =? 0 then ver else if ver =? 0 then class_version b else ver.
(** the member [n] declared in class [b] is serialized if [ver] is passed to toBinary *)
Definition serialized (b : rclass) (ver : N) (n : bytes) : Prop :=
  exists names, selected (befriends (k_rec b) fn_write) (version_of b ver) [] (cr_decls (k_rec b)) names /\ In n names.

(** classes which can be read back: default-constructible, the reader may access what the writer may access, and [ver] is a version the class has *)
Definition restorable (b : rclass) (ver : N) : Prop :=
  cr_defctor (k_rec b) = true /\ befriends (k_rec b) fn_write = befriends (k_rec b) fn_read
  /\ (class_version b = 0 -> ver = 0) /\ (class_version b <> 0 -> ver <= class_version b /\ class_version b < 2 ^ 56).

(** the member [n] declared in class [b] is pushed (const ones included) and pulled *)
Definition pushed (b : rclass) (n : bytes) : Prop := exists d, In d (cr_decls (k_rec b)) /\ pushable (befriends (k_rec b) fn_push) d n.
Definition pulled (b : rclass) (n : bytes) : Prop := exists d, In d (cr_decls (k_rec b)) /\ accessible (befriends (k_rec b) fn_pull) d n.
(** classes which can be pulled: default-constructible, and private members are pushed if they are pulled *)
Definition transferable (b : rclass) : Prop :=
  cr_defctor (k_rec b) = true /\ (befriends (k_rec b) fn_pull = true -> befriends (k_rec b) fn_push = true).
(** no two classes of the hierarchy of [k] have a pushed member of the same name *)
Definition names_apart (o : gopts) (ds : list decl) (k : rclass) : Prop :=
  forall b b' n, part_of o ds k b -> part_of o ds k b' -> pushed b n -> pushed b' n -> b = b'.
