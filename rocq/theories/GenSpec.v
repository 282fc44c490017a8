(** GenSpec.v -- vocabulary for the statements about the code generator; nothing here is used by
    the model. *)
From Coq Require Import String List NArith ZArith Bool Lia.
From Verif Require Import Base Types GenModel GenSem.
Import ListNotations.
Local Open Scope N_scope.

(** [as_of_version(a)] / [until_version(u)] as seen by the generator (lib/versioning.h:11-16): a
    static member variable with a reserved name prefix *)
Definition as_of_marker (d : mdecl) (a : N) : Prop := exists suffix, d = MVar (bs "rrjAsOfVersion" ++ suffix) (Some a).
Definition until_marker (d : mdecl) (u : N) : Prop := exists suffix, d = MVar (bs "rrjUntilVersion" ++ suffix) (Some u).

(** A marker in [pre] (the declarations before a member) is in effect for the member unless a later
    marker of the same kind replaces it or a later one of the other kind contradicts it. *)
Definition as_of_in_effect (pre : list mdecl) (a : N) : Prop := exists p1 d p2,
  pre = p1 ++ d :: p2 /\ as_of_marker d a
  /\ (forall x a', In x p2 -> ~ as_of_marker x a')
  /\ (forall x u, In x p2 -> until_marker x u -> a <= u).
Definition until_in_effect (pre : list mdecl) (u : N) : Prop := exists p1 d p2,
  pre = p1 ++ d :: p2 /\ until_marker d u
  /\ (forall x u', In x p2 -> ~ until_marker x u')
  /\ (forall x a, In x p2 -> as_of_marker x a -> a <= u).

(** the version is within the bounds which are in effect ([until_version(0)] is no bound) *)
Definition version_selects (pre : list mdecl) (ver : N) : Prop :=
  (forall a, as_of_in_effect pre a -> a <= ver) /\ (forall u, until_in_effect pre u -> u = 0 \/ ver <= u).

(** member variables a generated function may access: not const; public unless it is a friend *)
Definition accessible (friend : bool) (d : mdecl) (n : bytes) : Prop :=
  exists acc t, d = MField n acc false t /\ (friend = true \/ acc = Public).

(** [selected friend ver pre ds names]: [names] are, in declaration order, the accessible members
    among [ds] (which are preceded by [pre]) which [ver] selects *)
Inductive selected (friend : bool) (ver : N) : list mdecl -> list mdecl -> list bytes -> Prop :=
| sel_nil pre : selected friend ver pre [] []
| sel_take pre d ds n names : accessible friend d n -> version_selects pre ver ->
    selected friend ver (pre ++ [d]) ds names -> selected friend ver pre (d :: ds) (n :: names)
| sel_skip pre d ds names : (forall n, accessible friend d n -> ~ version_selects pre ver) ->
    selected friend ver (pre ++ [d]) ds names -> selected friend ver pre (d :: ds) names.

(** [r] adapts the class [q]: a specialization of the adaption template for it *)
Definition adapts (o : gopts) (r : crecord) (q : bytes) : Prop :=
  cr_hasdef r = true /\ cr_qname r = o_adaption o /\ cr_spec r = Some [TArgType (Some q)].
Definition is_adaption (o : gopts) (r : crecord) : Prop := cr_qname r = o_adaption o /\ cr_spec r <> None.

Definition adapted (o : gopts) (ds : list decl) (r : crecord) : Prop :=
  exists a, In (DRecord a) ds /\ adapts o a (cr_qname r) /\ cr_file a = o_main o.
Definition inherits (o : gopts) (r : crecord) : Prop :=
  exists b i, In b (cr_bases r) /\ cb_id b = Some i /\ cb_qname b = o_template o.

(** classes code has to be generated for *)
Definition wanted (o : gopts) (ds : list decl) (r : crecord) : Prop :=
  In (DRecord r) ds /\ cr_hasdef r = true /\ cr_complete r = true /\ ~ is_adaption o r
  /\ (adapted o ds r \/ cr_file r = o_main o /\ (inherits o r \/ In (cr_qname r) (o_classes o))).

Definition records (ds : list decl) : list crecord := flat_map (fun d => match d with DRecord r => [r] | DOther => [] end) ds.

(** one definition rule; base classes are defined before the derived class *)
Definition one_definition (ds : list decl) : Prop := forall r r',
  In (DRecord r) ds -> In (DRecord r') ds -> cr_complete r = true -> cr_complete r' = true -> cr_id r = cr_id r' -> r = r'.
Definition wf_bases (ds : list decl) : Prop := forall r b i,
  In (DRecord r) ds -> cr_complete r = true -> In b (cr_bases r) -> cb_id b = Some i -> i < cr_id r.

(** [derives ds c b]: the class [c] has the direct or indirect base [b] *)
Inductive derives (ds : list decl) : N -> N -> Prop :=
| der_direct r x b : In (DRecord r) ds -> cr_complete r = true -> In x (cr_bases r) -> cb_id x = Some b -> derives ds (cr_id r) b
| der_step r x d b : In (DRecord r) ds -> cr_complete r = true -> In x (cr_bases r) -> cb_id x = Some d ->
    derives ds d b -> derives ds (cr_id r) b.

(* ------------------------------------------------------------------ *)
(** * A lexer for brackets: code, line comments and string literals *)

Inductive lexmode := LCode | LSlash | LComment | LString.
Definition opening (b : Byte.byte) : option Byte.byte :=
  match b with Byte.x7b (* { *) => Some Byte.x7d | Byte.x28 (* ( *) => Some Byte.x29 | _ => None end.
Definition closing (b : Byte.byte) : bool := match b with Byte.x7d | Byte.x29 => true | _ => false end.

(** [stk]: the closing brackets still expected *)
Definition lex_code (stk : list Byte.byte) (b : Byte.byte) : option (lexmode * list Byte.byte) :=
  match opening b with
  | Some c => Some (LCode, c :: stk)
  | None =>
      if closing b then match stk with c :: stk' => if beqb b c then Some (LCode, stk') else None | [] => None end
      else match b with
           | Byte.x22 (* quote *) => Some (LString, stk)
           | Byte.x2f (* slash *) => Some (LSlash, stk)
           | _ => Some (LCode, stk)
           end
  end.
Definition lex (m : lexmode) (stk : list Byte.byte) (b : Byte.byte) : option (lexmode * list Byte.byte) :=
  match m with
  | LCode => lex_code stk b
  | LSlash => match b with Byte.x2f => Some (LComment, stk) | _ => lex_code stk b end
  | LComment => match b with Byte.x0a => Some (LCode, stk) | _ => Some (LComment, stk) end
  | LString => match b with Byte.x22 => Some (LCode, stk) | Byte.x0a => None | _ => Some (LString, stk) end
  end.
Fixpoint lexes (m : lexmode) (stk : list Byte.byte) (s : bytes) : option (lexmode * list Byte.byte) :=
  match s with
  | [] => Some (m, stk)
  | b :: s' => match lex m stk b with Some (m', stk') => lexes m' stk' s' | None => None end
  end.

(** every bracket is closed by its counterpart, and the text ends outside of comments and strings *)
Definition balanced (s : bytes) : Prop := lexes LCode [] s = Some (LCode, []).

(** text which does not contain brackets, quotes, slashes, backslashes or newlines (identifiers, qualified
    names, template arguments) *)
Definition plain_char (b : Byte.byte) : bool :=
  match b with Byte.x7b | Byte.x7d | Byte.x28 | Byte.x29 | Byte.x22 | Byte.x2f | Byte.x5c | Byte.x0a => false | _ => true end.
Definition plain (s : bytes) : Prop := forallb plain_char s = true.

(** all names of the declarations are plain *)
Definition plain_names (o : gopts) (ds : list decl) : Prop :=
  plain (o_visibility o)
  /\ (forall r, In (DRecord r) ds -> plain (cr_qname r))
  /\ (forall r b, In (DRecord r) ds -> In b (cr_bases r) -> plain (cb_printed b))
  /\ (forall r n a c t, In (DRecord r) ds -> In (MField n a c t) (cr_decls r) -> plain n).

(** if-blocks are not nested: each is closed before the next one begins; [inside] tells whether one is open *)
Fixpoint blocks (inside : bool) (ls : list bline) : Prop :=
  match ls with
  | [] => inside = false
  | LIf _ _ :: ls' => inside = false /\ blocks true ls'
  | LEndIf :: ls' => inside = true /\ blocks false ls'
  | _ :: ls' => blocks inside ls'
  end.
