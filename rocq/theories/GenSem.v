(** GenSem.v -- what the generated statements do when executed, and the class programs of Types.v
    they amount to. *)
From Coq Require Import String List NArith ZArith Bool Lia.
From Verif Require Import Base Bytes Types BinModel GenModel.
Import ListNotations.
Local Open Scope N_scope.

(** Execution of a generated function body (C++ semantics of the text in GenModel.v): [version] is
    a mutable parameter, if-blocks are executed when their condition holds.  [stk] has the values
    of the conditions of the open blocks.  The three callbacks are the calls made by [LBase],
    [LVersion] (which may assign [version]) and [LMember].  A body in which blocks are not properly
    nested, or with an empty condition, does not compile ([RStuck]). *)
Section Exec.
  Context {S : Type}.
  Variables (on_base : bytes -> N -> S -> res S) (on_version : bytes -> N -> S -> res (N * S))
            (on_member : bytes -> ty -> N -> S -> res S).

  Definition active (stk : list bool) : bool := forallb id stk.

  (** condition as printed by [wtext] for [LIf] *)
  Definition condition (a u ver : N) : bool :=
    (if a =? 0 then true else a <=? ver) && (if u =? 0 then true else ver <=? u).

  Fixpoint exec (ls : list bline) (stk : list bool) (ver : N) (s : S) : res (N * S) :=
    match ls with
    | [] => match stk with [] => ROk (ver, s) | _ => RStuck end
    | l :: ls' =>
        match l with
        | LNote _ | LPad | LVoid | LReturn => exec ls' stk ver s
        | LIf a u => if (a =? 0) && (u =? 0) then RStuck else exec ls' (condition a u ver :: stk) ver s
        | LEndIf => match stk with [] => RStuck | _ :: stk' => exec ls' stk' ver s end
        | LBase q => if active stk then let! s' := on_base q ver s in exec ls' stk ver s' else exec ls' stk ver s
        | LVersion b => if active stk then let! (ver', s') := on_version b ver s in exec ls' stk ver' s' else exec ls' stk ver s
        | LMember n t => if active stk then let! s' := on_member n t ver s in exec ls' stk ver s' else exec ls' stk ver s
        end
    end.
End Exec.

(** What a call of a generated function does, in order, as a list of events: the base classes and
    members accessed, each with the value [version] has at that point, and the version block.
    [eff] is the value [version] gets there (writer: the default applied; reader: the version
    found in the data). *)
Inductive event := EvBase (q : bytes) (ver : N) | EvVersion (b : bytes) (ver : N) | EvMember (n : bytes) (ver : N).
Definition trace (eff : N -> N) (ls : list bline) (ver : N) : res (N * list event) :=
  let! (v, evs) := exec (fun q v l => ROk (EvBase q v :: l)) (fun b v l => ROk (eff v, EvVersion b (eff v) :: l))
       (fun n _ v l => ROk (EvMember n v :: l)) ls [] ver [] in
  ROk (v, rev evs).

(** Members with their version bounds, without the text: the class program the declarations
    amount to.  [a]/[u] are the current bounds. *)
Definition bounds (n : bytes) (l : option N) (a u : N) : N * N :=
  match l with
  | None => (a, u)
  | Some v =>
      if starts_with (bs "rrjAsOfVersion") n then (v, if u <? v then 0 else u)
      else if starts_with (bs "rrjUntilVersion") n then (if v <? a then 0 else a, v)
      else (a, u)
  end.

Fixpoint members (priv : bool) (c : N) (ds : list mdecl) (a u : N) : list bfield :=
  match ds with
  | [] => []
  | MVar n l :: ds' => let (a', u') := bounds n l a u in members priv c ds' a' u'
  | MOther :: ds' => members priv c ds' a u
  | MField n acc const t :: ds' =>
      if negb const && (priv || is_public acc)
      then {| bf_asof := a; bf_until := u; bf_key := (c, n); bf_ty := t |} :: members priv c ds' a u
      else members priv c ds' a u
  end.

(** [Versioning<relevantBase>::maxSupported], 0 if not versioned (lib/versioning.h:34-42) *)
Definition class_version (k : rclass) : N := match k_base k with Some b => cb_version b | None => 0 end.

(** class programs of the functions generated for [k] *)
Definition writer_prog (rbs : list rclass) (k : rclass) : bprog :=
  let c := cr_id (k_rec k) in
  {| bp_bases := map (fun b => cr_id (k_rec b)) rbs; bp_vmax := class_version k;
     bp_fields := members (befriends (k_rec k) fn_write) c (cr_decls (k_rec k)) 0 0; bp_ret0 := false |}.
Definition reader_prog (rbs : list rclass) (k : rclass) : option bprog :=
  let c := cr_id (k_rec k) in
  if cr_defctor (k_rec k) then
    Some {| bp_bases := map (fun b => cr_id (k_rec b)) rbs; bp_vmax := class_version k;
            bp_fields := members (befriends (k_rec k) fn_read) c (cr_decls (k_rec k)) 0 0; bp_ret0 := false |}
  else None.

(** JSON class programs *)
Definition jmembers (c : N) (ls : list jline) : list jfield :=
  flat_map (fun l => match l with JMember n t => [{| jf_name := n; jf_key := (c, n); jf_ty := t |}] | _ => [] end) ls.
Definition push_prog (rbs : list rclass) (k : rclass) : jprog :=
  {| jp_bases := map (fun b => cr_id (k_rec b)) rbs; jp_record := Some (qname k); jp_fields := jmembers (cr_id (k_rec k)) (push_lines rbs k) |}.
Definition pull_prog (rbs : list rclass) (k : rclass) : option jprog :=
  if cr_defctor (k_rec k) then
    Some {| jp_bases := map (fun b => cr_id (k_rec b)) rbs; jp_record := Some (qname k); jp_fields := jmembers (cr_id (k_rec k)) (pull_lines rbs k) |}
  else None.

(* ------------------------------------------------------------------ *)
(** * Running the generated statements with the library's functions *)

(** [serializer.write(static_cast<const ::q &>(customObject), version)] etc. with the model's
    write functions; [resolve] is C++ name lookup. *)
Definition run_writer (G : genv) (H : heap) (f : nat) (resolve : bytes -> option N) (c vmax : N) (fs : list (fkey * val))
    (ls : list bline) (ver : N) (W : list N) : res (bytes * list N) :=
  let! (_, (out, W')) := exec (S := bytes * list N)
    (fun q ver '(out, W) => match resolve q with
       | Some b => let! (o, W') := write_cls G H f ver b fs W in ROk (out ++ o, W')
       | None => RStuck end)
    (fun _ ver '(out, W) =>
       if vmax =? 0 then ROk (ver, (out, W))
       else let ver' := if ver =? 0 then vmax else ver in
            let! o := wr_varint ver' in ROk (ver', (out ++ o, W)))
    (fun n t ver '(out, W) => match alookup fkey_eqb (c, n) fs with
       | Some v => let! (o, W') := write G H f ver t v W in ROk (out ++ o, W')
       | None => RStuck end)
    ls [] ver ([], W) in
  ROk (out, W').

Definition run_reader (G : genv) (f : nat) (resolve : bytes -> option N) (c vmax : N) (name : bytes)
    (ls : list bline) (ver : N) (os : list (fkey * val)) (s : bytes) (st : rstate)
  : res (list (fkey * val) * N * bytes * rstate) :=
  let! (ver', (os', s', st')) := exec (S := list (fkey * val) * bytes * rstate)
    (fun q ver '(os, s, st) => match resolve q with
       | Some b => let! (os', _, s', st') := read_cls G f ver b os s st in ROk (os', s', st')
       | None => RStuck end)
    (fun _ ver '(os, s, st) =>
       if vmax =? 0 then ROk (ver, (os, s, st))
       else let! (v, s') := rd_varint s in
            if v <=? vmax then ROk (v, (os, s', st)) else RThrow (ExVersion v vmax name))
    (fun n t ver '(os, s, st) => match alookup fkey_eqb (c, n) os with
       | Some o => let! (x, s', st') := read G f ver t o s st in ROk (aupdate fkey_eqb (c, n) x os, s', st')
       | None => RStuck end)
    ls [] ver (os, s, st) in
  ROk (os', ver', s', st').

(** [rc] has the functions which the binary generator generates for [k] in the run [o] on [ds] *)
Record generated_binary (o : gopts) (ds : list decl) (k : rclass) (rc : rtclass) : Prop := {
  gb_name : rc_name rc = qname k;
  gb_wr : rc_wr rc = writer_prog (find_bases ds (relevant_classes o ds) k) k;
  gb_rd : rc_rd rc = reader_prog (find_bases ds (relevant_classes o ds) k) k }.
