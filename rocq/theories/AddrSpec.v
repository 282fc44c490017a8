(** AddrSpec.v -- vocabulary for the statements that results do not depend on the addresses of objects (property C68).
    Nothing here is used by the model itself. *)
From Coq Require Import List NArith ZArith Bool.
From Verif Require Import Base Types BinModel JsonModel SerSpec.
Import ListNotations.

(** which object of one run corresponds to which object of another run, by their addresses *)
Definition renaming := N -> N -> Prop.
Definition one_to_one (ro : renaming) : Prop := forall a b a' b', ro a b -> ro a' b' -> (a = a' <-> b = b').
Definition extends (ro ro2 : renaming) : Prop := forall a b, ro a b -> ro2 a b.

(** [alike ro v v']: the values are the same except that shared pointers refer to corresponding objects *)
Inductive alike (ro : renaming) : val -> val -> Prop :=
| al_undef : alike ro VUndef VUndef
| al_bool b : alike ro (VBool b) (VBool b)
| al_int z : alike ro (VInt z) (VInt z)
| al_f32 n : alike ro (VF32 n) (VF32 n)
| al_f64 n : alike ro (VF64 n) (VF64 n)
| al_str s : alike ro (VStr s) (VStr s)
| al_list l l' : Forall2 (alike ro) l l' -> alike ro (VList l) (VList l')
| al_pair a b a' b' : alike ro a a' -> alike ro b b' -> alike ro (VPair a b) (VPair a' b')
| al_none : alike ro (VOpt None) (VOpt None)
| al_some x x' : alike ro x x' -> alike ro (VOpt (Some x)) (VOpt (Some x'))
| al_null : alike ro (VShared None) (VShared None)
| al_shared a a' : ro a a' -> alike ro (VShared (Some a)) (VShared (Some a'))
| al_var i x x' : alike ro x x' -> alike ro (VVar i x) (VVar i x')
| al_valueless : alike ro VValueless VValueless
| al_mono : alike ro VMono VMono
| al_obj fs fs' : Forall2 (fun x y => fst x = fst y /\ alike ro (snd x) (snd y)) fs fs' -> alike ro (VObj fs) (VObj fs').
(** the members of a class object *)
Definition alike_members (ro : renaming) (fs fs' : list (fkey * val)) : Prop := alike ro (VObj fs) (VObj fs').

(** corresponding objects exist, have the same type and are alike *)
Definition heaps_alike (ro : renaming) (h h' : heap) : Prop :=
  forall a a', ro a a' -> exists t x x', hget h a = Some (t, x) /\ hget h' a' = Some (t, x') /\ alike ro x x'.

(** after two runs which started with [h], [h'] and ended with [h2], [h2']: the objects which corresponded before still do, corresponding objects are
    alike, and every object which has been made corresponds to one the other run has made *)
Record grown (ro : renaming) (h h' : heap) (ro2 : renaming) (h2 h2' : heap) : Prop := {
  gr_extends : extends ro ro2;
  gr_one : one_to_one ro2;
  gr_alike : heaps_alike ro2 h2 h2';
  gr_left : forall a, In a (map fst h2) -> In a (map fst h) \/ exists b, ro2 a b;
  gr_right : forall b, In b (map fst h2') -> In b (map fst h') \/ exists a, ro2 a b }.

(** the same program with another memory allocator *)
Definition with_alloc (G : genv) (alloc : heap -> N) : genv :=
  {| g_class := g_class G; g_lt := g_lt G; g_eq := g_eq G; g_place := g_place G; g_alloc := alloc |}.
(** an allocator returns addresses which are not in use *)
Definition allocator (alloc : heap -> N) : Prop := forall h, ~ In (alloc h) (map fst h).

(** comparing and hashing keys of type [t] does not look at addresses *)
Definition address_free (G : genv) (t : ty) : Prop :=
  forall ro, one_to_one ro ->
    (forall x x' y y', alike ro x x' -> alike ro y y' -> g_lt G t x y = g_lt G t x' y' /\ g_eq G t x y = g_eq G t x' y')
    /\ (forall l l' x x', Forall2 (alike ro) l l' -> alike ro x x' -> Forall2 (alike ro) (g_place G t l x) (g_place G t l' x')).
(** no container within the type has other keys *)
Fixpoint keys_free (G : genv) (t : ty) : Prop :=
  match t with
  | TSet _ _ t => address_free G t /\ keys_free G t
  | TMap _ _ a b => address_free G a /\ keys_free G a /\ keys_free G b
  | TSeq t | TUnique t | TOptional t | TShared t => keys_free G t
  | TPair a b => keys_free G a /\ keys_free G b
  | TTuple ts | TVariant ts => (fix all l := match l with [] => True | t :: l' => keys_free G t /\ all l' end) ts
  | _ => True
  end.
Definition read_members_free (G : genv) : Prop :=
  forall c rc p fd, g_class G c = Some rc -> rc_rd rc = Some p -> In fd (bp_fields p) -> keys_free G (bf_ty fd).
Definition pulled_members_free (G : genv) : Prop :=
  forall c rc p fd, g_class G c = Some rc -> rc_pull rc = Some p -> In fd (jp_fields p) -> keys_free G (jf_ty fd).

(** the same outcome, with results which are related *)
Definition same_outcome {A B} (R : A -> B -> Prop) (r : res A) (r' : res B) : Prop :=
  match r, r' with
  | ROk a, ROk b => R a b
  | RThrow e, RThrow e' => e = e'
  | RUB, RUB | RFuel, RFuel | RStuck, RStuck => True
  | _, _ => False
  end.
Definition same_result {A B} (R : A -> pst -> B -> pst -> Prop) (r : out A) (r' : out B) : Prop :=
  match r, r' with
  | POk a st, POk b st' => R a st b st'
  | PThrow e st, PThrow e' st' => e = e' /\ p_err st = p_err st'
  | PUB, PUB | PFuel, PFuel | PStuck, PStuck => True
  | _, _ => False
  end.

(** the reader's table of objects which can be referred to: the same IDs, the same types and corresponding objects *)
Definition tables_alike (ro : renaming) (l l' : list (N * (N * ty))) : Prop :=
  Forall2 (fun x y => fst x = fst y /\ snd (snd x) = snd (snd y) /\ ro (fst (snd x)) (fst (snd y))) l l'.

(** binary data which is the same except for the IDs of shared objects: pieces which are the same, and references (the mode byte and the ID) to
    corresponding objects *)
Inductive piece := Same (bs : bytes) | Reference (mode a a' : N).
Definition reference (mode a : N) : bytes := match wr_ptr_head mode a with ROk bs => bs | _ => [] end.
Definition left_data (p : piece) : bytes := match p with Same bs => bs | Reference m a _ => reference m a end.
Definition right_data (p : piece) : bytes := match p with Same bs => bs | Reference m _ a => reference m a end.
Definition same_but_ids (ro : renaming) (bs bs' : bytes) : Prop :=
  exists ps, bs = concat (map left_data ps) /\ bs' = concat (map right_data ps)
    /\ forall m a a', In (Reference m a a') ps -> (m = 1%N \/ m = 2%N) /\ ro a a'.

(** the members of the classes [C] are no hash containers and do not contain any; the members of a class are different *)
Definition ordered_layouts (G : genv) (C : N -> Prop) : Prop :=
  forall c rc, C c -> g_class G c = Some rc -> NoDup (map fst (rc_layout rc)) /\ forall k t, alookup fkey_eqb k (rc_layout rc) = Some t -> ordered_type C t.
