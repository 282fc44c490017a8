(** BinExc.v -- what is left behind when reading throws: BinaryDeserializer::read as in BinModel.v, but with the value the
    variable read into has when the exception leaves the function.  BinModel.v discards that value; that both agree
    otherwise is proved in BinExcFacts.v. *)
From Coq Require Import List NArith ZArith Bool Lia.
From Verif Require Import Base Bytes Types BinModel.
Import ListNotations.
Local Open Scope N_scope.

(** [XOk a s st]: the call returns; [a] is the value of the variable, [s] the rest of the stream, [st] the state of the
    deserializer.  [XThrow e a st]: the call throws; the variable has the value [a] and the deserializer the state [st]. *)
Inductive xres (A : Type) : Type :=
| XOk (a : A) (s : bytes) (st : rstate)
| XThrow (e : exn) (a : A) (st : rstate)
| XUB
| XFuel
| XStuck.
Arguments XOk {A} a s st.
Arguments XThrow {A} e a st.
Arguments XUB {A}.
Arguments XFuel {A}.
Arguments XStuck {A}.

(** statements in sequence: if the first one throws, the variable [B] it works on a part [A] of has the value [w] tells *)
Definition xseq {A B} (m : xres A) (w : A -> B) (k : A -> bytes -> rstate -> xres B) : xres B :=
  match m with
  | XOk a s st => k a s st
  | XThrow e a st => XThrow e (w a) st
  | XUB => XUB
  | XFuel => XFuel
  | XStuck => XStuck
  end.

(** a function which returns what it reads instead of writing to a variable: if it throws, the variable still has its value [old] *)
Definition xprim {A B} (m : res (A * bytes)) (old : B) (st : rstate) (k : A -> bytes -> xres B) : xres B :=
  match m with
  | ROk (a, s) => k a s
  | RThrow e => XThrow e old st
  | RUB => XUB
  | RFuel => XFuel
  | RStuck => XStuck
  end.

(** std::vector::resize (likewise std::list, std::deque) *)
Definition resize (d : val) (n : N) (l : list val) : list val :=
  firstn (N.to_nat n) l ++ repeat d (N.to_nat n - length l).

(** [for (auto &element : iteratable) read(element);] (lib/binary/reflector.h:179-181) *)
Fixpoint xelements (r : val -> bytes -> rstate -> xres val) (l : list val) (s : bytes) (st : rstate) : xres (list val) :=
  match l with
  | [] => XOk [] s st
  | o :: l' =>
      xseq (r o s st) (fun x => x :: l') (fun x s1 st1 =>
      xseq (xelements r l' s1 st1) (fun xs => x :: xs) (fun xs s2 st2 =>
      XOk (x :: xs) s2 st2))
  end.

(** [for (size_t i = 0; i != size; ++i) { value; read(value); iteratable.emplace(std::move(value)); }]
    (lib/binary/reflector.h:187-191, 200-204); [r] reads the local variable [value] *)
Fixpoint xinserts (r : bytes -> rstate -> xres val) (ins : val -> list val -> list val) (n : nat) (l : list val) (s : bytes) (st : rstate)
  : xres (list val) :=
  match n with
  | O => XOk l s st
  | S m => xseq (r s st) (fun _ => l) (fun x s1 st1 => xinserts r ins m (ins x l) s1 st1)
  end.

(** base classes, then members, one after another *)
Fixpoint xiter {A : Type} (r : A -> list (fkey * val) -> bytes -> rstate -> xres (list (fkey * val))) (l : list A)
    (os : list (fkey * val)) (s : bytes) (st : rstate) : xres (list (fkey * val)) :=
  match l with
  | [] => XOk os s st
  | a :: l' => xseq (r a os s st) (fun os1 => os1) (fun os1 s1 st1 => xiter r l' os1 s1 st1)
  end.

Section Read.
  Variable G : genv.

  (** BinaryDeserializer::read (lib/binary/reflector.h:126-250), see [read_body] of BinModel.v.
      - pair 126-130: the first component may be complete already;
      - unique_ptr 132-140, optional 166-173, variant 214-239: the new object is in place before it is read;
      - shared_ptr 142-164: likewise, and [m_pointer] refers to it;
      - sequences 175-182: resized before the first element is read;
      - maps 184-192, sets 194-205: what has been inserted stays, the local variable is lost (objects it refers to may
        be referred to by [m_pointer], too);
      - scalars, strings: assigned after they have been read. *)
  Definition xread_body (r : N -> ty -> val -> bytes -> rstate -> xres val)
      (rc_ : N -> N -> list (fkey * val) -> bytes -> rstate -> xres (list (fkey * val) * N))
      (ver : N) (t : ty) (old : val) (s : bytes) (st : rstate) : xres val :=
      match t with
      | TBool => xprim (rd_byte s) old st (fun n s1 => XOk (VBool (negb (n =? 0))) s1 st)
      | TInt k | TEnum k => if bin_kind k then xprim (rd_int k s) old st (fun z s1 => XOk (VInt z) s1 st) else XStuck
      | TF32 => xprim (rd_be 4 s) old st (fun n s1 => XOk (VF32 n) s1 st)
      | TF64 => xprim (rd_be 8 s) old st (fun n s1 => XOk (VF64 n) s1 st)
      | TString => xprim (rd_string s) old st (fun x s1 => XOk (VStr x) s1 st)
      | TDateTime => xprim (rd_int KU64 s) old st (fun z s1 => XOk (VInt z) s1 st)
      | TTimeSpan => xprim (rd_int KI64 s) old st (fun z s1 => XOk (VInt z) s1 st)
      | TPair ta tb =>
          match old with
          | VPair oa ob =>
              xseq (r 0 ta oa s st) (fun a => VPair a ob) (fun a s1 st1 =>
              xseq (r 0 tb ob s1 st1) (fun b => VPair a b) (fun b s2 st2 =>
              XOk (VPair a b) s2 st2))
          | _ => XStuck
          end
      | TUnique t' | TOptional t' =>
          xprim (rd_byte s) old st (fun n s1 =>
          if n =? 0 then XOk (VOpt None) s1 st
          else xseq (r 0 t' (vinit G t') s1 st) (fun x => VOpt (Some x)) (fun x s2 st2 => XOk (VOpt (Some x)) s2 st2))
      | TShared t' =>
          xprim (rd_byte s) old st (fun mode s1 =>
          if mode =? 0 then XOk (VShared None) s1 st
          else
            xprim (if negb (N.land mode 4 =? 0) then rd_be 8 s1 else rd_varint s1) old st (fun id s2 =>
            if N.land mode 3 =? 1 then
              let a := g_alloc G (r_heap st) in
              let st1 := {| r_heap := hset (r_heap st) a (t', vinit G t');
                            r_ptr := (id, (a, t')) :: r_ptr st |} in
              let store := fun st2 x => {| r_heap := hset (r_heap st2) a (t', x); r_ptr := r_ptr st2 |} in
              match r 0 t' (vinit G t') s2 st1 with
              | XOk x s3 st2 => XOk (VShared (Some a)) s3 (store st2 x)
              | XThrow e x st2 => XThrow e (VShared (Some a)) (store st2 x)
              | XUB => XUB | XFuel => XFuel | XStuck => XStuck
              end
            else
              match alookup N.eqb id (r_ptr st) with
              | Some (a, t'') => if ty_eqb t'' t' then XOk (VShared (Some a)) s2 st else XThrow ExConv old st
              | None => XThrow ExConv old st
              end))
      | TSeq t' =>
          match old with
          | VList olds =>
              xprim (rd_varint s) old st (fun n s1 =>
              xseq (xelements (r 0 t') (resize (vinit G t') n olds) s1 st) VList (fun l s2 st2 => XOk (VList l) s2 st2))
          | _ => XStuck
          end
      | TSet ord multi t' =>
          match old with
          | VList olds =>
              xprim (rd_varint s) old st (fun n s1 =>
              xseq (xinserts (r 0 t' (dinit G t')) (fun x l => fst (emplace G false ord multi t' x l)) (N.to_nat n) olds s1 st)
                VList (fun l s2 st2 => XOk (VList l) s2 st2))
          | _ => XStuck
          end
      | TMap ord multi kt vt =>
          match old with
          | VList olds =>
              xprim (rd_varint s) old st (fun n s1 =>
              xseq (xinserts (r 0 (TPair kt vt) (VPair (vinit G kt) (vinit G vt)))
                      (fun x l => fst (emplace G true ord multi kt x l)) (N.to_nat n) olds s1 st)
                VList (fun l s2 st2 => XOk (VList l) s2 st2))
          | _ => XStuck
          end
      | TVariant ts =>
          xprim (rd_byte s) old st (fun i s1 =>
          match nth_error ts (N.to_nat i) with
          | None => XThrow ExConv old st
          | Some TMono => XOk (VVar (N.to_nat i) VMono) s1 st
          | Some t' => xseq (r 0 t' (vinit G t') s1 st) (VVar (N.to_nat i)) (fun x s2 st2 => XOk (VVar (N.to_nat i) x) s2 st2)
          end)
      | TStruct c =>
          match old with
          | VObj os => xseq (rc_ ver c os s st) (fun p => VObj (fst p)) (fun p s1 st1 => XOk (VObj (fst p)) s1 st1)
          | _ => XStuck
          end
      | TTuple _ | TMono | TView | TCStr => XStuck
      end.

  (** readCustomType (generator/binaryserializationcodegenerator.cpp:306-357); the version which comes with an exception has
      no meaning *)
  Definition xread_cls_body (r : N -> ty -> val -> bytes -> rstate -> xres val)
      (rc_ : N -> N -> list (fkey * val) -> bytes -> rstate -> xres (list (fkey * val) * N))
      (ver : N) (c : N) (os : list (fkey * val)) (s : bytes) (st : rstate) : xres (list (fkey * val) * N) :=
      match g_class G c with
      | None => XStuck
      | Some rc =>
        match rc_rd rc with
        | None => XStuck
        | Some p =>
          xseq (xiter (fun b os s st => xseq (rc_ ver b os s st) fst (fun p s1 st1 => XOk (fst p) s1 st1)) (bp_bases p) os s st)
            (fun os1 => (os1, 0)) (fun os1 s1 st1 =>
          xprim (if bp_vmax p =? 0 then ROk (ver, s1)
                 else let! (v, s') := rd_varint s1 in
                      if v <=? bp_vmax p then ROk (v, s') else RThrow (ExVersion v (bp_vmax p) (rc_name rc)))
            (os1, 0) st1 (fun ver' s2 =>
          xseq (xiter (fun fd os s st =>
                  if visible ver' fd then
                    match alookup fkey_eqb (bf_key fd) os with
                    | Some o => xseq (r ver' (bf_ty fd) o s st) (fun x => aupdate fkey_eqb (bf_key fd) x os)
                                  (fun x s' st' => XOk (aupdate fkey_eqb (bf_key fd) x os) s' st')
                    | None => XStuck
                    end
                  else XOk os s st) (bp_fields p) os1 s2 st1)
            (fun os3 => (os3, 0)) (fun os3 s3 st3 => XOk (os3, if bp_ret0 p then 0 else ver') s3 st3)))
        end
      end.

  (** tie the recursive knot *)
  Fixpoint xread (fuel : nat) (ver : N) (t : ty) (old : val) (s : bytes) (st : rstate) {struct fuel} : xres val :=
    match fuel with O => XFuel | S f => xread_body (xread f) (xread_cls f) ver t old s st end
  with xread_cls (fuel : nat) (ver : N) (c : N) (os : list (fkey * val)) (s : bytes) (st : rstate) {struct fuel}
    : xres (list (fkey * val) * N) :=
    match fuel with O => XFuel | S f => xread_cls_body (xread f) (xread_cls f) ver c os s st end.
End Read.

(** BinarySerializable::restoreFromBinary (lib/binary/serializable.h:41-44) *)
Definition xrestoreFromBinary (G : genv) (fuel : nat) (c : N) (os : list (fkey * val)) (s : bytes) (h : heap)
  : xres (list (fkey * val) * N) :=
  xread_cls G fuel 0 c os s {| r_heap := h; r_ptr := [] |}.
