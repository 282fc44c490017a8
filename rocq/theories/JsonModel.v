(** JsonModel.v -- conversion between C++ objects and JSON documents (lib/json/reflector.h,
    lib/json/reflector-chronoutilities.h, lib/json/reflector-boosthana.h, lib/json/errorhandling.h
    and the generated push/pull functions).  The text of documents is modelled in JsonText.v. *)
From Coq Require Import String List NArith ZArith Bool Lia.
From Verif Require Import Base Types BinModel Float.
Import ListNotations.
Local Open Scope N_scope.

(* ------------------------------------------------------------------ *)
(** * Documents *)

(** A RapidJSON value.  Numbers are integers ([-2^63 <= z < 2^64]; RapidJSON tells them apart by the
    ranges they fit in) or doubles (bit pattern).  Strings and member names are arbitrary bytes;
    objects are lists of members and may have the same name several times. *)
Inductive json :=
| JNull
| JBool (b : bool)
| JInt (z : Z)
| JDbl (n : N)
| JStr (s : bytes)
| JArr (l : list json)
| JObj (ms : list (bytes * json)).

(** JsonType (lib/json/errorhandling.h:37-44) *)
Inductive jtype := JTNull | JTNumber | JTBool | JTString | JTArray | JTObject.

(** jsonType(rapidjson::Type) (lib/json/errorhandling.h:87-104) *)
Definition type_of (j : json) : jtype :=
  match j with
  | JNull => JTNull | JBool _ => JTBool | JInt _ | JDbl _ => JTNumber
  | JStr _ => JTString | JArr _ => JTArray | JObj _ => JTObject
  end.

(** the part of a string before its first NUL character (std::string::operator=(const char * ), strlen) *)
Fixpoint cstr (s : bytes) : bytes :=
  match s with
  | [] => []
  | b :: s' => if beqb b Byte.x00 then [] else b :: cstr s'
  end.

(** rapidJsonSize (lib/json/reflector.h:52-57): SizeType has 32 bits *)
Definition size_max : N := 2 ^ 32 - 1.
Definition rapidJsonSize (n : N) : N := if size_max <? n then size_max else n.

(** the first [rapidJsonSize(s.size())] characters *)
Definition sized (s : bytes) : bytes :=
  let n := N.of_nat (length s) in
  if rapidJsonSize n <? n then firstn (N.to_nat (rapidJsonSize n)) s else s.

(** Conversions of c++utilities which are not part of the repository: DateTime::toIsoString,
    DateTime::fromIsoStringGmt, TimeSpan::toString, TimeSpan::fromString ([None]: ConversionException) *)
Record jenv := {
  je_dt_print : Z -> bytes; je_dt_parse : bytes -> option Z;
  je_ts_print : Z -> bytes; je_ts_parse : bytes -> option Z }.

(** integral types RapidJSON supports (TypeHelper); 8-bit ones are handled separately
    (lib/json/reflector.h:151-167, 531-558) *)
Definition json_kind (k : ikind) : bool :=
  match k with KI32 | KU32 | KI64 | KU64 => true | _ => false end.
Definition byte_kind (k : ikind) : bool := match k with KI8 | KU8 => true | _ => false end.
(** 64-bit type used for enums (lib/json/reflector.h:175, 584) *)
Definition enum_kind (k : ikind) : ikind := if ksigned k then KI64 else KU64.

(* ------------------------------------------------------------------ *)
(** * Serialisation: push *)

(** "for each, push it" *)
Fixpoint push_iter {A B} (p : A -> res B) (l : list A) : res (list B) :=
  match l with
  | [] => ROk []
  | x :: l' => let! y := p x in let! ys := push_iter p l' in ROk (y :: ys)
  end.

(** loops over members and base classes, adding members to an object *)
Fixpoint push_fold {A} (p : A -> list (bytes * json) -> res (list (bytes * json))) (l : list A) (ms : list (bytes * json)) : res (list (bytes * json)) :=
  match l with
  | [] => ROk ms
  | x :: l' => let! ms1 := p x ms in push_fold p l' ms1
  end.

(** push for multimaps (lib/json/reflector.h:257-273): append to the array which is already there,
    else add a new member.  FindMember takes the StringRef as [const char *], so the lookup ignores
    everything after a NUL character while the new member has the full name. *)
Fixpoint append_existing (k : bytes) (j : json) (ms : list (bytes * json)) : option (list (bytes * json)) :=
  match ms with
  | [] => None
  | (k', x) :: ms' =>
      if bytes_eqb k k' then match x with JArr l => Some ((k', JArr (l ++ [j])) :: ms') | _ => None end
      else match append_existing k j ms' with Some ms'' => Some ((k', x) :: ms'') | None => None end
  end.
Definition add_multi (k : bytes) (j : json) (ms : list (bytes * json)) : list (bytes * json) :=
  match append_existing (cstr k) j ms with
  | Some ms' => ms'
  | None => ms ++ [(sized k, JArr [j])]
  end.

Section Push.
  Variable G : genv.
  Variable J : jenv.
  Variable H : heap.

  (** push to a value (lib/json/reflector.h:140-362; reflector-chronoutilities.h:23-38):
      - custom types 140-146, integers/floats/booleans 151-167, enums 172-177, C-strings 182-190,
        string views 195-203, strings 208-212, sequences and sets 217-239 (reserving memory is not
        modelled), maps 244-252, multimaps 257-273, tuples 280-306, pairs 311-319, unique/shared
        pointers and optionals 324-333, variants 338-362.
      - The overloads for pushing to an array (367-385) and as member of an object (390-410) add
        the value pushed here; member names are C-strings (StringRef(name)), so keys of maps are cut
        at NUL characters.
      - reading an indeterminate scalar or a dangling pointer is undefined behaviour; other integral
        types, empty tuples and maps with other keys than strings do not compile. *)
  Definition push_body (p : ty -> val -> res json) (pc : N -> list (fkey * val) -> list (bytes * json) -> res (list (bytes * json)))
      (t : ty) (v : val) : res json :=
      match t, v with
      | (TBool | TInt _ | TF32 | TF64 | TEnum _ | TCStr), VUndef => RUB
      | TBool, VBool b => ROk (JBool b)
      | TInt k, VInt z => if json_kind k || byte_kind k then ROk (JInt z) else RStuck
      | TF32, VF32 n => ROk (JDbl (f64_of_f32 n))
      | TF64, VF64 n => ROk (JDbl n)
      | TEnum k, VInt z => ROk (JInt z)
      | TCStr, VOpt (Some (VStr s)) => ROk (JStr (cstr s))
      | TView, VOpt (Some (VStr s)) => ROk (JStr (sized s))
      | (TView | TCStr), VOpt None => ROk JNull
      | TString, VStr s => ROk (JStr (sized s))
      | TDateTime, VInt z => ROk (JStr (sized (je_dt_print J z)))
      | TTimeSpan, VInt z => ROk (JStr (sized (je_ts_print J z)))
      | TSeq t', VList l => let! js := push_iter (p t') l in ROk (JArr js)
      | TSet _ _ t', VList l => let! js := push_iter (p t') l in ROk (JArr js)
      | TMap _ false TString vt, VList l =>
          let! ms := push_fold (fun x ms => match x with
                       | VPair (VStr k) v => let! j := p vt v in ROk (ms ++ [(cstr k, j)])
                       | _ => RStuck end) l [] in ROk (JObj ms)
      | TMap _ true TString vt, VList l =>
          let! ms := push_fold (fun x ms => match x with
                       | VPair (VStr k) v => let! j := p vt v in ROk (add_multi k j ms)
                       | _ => RStuck end) l [] in ROk (JObj ms)
      | TTuple (t0 :: ts), VList l =>
          if (length l =? length (t0 :: ts))%nat
          then let! js := push_iter (fun '(t', x) => p t' x) (combine (t0 :: ts) l) in ROk (JArr js)
          else RStuck
      | TPair ta tb, VPair a b => let! ja := p ta a in let! jb := p tb b in ROk (JArr [ja; jb])
      | (TUnique _ | TOptional _), VOpt None => ROk JNull
      | (TUnique t' | TOptional t'), VOpt (Some x) => p t' x
      | TShared _, VShared None => ROk JNull
      | TShared t', VShared (Some a) =>
          match hget H a with
          | Some (t'', x) => if ty_eqb t' t'' then p t' x else RStuck
          | None => RUB (* dangling pointer *)
          end
      | TVariant _, VValueless => ROk JNull
      | TVariant ts, VVar i x =>
          let! d := match nth_error ts i with
                    | None => RStuck
                    | Some TMono => ROk JNull
                    | Some t' => p t' x
                    end in
          ROk (JObj [(list_byte_of_string "index", JInt (Z.of_nat i)); (list_byte_of_string "data", d)])
      | TStruct c, VObj fs => let! ms := pc c fs [] in ROk (JObj ms)
      | _, _ => RStuck
      end.

  (** push for a class to an object, as generated by
      generator/jsonserializationcodegenerator.cpp:117-131 (base classes add their members to the same
      object) or with Boost.Hana (lib/json/reflector-boosthana.h:31-36) *)
  Definition push_cls_body (p : ty -> val -> res json) (pc : N -> list (fkey * val) -> list (bytes * json) -> res (list (bytes * json)))
      (c : N) (fs : list (fkey * val)) (ms : list (bytes * json)) : res (list (bytes * json)) :=
      match g_class G c with
      | None => RStuck
      | Some rc =>
        let! ms1 := push_fold (fun b ms => pc b fs ms) (jp_bases (rc_push rc)) ms in
        push_fold (fun fd ms =>
            match alookup fkey_eqb (jf_key fd) fs with
            | Some v => let! j := p (jf_ty fd) v in ROk (ms ++ [(jf_name fd, j)])
            | None => RStuck
            end) (jp_fields (rc_push rc)) ms1
      end.

  (** tie the recursive knot *)
  Fixpoint push (fuel : nat) (t : ty) (v : val) {struct fuel} : res json :=
    match fuel with O => RFuel | S f => push_body (push f) (push_cls f) t v end
  with push_cls (fuel : nat) (c : N) (fs : list (fkey * val)) (ms : list (bytes * json)) {struct fuel} : res (list (bytes * json)) :=
    match fuel with O => RFuel | S f => push_cls_body (push f) (push_cls f) c fs ms end.
End Push.

(* ------------------------------------------------------------------ *)
(** * Errors *)

(** JsonDeserializationErrorKind (lib/json/errorhandling.h:23-30) *)
Inductive ekind := TypeMismatch | ArraySizeMismatch | ConversionError | UnexpectedDuplicate | InvalidVariantObject | InvalidVariantIndex.

(** JsonDeserializationError (lib/json/errorhandling.h:109-127); [None]: nullptr / noIndex *)
Record jerror := {
  e_kind : ekind; e_expected : jtype; e_actual : jtype;
  e_record : option bytes; e_member : option bytes; e_index : option N }.

(** JsonDeserializationErrors (lib/json/errorhandling.h:154-183) *)
Record est := {
  es_errs : list jerror; es_record : option bytes; es_member : option bytes; es_index : option N; es_throw : N }.

(** default-constructed (lib/json/errorhandling.h:188-194) *)
Definition est0 : est :=
  {| es_errs := []; es_record := Some (list_byte_of_string "[document]"); es_member := None; es_index := None; es_throw := 0 |}.

(** ThrowOn flag which the report functions pass to throwMaybe (lib/json/errorhandling.h:170-179, 219-266).
    Variant errors are added without calling throwMaybe (lib/json/reflector.h:916, 942, 950). *)
Definition throw_flag (k : ekind) : N :=
  match k with
  | TypeMismatch => 1 | ArraySizeMismatch => 2 | ConversionError => 4 | UnexpectedDuplicate => 8
  | InvalidVariantObject | InvalidVariantIndex => 0
  end.

(** jsonType<Type>() for the types reported as expected (lib/json/errorhandling.h:48-82) *)
Definition expected_type (t : ty) : jtype :=
  match t with
  | TBool => JTBool
  | TInt _ | TF32 | TF64 => JTNumber
  | TEnum _ => JTNumber                  (* reported as 64-bit integer, lib/json/reflector.h:587 *)
  | TString => JTString
  | TView | TCStr | TDateTime | TTimeSpan => JTString  (* reported as std::string, lib/json/reflector.h:620 *)
  | TSeq _ | TSet _ _ _ => JTArray
  | TMap _ multi _ _ => if multi then JTArray else JTObject
  | TPair _ _ | TTuple _ | TVariant _ | TStruct _ => JTObject
  | TUnique _ | TShared _ | TOptional _ | TMono => JTObject
  end.

(* ------------------------------------------------------------------ *)
(** * Deserialisation: effects of pull *)

(** State: the objects owned by shared pointers, and [*errors] ([None]: errors is nullptr) *)
Record pst := { p_heap : heap; p_err : option est }.

(** Outcome of a call: it returns, throws a JsonDeserializationError (leaving errors in the given
    state), has undefined behaviour, ran out of the model's fuel, or does not compile. *)
Inductive out (A : Type) :=
| POk (a : A) (st : pst)
| PThrow (e : jerror) (st : pst)
| PUB
| PFuel
| PStuck.
Arguments POk {A} a st.
Arguments PThrow {A} e st.
Arguments PUB {A}.
Arguments PFuel {A}.
Arguments PStuck {A}.

Definition M (A : Type) : Type := pst -> out A.
Definition ret {A} (a : A) : M A := fun st => POk a st.
Definition bind {A B} (m : M A) (k : A -> M B) : M B := fun st =>
  match m st with
  | POk a st' => k a st'
  | PThrow e st' => PThrow e st'
  | PUB => PUB
  | PFuel => PFuel
  | PStuck => PStuck
  end.
Notation "'let?' p ':=' m 'in' k" := (bind m (fun p => k))
  (at level 200, p pattern, m at level 100, k at level 200).
Definition ub {A} : M A := fun _ => PUB.
Definition stuck {A} : M A := fun _ => PStuck.
Definition nofuel {A} : M A := fun _ => PFuel.

Definition add_err (e : est) (x : jerror) : est :=
  {| es_errs := es_errs e ++ [x]; es_record := es_record e; es_member := es_member e; es_index := es_index e; es_throw := es_throw e |}.

(** emplace_back within the current context followed by throwMaybe
    (lib/json/errorhandling.h:207-266) *)
Definition emplace_error (e : est) (k : ekind) (expected actual : jtype) (h : heap) : out unit :=
  let x := {| e_kind := k; e_expected := expected; e_actual := actual; e_record := es_record e; e_member := es_member e; e_index := es_index e |} in
  let st := {| p_heap := h; p_err := Some (add_err e x) |} in
  if N.land (es_throw e) (throw_flag k) =? 0 then POk tt st else PThrow x st.

(** [if (errors) { errors->report...(...); }] *)
Definition report (k : ekind) (expected actual : jtype) : M unit := fun st =>
  match p_err st with
  | None => POk tt st
  | Some e => emplace_error e k expected actual (p_heap st)
  end.
(** [errors->report...(...);] without check for nullptr *)
Definition report_unchecked (k : ekind) (expected actual : jtype) : M unit := fun st =>
  match p_err st with
  | None => PUB
  | Some e => emplace_error e k expected actual (p_heap st)
  end.

(** [if (errors) { errors->currentIndex = i; }] *)
Definition set_index (i : option N) : M unit := fun st =>
  POk tt {| p_heap := p_heap st; p_err := option_map (fun e =>
    {| es_errs := es_errs e; es_record := es_record e; es_member := es_member e; es_index := i; es_throw := es_throw e |}) (p_err st) |}.

Definition put_member (n : option bytes) (st : pst) : pst :=
  {| p_heap := p_heap st; p_err := option_map (fun e =>
    {| es_errs := es_errs e; es_record := es_record e; es_member := n; es_index := es_index e; es_throw := es_throw e |}) (p_err st) |}.
Definition put_record (n : option bytes) (st : pst) : pst :=
  {| p_heap := p_heap st; p_err := option_map (fun e =>
    {| es_errs := es_errs e; es_record := n; es_member := es_member e; es_index := es_index e; es_throw := es_throw e |}) (p_err st) |}.

(** set currentMember/currentRecord, run [m], restore the previous one (which does not happen if [m]
    throws): lib/json/reflector.h:982-996 and generator/jsonserializationcodegenerator.cpp:150-171 *)
Definition in_member {A} (n : bytes) (m : M A) : M A := fun st =>
  let previous := match p_err st with Some e => es_member e | None => None end in
  match m (put_member (Some n) st) with
  | POk a st' => POk a (put_member previous st')
  | o => o
  end.
Definition in_record {A} (n : bytes) (m : M A) : M A := fun st =>
  let previous := match p_err st with Some e => es_record e | None => None end in
  match m (put_record (Some n) st) with
  | POk a st' => POk a (put_record previous st')
  | o => o
  end.

(** std::make_shared followed by pulling into the new object ([m] yields its content): the object
    is value-initialised while [m] runs (lib/json/reflector.h:881-882) *)
Definition in_new (G : genv) (t : ty) (m : M val) : M N := fun st =>
  let a := g_alloc G (p_heap st) in
  match m {| p_heap := hset (p_heap st) a (t, vinit G t); p_err := p_err st |} with
  | POk x st' => POk a {| p_heap := hset (p_heap st') a (t, x); p_err := p_err st' |}
  | PThrow e st' => PThrow e st'
  | PUB => PUB
  | PFuel => PFuel
  | PStuck => PStuck
  end.

(* ------------------------------------------------------------------ *)
(** * pull *)

(** report a type mismatch and leave the variable alone *)
Definition mismatch (t : ty) (j : json) (old : val) : M val :=
  let? _ := report TypeMismatch (expected_type t) (type_of j) in ret old.

(** GetDouble *)
Definition get_double (j : json) : option N :=
  match j with JInt z => Some (f64_of_Z z) | JDbl n => Some n | _ => None end.

(** [static_cast<Type>(value.GetDouble())] to an integral type *)
Definition cast_double (k : ikind) (j : json) : M Z :=
  match get_double j with
  | Some d => match f64_trunc d with
              | Some z => if in_range k z then ret z else ub
              | None => ub
              end
  | None => stuck
  end.

(** [value.Is<Type>() ? value.Get<Type>() : static_cast<Type>(value.GetDouble())] for the integral
    types RapidJSON knows (lib/json/reflector.h:543) *)
Definition get_int (k : ikind) (j : json) : M Z :=
  match j with
  | JInt z => if in_range k z then ret z else cast_double k j
  | _ => cast_double k j
  end.

Definition is_number (j : json) : bool := match j with JInt _ | JDbl _ => true | _ => false end.

(** conversion of an integer to an integral type (modulo 2^bits) *)
Definition wrap (k : ikind) (z : Z) : Z :=
  let m := (2 ^ (8 * Z.of_nat (ksize k)))%Z in
  let r := (z mod m)%Z in
  if ksigned k && (m / 2 <=? r)%Z then (r - m)%Z else r.

(** loop over the elements of an array with the error context's index set
    (lib/json/reflector.h:667-682, 694-710, 722-740) *)
Fixpoint pull_items {A} (step : A -> json -> M A) (i : N) (js : list json) (acc : A) : M A :=
  match js with
  | [] => let? _ := set_index None in ret acc
  | j :: js' =>
      let? _ := set_index (Some i) in
      let? acc' := step acc j in
      pull_items step (i + 1) js' acc'
  end.

Fixpoint fold_m {A B} (step : A -> B -> M A) (l : list B) (acc : A) : M A :=
  match l with
  | [] => ret acc
  | x :: l' => let? acc' := step acc x in fold_m step l' acc'
  end.

(** Detail::TuplePullHelper (lib/json/reflector.h:794-807); [value[i]] beyond the array is undefined *)
Fixpoint pull_tuple (p : ty -> val -> json -> M val) (ts : list ty) (os : list val) (js : list json) : M (list val) :=
  match ts, os with
  | [], [] => ret []
  | t :: ts', o :: os' =>
      match js with
      | j :: js' => let? x := p t o j in let? xs := pull_tuple p ts' os' js' in ret (x :: xs)
      | [] => ub
      end
  | _, _ => stuck
  end.

(** equivalent keys of a map *)
Definition same_key (G : genv) (ord : bool) (kt : ty) (x y : val) : bool :=
  if ord then negb (g_lt G kt (keyof true x) (keyof true y)) && negb (g_lt G kt (keyof true y) (keyof true x))
  else g_eq G kt (keyof true x) (keyof true y).

(** map: the value of an element / with the value of the element replaced *)
Fixpoint map_find (G : genv) (ord : bool) (kt : ty) (k : val) (l : list val) : option val :=
  match l with
  | [] => None
  | y :: l' => if same_key G ord kt y k then match y with VPair _ v => Some v | _ => None end else map_find G ord kt k l'
  end.
Fixpoint map_put (G : genv) (ord : bool) (kt : ty) (k v : val) (l : list val) : list val :=
  match l with
  | [] => []
  | y :: l' => if same_key G ord kt y k then match y with VPair k' _ => VPair k' v :: l' | _ => y :: l' end else y :: map_put G ord kt k v l'
  end.

Definition is_undef (v : val) : bool := match v with VUndef => true | _ => false end.

Section Pull.
  Variable G : genv.
  Variable J : jenv.

  (** pull from a value; [old] is the value of the variable (lib/json/reflector.h:531-1012;
      reflector-chronoutilities.h:42-71).
      - integers and floats 531-558, bool 563-574, enums 580-592, strings 597-608, C-strings/views 614-624
        (not stored), sequences 629-683, multisets 688-711, sets 716-741, maps 746-759, multimaps
        764-786, tuples 813-831, pairs 836-855, unique_ptr 860-869, shared_ptr 874-883, optional 888-896,
        variants 900-956, members 973-997, custom types 1002-1012.
      - Sets: the temporary is default-initialised, so a scalar which is not assigned is indeterminate
        and moving it into the set is undefined behaviour.
      - Maps/multimaps: operator[]/insert followed by pull into the new element are merged: the
        element is inserted when it has been pulled.
      - Shared pointers: the object is stored in the heap again when it has been pulled completely. *)
  Definition pull_body (p : ty -> val -> json -> M val)
      (pc : N -> list (fkey * val) -> list (bytes * json) -> M (list (fkey * val)))
      (t : ty) (old : val) (j : json) : M val :=
      match t with
      | TBool => match j with JBool b => ret (VBool b) | _ => mismatch t j old end
      | TInt k =>
          if json_kind k then
            if is_number j then let? z := get_int k j in ret (VInt z) else mismatch t j old
          else if byte_kind k then
            if is_number j then let? z := get_int KI32 j in ret (VInt (wrap k z)) else mismatch t j old
          else stuck
      | TF32 => match get_double j with Some d => ret (VF32 (f32_of_f64 d)) | None => mismatch t j old end
      | TF64 => match get_double j with Some d => ret (VF64 d) | None => mismatch t j old end
      | TEnum k =>
          match j with
          | JInt z => if in_range (enum_kind k) z then ret (VInt (wrap k z)) else mismatch t j old
          | _ => mismatch t j old
          end
      | TString => match j with JStr s => ret (VStr (cstr s)) | _ => mismatch t j old end
      | TView | TCStr => match j with JStr _ => ret old | _ => mismatch t j old end
      | TDateTime =>
          let? s := match j with JStr s => ret (cstr s) | _ => let? _ := mismatch t j old in ret [] end in
          match je_dt_parse J s with
          | Some z => ret (VInt z)
          | None => let? _ := report ConversionError JTString JTString in ret old
          end
      | TTimeSpan =>
          let? s := match j with JStr s => ret (cstr s) | _ => let? _ := mismatch t j old in ret [] end in
          match je_ts_parse J s with
          | Some z => ret (VInt z)
          | None => let? _ := report ConversionError JTString JTString in ret old
          end
      | TSeq t' =>
          match j with
          | JArr js => let? l := pull_items (fun l j' => let? x := p t' (vinit G t') j' in ret (l ++ [x])) 0 js [] in ret (VList l)
          | _ => mismatch t j old
          end
      | TSet ord multi t' =>
          match j with
          | JArr js =>
              let? l := pull_items (fun l j' =>
                  let? x := p t' (dinit G t') j' in
                  if is_undef x then ub
                  else
                    let (l', inserted) := emplace G false ord multi t' x l in
                    if multi || inserted then ret l'
                    else let? _ := report_unchecked UnexpectedDuplicate JTArray JTArray in ret l') 0 js [] in
              ret (VList l)
          | _ => mismatch t j old
          end
      | TMap ord false TString vt =>
          match old with
          | VList olds =>
              match j with
              | JObj ms =>
                  let? l := fold_m (fun l '(n, j') =>
                      let k := VStr (cstr n) in
                      match map_find G ord TString (VPair k VUndef) l with
                      | Some v => let? x := p vt v j' in ret (map_put G ord TString (VPair k VUndef) x l)
                      | None => let? x := p vt (vinit G vt) j' in ret (fst (emplace G true ord false TString (VPair k x) l))
                      end) ms olds in
                  ret (VList l)
              | _ => mismatch t j old
              end
          | _ => stuck
          end
      | TMap ord true TString vt =>
          match old with
          | VList olds =>
              match j with
              | JObj ms =>
                  let? l := fold_m (fun l '(n, j') =>
                      let ins l x := fst (emplace G true ord true TString (VPair (VStr (cstr n)) x) l) in
                      match j' with
                      | JArr js => fold_m (fun l j'' => let? x := p vt (vinit G vt) j'' in ret (ins l x)) js l
                      | _ => let? x := p vt (vinit G vt) j' in ret (ins l x)
                      end) ms olds in
                  ret (VList l)
              | _ => mismatch t j old
              end
          | _ => stuck
          end
      | TMap _ _ _ _ => stuck
      | TTuple [] => stuck
      | TTuple ts =>
          match old with
          | VList olds =>
              match j with
              | JArr js =>
                  if (length js =? length ts)%nat
                  then let? l := pull_tuple p ts olds js in ret (VList l)
                  else let? _ := report ArraySizeMismatch JTArray JTArray in ret old
              | _ => mismatch t j old
              end
          | _ => stuck
          end
      | TPair ta tb =>
          match old with
          | VPair oa ob =>
              match j with
              | JArr js =>
                  if (length js =? 2)%nat
                  then match nth_error js 0, nth_error js 1 with
                       | Some ja, Some jb => let? a := p ta oa ja in let? b := p tb ob jb in ret (VPair a b)
                       | _, _ => ub
                       end
                  else let? _ := report ArraySizeMismatch JTArray JTArray in ret old
              | _ => mismatch t j old
              end
          | _ => stuck
          end
      | TUnique t' | TOptional t' =>
          match j with
          | JNull => ret (VOpt None)
          | _ => let? x := p t' (vinit G t') j in ret (VOpt (Some x))
          end
      | TShared t' =>
          match j with
          | JNull => ret (VShared None)
          | _ =>
              let? a := in_new G t' (p t' (vinit G t') j) in
              ret (VShared (Some a))
          end
      | TVariant ts =>
          match j with
          | JObj ms =>
              match alookup bytes_eqb (list_byte_of_string "index") ms, alookup bytes_eqb (list_byte_of_string "data") ms with
              | Some ji, Some jd =>
                  match ji with
                  | JInt z =>
                      if in_range KU64 z then
                        match (if Z.to_N z <? N.of_nat (length ts) then nth_error ts (Z.to_nat z) else None) with
                        | Some TMono => ret (VVar (Z.to_nat z) VMono)
                        | Some t' => let? x := p t' (vinit G t') jd in ret (VVar (Z.to_nat z) x)
                        | None => let? _ := report InvalidVariantIndex JTNumber JTNumber in ret old
                        end
                      else let? _ := report InvalidVariantIndex JTNumber (type_of ji) in ret old
                  | _ => let? _ := report InvalidVariantIndex JTNumber (type_of ji) in ret old
                  end
              | _, _ => let? _ := report InvalidVariantObject JTObject JTObject in ret old
              end
          | _ => mismatch t j old
          end
      | TStruct c =>
          match old with
          | VObj os =>
              match j with
              | JObj ms => let? fs := pc c os ms in ret (VObj fs)
              | _ => mismatch t j old
              end
          | _ => stuck
          end
      | TMono => stuck
      end.

  (** pull of a member (lib/json/reflector.h:973-997): the first member with the name; names of member
      variables have no NUL characters *)
  Definition pull_member (p : ty -> val -> json -> M val) (ms : list (bytes * json)) (fd : jfield) (os : list (fkey * val)) : M (list (fkey * val)) :=
    match alookup fkey_eqb (jf_key fd) os with
    | None => stuck
    | Some o =>
        match alookup bytes_eqb (jf_name fd) ms with
        | None => ret os
        | Some j => let? x := in_member (jf_name fd) (p (jf_ty fd) o j) in ret (aupdate fkey_eqb (jf_key fd) x os)
        end
    end.

  (** pull of a class from an object, as generated by
      generator/jsonserializationcodegenerator.cpp:144-174 or with Boost.Hana
      (lib/json/reflector-boosthana.h:39-46, which does not set the record) *)
  Definition pull_cls_body (p : ty -> val -> json -> M val)
      (pc : N -> list (fkey * val) -> list (bytes * json) -> M (list (fkey * val)))
      (c : N) (os : list (fkey * val)) (ms : list (bytes * json)) : M (list (fkey * val)) :=
      match g_class G c with
      | None => stuck
      | Some rc =>
        match rc_pull rc with
        | None => stuck
        | Some prog =>
          let? os1 := fold_m (fun os b => pc b os ms) (jp_bases prog) os in
          let members := fold_m (fun os fd => pull_member p ms fd os) (jp_fields prog) os1 in
          match jp_record prog with
          | Some n => in_record n members
          | None => members
          end
        end
      end.

  (** tie the recursive knot *)
  Fixpoint pull (fuel : nat) (t : ty) (old : val) (j : json) {struct fuel} : M val :=
    match fuel with O => nofuel | S f => pull_body (pull f) (pull_cls f) t old j end
  with pull_cls (fuel : nat) (c : N) (os : list (fkey * val)) (ms : list (bytes * json)) {struct fuel} : M (list (fkey * val)) :=
    match fuel with O => nofuel | S f => pull_cls_body (pull f) (pull_cls f) c os ms end.
End Pull.

(* ------------------------------------------------------------------ *)
(** * High-level functions (on documents) *)

(** toJsonDocument (lib/json/reflector.h:1019-1079): custom types, maps, multimaps, arithmetic types,
    strings and arrays.  The string's size is not clamped by the library but converted to SizeType by
    StringRef (which asserts); sizes beyond are not distinguished here. *)
Definition toJsonDocument (G : genv) (J : jenv) (H : heap) (fuel : nat) (t : ty) (v : val) : res json :=
  match t with
  | TStruct _ | TMap _ _ _ _ | TSeq _ | TString | TBool | TF32 | TF64 | TView | TCStr => push G J H fuel t v
  | TInt k => if json_kind k then push G J H fuel t v else RStuck
  | _ => RStuck
  end.

(** IsFloat of RapidJSON: a double within +-3.4028234e38 (bit patterns compared as numbers) *)
Definition is_float (n : N) : bool := (n mod 2 ^ 63) <=? 5183643170390849588.

(** fromJson (lib/json/reflector.h:1098-1165), given the parsed document.  A mismatching document is
    reported and [Type()] returned; arithmetic types need exactly the right kind of number. *)
Definition fromJson (G : genv) (J : jenv) (fuel : nat) (t : ty) (j : json) : M val :=
  match t with
  | TStruct _ | TMap _ _ _ _ =>
      match j with JObj _ => pull G J fuel t (dinit G t) j | _ => mismatch t j (vinit G t) end
  | TSeq _ => match j with JArr _ => pull G J fuel t (dinit G t) j | _ => mismatch t j (vinit G t) end
  | TString => match j with JStr s => ret (VStr (cstr s)) | _ => mismatch t j (vinit G t) end
  | TBool => match j with JBool b => ret (VBool b) | _ => mismatch t j (vinit G t) end
  | TInt k =>
      if json_kind k then
        match j with
        | JInt z => if in_range k z then ret (VInt z) else mismatch t j (vinit G t)
        | _ => mismatch t j (vinit G t)
        end
      else stuck
  | TF64 => match j with JDbl n => ret (VF64 n) | _ => mismatch t j (vinit G t) end
  | TF32 => match j with JDbl n => if is_float n then ret (VF32 (f32_of_f64 n)) else mismatch t j (vinit G t) | _ => mismatch t j (vinit G t) end
  | _ => stuck
  end.
