(** JsonExc.v -- what is left behind when JSON deserialisation throws (JsonDeserializationErrors::throwOn): pull as in
    JsonModel.v, but with the value the variable has when the exception leaves the function, and with the objects owned by
    shared pointers as they are at that time.  JsonModel.v discards both; that they agree otherwise is proved in JsonExcFacts.v. *)
From Coq Require Import String List NArith ZArith Bool Lia.
From Verif Require Import Base Types BinModel Float JsonModel.
Import ListNotations.
Local Open Scope list_scope.
Local Open Scope N_scope.

(** [QOk a st]: the call returns, the variable has the value [a]; [QThrow e a st]: the call throws [e], the variable has the
    value [a] *)
Inductive xout (A : Type) :=
| QOk (a : A) (st : pst)
| QThrow (e : jerror) (a : A) (st : pst)
| QUB
| QFuel
| QStuck.
Arguments QOk {A} a st.
Arguments QThrow {A} e a st.
Arguments QUB {A}.
Arguments QFuel {A}.
Arguments QStuck {A}.

Definition XM (A : Type) : Type := pst -> xout A.
Definition xret {A} (a : A) : XM A := fun st => QOk a st.
(** statements in sequence; [w]: the value of the variable if the first one, which works on a part of it, throws *)
Definition xbind {A B} (m : XM A) (w : A -> B) (k : A -> XM B) : XM B := fun st =>
  match m st with
  | QOk a st' => k a st'
  | QThrow e a st' => QThrow e (w a) st'
  | QUB => QUB
  | QFuel => QFuel
  | QStuck => QStuck
  end.
(** something which does not change the variable, which has the value [old], itself *)
Definition xlift {A B} (old : B) (m : M A) (k : A -> XM B) : XM B := fun st =>
  match m st with
  | POk a st' => k a st'
  | PThrow e st' => QThrow e old st'
  | PUB => QUB
  | PFuel => QFuel
  | PStuck => QStuck
  end.

(** see [in_member], [in_record] *)
Definition xin_member {A} (n : bytes) (m : XM A) : XM A := fun st =>
  let previous := match p_err st with Some e => es_member e | None => None end in
  match m (put_member (Some n) st) with QOk a st' => QOk a (put_member previous st') | o => o end.
Definition xin_record {A} (n : bytes) (m : XM A) : XM A := fun st =>
  let previous := match p_err st with Some e => es_record e | None => None end in
  match m (put_record (Some n) st) with QOk a st' => QOk a (put_record previous st') | o => o end.

(** std::make_shared and pull into the new object (lib/json/reflector.h:881-882): the pointer refers to the object when pull
    throws *)
Definition xin_new (G : genv) (t : ty) (m : XM val) : XM N := fun st =>
  let a := g_alloc G (p_heap st) in
  let store := fun st' x => {| p_heap := hset (p_heap st') a (t, x); p_err := p_err st' |} in
  match m {| p_heap := hset (p_heap st) a (t, vinit G t); p_err := p_err st |} with
  | QOk x st' => QOk a (store st' x)
  | QThrow e x st' => QThrow e a (store st' x)
  | QUB => QUB
  | QFuel => QFuel
  | QStuck => QStuck
  end.

(** see [pull_items], [fold_m], [pull_tuple] *)
Fixpoint xitems {A} (step : A -> json -> XM A) (i : N) (js : list json) (acc : A) : XM A :=
  match js with
  | [] => xlift acc (set_index None) (fun _ => xret acc)
  | j :: js' =>
      xlift acc (set_index (Some i)) (fun _ =>
      xbind (step acc j) (fun a => a) (fun acc' => xitems step (i + 1) js' acc'))
  end.
Fixpoint xfold {A B} (step : A -> B -> XM A) (l : list B) (acc : A) : XM A :=
  match l with
  | [] => xret acc
  | x :: l' => xbind (step acc x) (fun a => a) (fun acc' => xfold step l' acc')
  end.
Fixpoint xtuple (p : ty -> val -> json -> XM val) (ts : list ty) (os : list val) (js : list json) : XM (list val) :=
  match ts, os with
  | [], [] => xret []
  | t :: ts', o :: os' =>
      match js with
      | j :: js' => xbind (p t o j) (fun x => x :: os') (fun x => xbind (xtuple p ts' os' js') (fun xs => x :: xs) (fun xs => xret (x :: xs)))
      | [] => fun _ => QUB
      end
  | _, _ => fun _ => QStuck
  end.

Section Pull.
  Variable G : genv.
  Variable J : jenv.

  (** pull (lib/json/reflector.h:531-1012, see [pull_body] of JsonModel.v):
      - scalars, strings, dates: only assigned if nothing is reported;
      - sequences 659-683: cleared; the element which is pulled is part of the sequence already;
      - sets, multisets 688-741: cleared; the element which is pulled is a local variable;
      - maps 746-759, multimaps 764-786: the element is inserted before it is pulled;
      - tuples 794-831, pairs 836-855: components pulled before have been assigned;
      - unique_ptr 860-869, shared_ptr 874-883, optional 888-896, variants 900-956: the new object is in place before it is
        pulled *)
  Definition xpull_body (p : ty -> val -> json -> XM val)
      (pc : N -> list (fkey * val) -> list (bytes * json) -> XM (list (fkey * val)))
      (t : ty) (old : val) (j : json) : XM val :=
      let refuse := xlift old (mismatch t j old) xret in
      match t with
      | TBool | TInt _ | TF32 | TF64 | TEnum _ | TString | TView | TCStr | TDateTime | TTimeSpan | TMono =>
          xlift old (pull_body G J (fun _ _ _ => stuck) (fun _ _ _ => stuck) t old j) xret
      | TSeq t' =>
          match j with
          | JArr js =>
              xbind (xitems (fun l j' => xbind (p t' (vinit G t') j') (fun x => l ++ [x]) (fun x => xret (l ++ [x]))) 0 js []) VList
                (fun l => xret (VList l))
          | _ => refuse
          end
      | TSet ord multi t' =>
          match j with
          | JArr js =>
              xbind (xitems (fun l j' =>
                  xbind (p t' (dinit G t') j') (fun _ => l) (fun x =>
                  if is_undef x then fun _ => QUB
                  else
                    let (l', inserted) := emplace G false ord multi t' x l in
                    if multi || inserted then xret l'
                    else xlift l' (report_unchecked UnexpectedDuplicate JTArray JTArray) (fun _ => xret l'))) 0 js []) VList
                (fun l => xret (VList l))
          | _ => refuse
          end
      | TMap ord false TString vt =>
          match old with
          | VList olds =>
              match j with
              | JObj ms =>
                  xbind (xfold (fun l '(n, j') =>
                      let k := VStr (cstr n) in
                      match map_find G ord TString (VPair k VUndef) l with
                      | Some v => xbind (p vt v j') (fun x => map_put G ord TString (VPair k VUndef) x l)
                                    (fun x => xret (map_put G ord TString (VPair k VUndef) x l))
                      | None => xbind (p vt (vinit G vt) j') (fun x => fst (emplace G true ord false TString (VPair k x) l))
                                  (fun x => xret (fst (emplace G true ord false TString (VPair k x) l)))
                      end) ms olds) VList (fun l => xret (VList l))
              | _ => refuse
              end
          | _ => fun _ => QStuck
          end
      | TMap ord true TString vt =>
          match old with
          | VList olds =>
              match j with
              | JObj ms =>
                  xbind (xfold (fun l '(n, j') =>
                      let ins l x := fst (emplace G true ord true TString (VPair (VStr (cstr n)) x) l) in
                      match j' with
                      | JArr js => xfold (fun l j'' => xbind (p vt (vinit G vt) j'') (ins l) (fun x => xret (ins l x))) js l
                      | _ => xbind (p vt (vinit G vt) j') (ins l) (fun x => xret (ins l x))
                      end) ms olds) VList (fun l => xret (VList l))
              | _ => refuse
              end
          | _ => fun _ => QStuck
          end
      | TMap _ _ _ _ => fun _ => QStuck
      | TTuple [] => fun _ => QStuck
      | TTuple ts =>
          match old with
          | VList olds =>
              match j with
              | JArr js =>
                  if (length js =? length ts)%nat
                  then xbind (xtuple p ts olds js) VList (fun l => xret (VList l))
                  else xlift old (report ArraySizeMismatch JTArray JTArray) (fun _ => xret old)
              | _ => refuse
              end
          | _ => fun _ => QStuck
          end
      | TPair ta tb =>
          match old with
          | VPair oa ob =>
              match j with
              | JArr js =>
                  if (length js =? 2)%nat
                  then match nth_error js 0, nth_error js 1 with
                       | Some ja, Some jb =>
                           xbind (p ta oa ja) (fun a => VPair a ob) (fun a =>
                           xbind (p tb ob jb) (fun b => VPair a b) (fun b => xret (VPair a b)))
                       | _, _ => fun _ => QUB
                       end
                  else xlift old (report ArraySizeMismatch JTArray JTArray) (fun _ => xret old)
              | _ => refuse
              end
          | _ => fun _ => QStuck
          end
      | TUnique t' | TOptional t' =>
          match j with
          | JNull => xret (VOpt None)
          | _ => xbind (p t' (vinit G t') j) (fun x => VOpt (Some x)) (fun x => xret (VOpt (Some x)))
          end
      | TShared t' =>
          match j with
          | JNull => xret (VShared None)
          | _ => xbind (xin_new G t' (p t' (vinit G t') j)) (fun a => VShared (Some a)) (fun a => xret (VShared (Some a)))
          end
      | TVariant ts =>
          match j with
          | JObj ms =>
              match alookup bytes_eqb (list_byte_of_string "index") ms, alookup bytes_eqb (list_byte_of_string "data") ms with
              | Some ji, Some jd =>
                  match ji with
                  | JInt z =>
                      if in_range KU64 z then
                        match (if Z.to_N z <? N.of_nat (length ts) then nth_error ts (Z.to_nat z) else None) with
                        | Some TMono => xret (VVar (Z.to_nat z) VMono)
                        | Some t' => xbind (p t' (vinit G t') jd) (VVar (Z.to_nat z)) (fun x => xret (VVar (Z.to_nat z) x))
                        | None => xlift old (report InvalidVariantIndex JTNumber JTNumber) (fun _ => xret old)
                        end
                      else xlift old (report InvalidVariantIndex JTNumber (type_of ji)) (fun _ => xret old)
                  | _ => xlift old (report InvalidVariantIndex JTNumber (type_of ji)) (fun _ => xret old)
                  end
              | _, _ => xlift old (report InvalidVariantObject JTObject JTObject) (fun _ => xret old)
              end
          | _ => refuse
          end
      | TStruct c =>
          match old with
          | VObj os =>
              match j with
              | JObj ms => xbind (pc c os ms) VObj (fun fs => xret (VObj fs))
              | _ => refuse
              end
          | _ => fun _ => QStuck
          end
      end.

  (** pull of a member (lib/json/reflector.h:973-997) *)
  Definition xpull_member (p : ty -> val -> json -> XM val) (ms : list (bytes * json)) (fd : jfield) (os : list (fkey * val))
    : XM (list (fkey * val)) :=
    match alookup fkey_eqb (jf_key fd) os with
    | None => fun _ => QStuck
    | Some o =>
        match alookup bytes_eqb (jf_name fd) ms with
        | None => xret os
        | Some j => xbind (xin_member (jf_name fd) (p (jf_ty fd) o j)) (fun x => aupdate fkey_eqb (jf_key fd) x os)
                      (fun x => xret (aupdate fkey_eqb (jf_key fd) x os))
        end
    end.

  (** pull of a class (generator/jsonserializationcodegenerator.cpp:144-174, lib/json/reflector-boosthana.h:39-46) *)
  Definition xpull_cls_body (p : ty -> val -> json -> XM val)
      (pc : N -> list (fkey * val) -> list (bytes * json) -> XM (list (fkey * val)))
      (c : N) (os : list (fkey * val)) (ms : list (bytes * json)) : XM (list (fkey * val)) :=
      match g_class G c with
      | None => fun _ => QStuck
      | Some rc =>
        match rc_pull rc with
        | None => fun _ => QStuck
        | Some prog =>
          xbind (xfold (fun os b => pc b os ms) (jp_bases prog) os) (fun a => a) (fun os1 =>
          let members := xfold (fun os fd => xpull_member p ms fd os) (jp_fields prog) os1 in
          match jp_record prog with
          | Some n => xin_record n members
          | None => members
          end)
        end
      end.

  (** tie the recursive knot *)
  Fixpoint xpull (fuel : nat) (t : ty) (old : val) (j : json) {struct fuel} : XM val :=
    match fuel with O => fun _ => QFuel | S f => xpull_body (xpull f) (xpull_cls f) t old j end
  with xpull_cls (fuel : nat) (c : N) (os : list (fkey * val)) (ms : list (bytes * json)) {struct fuel} : XM (list (fkey * val)) :=
    match fuel with O => fun _ => QFuel | S f => xpull_cls_body (xpull f) (xpull_cls f) c os ms end.
End Pull.
