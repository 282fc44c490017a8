(** JSettleSpec.v -- vocabulary for "what has been deserialised from any JSON document survives being serialised and deserialised again" (property C72) *)
From Coq Require Import List NArith ZArith Bool.
From Verif Require Import Base Types BinModel BinSpec BinSafeSpec ContFacts JsonModel JsonSpec JsonSafeSpec.
Import ListNotations.

(** strings and member names of a document have at most 2^32-1 bytes (the size of RapidJSON's SizeType) *)
Definition strings_32 : json -> Prop := everywhere (fun j =>
  match j with
  | JStr s => (N.of_nat (length s) <= size_max)%N
  | JObj ms => forall n, In n (map fst ms) -> (N.of_nat (length n) <= size_max)%N
  | _ => True
  end).

Section Settled.
  Variable G : genv.
  Variable J : jenv.
  (** [V ex c]: class [c] is considered; [ex]: without shared pointers and hash containers *)
  Variable V : bool -> N -> Prop.

  (** types which are considered: dates which have been parsed survive being printed and parsed again; elements of sets do not contain shared pointers or hash containers
      and are compared by a proper order or equality, and objects in sets are constructed such that they survive; maps have strings as keys (there is no other possibility) *)
  Fixpoint jsettled (ex : bool) (t : ty) : Prop :=
    match t with
    | TBool | TF32 | TF64 | TString | TEnum _ => True
    | TInt k => (json_kind k || byte_kind k) = true
    | TDateTime => je_dt_parse J (cstr (sized (je_dt_print J 0))) = Some 0%Z /\ forall s z, je_dt_parse J s = Some z -> je_dt_parse J (cstr (sized (je_dt_print J z))) = Some z
    | TTimeSpan => je_ts_parse J (cstr (sized (je_ts_print J 0))) = Some 0%Z /\ forall s z, je_ts_parse J s = Some z -> je_ts_parse J (cstr (sized (je_ts_print J z))) = Some z
    | TSeq t | TOptional t | TUnique t => jsettled ex t
    | TSet ord _ t => (ex = true -> ord = true) /\ keys_ok G t /\ jsettled true t /\ (is_scalar t = true \/ jgood G J [] true t (dinit G t) (dinit G t))
    | TMap ord multi kt vt => kt = TString /\ keys_ok G TString /\ (ex = true -> ord = true) /\ (ord = true -> multi = true -> string_keys G true) /\ jsettled ex vt
    | TPair a b => jsettled ex a /\ jsettled ex b
    | TTuple ts => ts <> [] /\ (fix all l := match l with [] => True | t :: l' => jsettled ex t /\ all l' end) ts
    | TShared t => ex = false /\ jsettled false t
    | TVariant ts => ts <> [] /\ (fix all l := match l with [] => True | t :: l' => (t = TMono \/ jsettled ex t) /\ all l' end) ts
    | TStruct c => V ex c
    | TMono | TView | TCStr => False
    end.

  (** the classes: their members are considered, and a newly constructed object survives being pushed and pulled *)
  Definition jsettling : Prop := forall ex c, V ex c -> exists rc L,
    g_class G c = Some rc /\ members G rc_pull c L /\ (forall fd, In fd L -> jsettled ex (jf_ty fd))
    /\ jgood G J [] ex (TStruct c) (VObj (rc_vinit rc)) (VObj (rc_vinit rc)).
End Settled.

(** [deserialised G J fuel t js c st v st']: the documents [js] have been pulled one after the other into a variable of type [t] holding [c], which now holds [v] *)
Inductive deserialised (G : genv) (J : jenv) (t : ty) : list json -> val -> pst -> val -> pst -> Prop :=
| ds_none c st : deserialised G J t [] c st c st
| ds_next fuel j js c st c1 st1 v st' : pull G J fuel t c j st = POk c1 st1 -> deserialised G J t js c1 st1 v st' -> deserialised G J t (j :: js) c st v st'.
