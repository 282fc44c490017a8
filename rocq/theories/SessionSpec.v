(** SessionSpec.v -- vocabulary for using one serializer for several values while the program continues to run in between (property C80) *)
From Coq Require Import List NArith ZArith Bool.
From Verif Require Import Base Types BinModel BinSpec BinSafeSpec.
Import ListNotations.

(** one call of BinarySerializer::write (lib/binary/reflector.h:122-137, 257-335): the objects owned by shared pointers at the time of the call, the version and type, the
    value, and the variable and version used for reading it later ([cl_ex]: as in [good]) *)
Record call := mkcall { cl_heap : heap; cl_ex : bool; cl_wv : N; cl_rv : N; cl_ty : ty; cl_old : val; cl_val : val }.
Definition proper (G : genv) (c : call) : Prop :=
  heap_good G (cl_heap c) /\ good G (cl_heap c) (cl_ex c) (cl_wv c) (cl_rv c) (cl_ty c) (cl_old c) (cl_val c).

(** the calls are made one after another with the same serializer; the map of pointers which have been written (lib/binary/reflector.h:118) lives as long as the serializer *)
Definition write_all (G : genv) (fuel : nat) (l : list call) (W : list N) : res (bytes * list N) :=
  wr_iter (fun c W => write G (cl_heap c) fuel (cl_wv c) (cl_ty c) (cl_val c) W) l W.
Definition read_all (G : genv) (fuel : nat) (l : list call) (s : bytes) (st : rstate) : res (list val * bytes * rstate) :=
  read_values G fuel (map (fun c => (cl_rv c, cl_ty c, cl_old c)) l) s st.

(** in between objects may be created, modified and destroyed, but no address is used for objects of different types *)
Definition types_agree (l : list call) : Prop := forall c c' a t t', In c l -> In c' l -> hty (cl_heap c) a = Some t -> hty (cl_heap c') a = Some t' -> t = t'.

(** [S] has the objects with the content they had when they have been written for the first time *)
Definition snapshot (G : genv) (fuel : nat) (l : list call) (S : heap) : Prop :=
  forall done c todo bs W bs' W' a x, l = done ++ c :: todo -> write_all G fuel done [] = ROk (bs, W) -> write G (cl_heap c) fuel (cl_wv c) (cl_ty c) (cl_val c) W = ROk (bs', W') ->
    In a W' -> ~ In a W -> hget (cl_heap c) a = Some x -> hget S a = Some x.
(** whatever is in [S] has been in memory during one of the calls *)
Definition from_calls (l : list call) (S : heap) : Prop := forall a x, hget S a = Some x -> exists c, In c l /\ hget (cl_heap c) a = Some x.
