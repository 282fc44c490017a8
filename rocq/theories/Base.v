(** Base.v -- results, bytes and small list helpers shared by all models.

    Nothing in this file models a specific function of /repo; it only fixes the
    vocabulary (outcomes of a C++ call, bytes, association lists). *)
From Coq Require Import List NArith ZArith Bool Lia.
From Coq.Init Require Byte.
From Coq.Strings Require Byte.
Import ListNotations.

(* ------------------------------------------------------------------ *)
(** * Bytes and byte strings *)

Notation byte := Byte.byte (only parsing).
Definition bytes := list Byte.byte.

(** numeric value of a byte (0..255) *)
Definition bval (b : Byte.byte) : N := Byte.to_N b.

(** the byte with value [n mod 256] ([static_cast<std::uint8_t>(n)]) *)
Definition mkb (n : N) : Byte.byte :=
  match Byte.of_N (N.modulo n 256) with Some b => b | None => Byte.x00 end.

Definition beqb (a b : Byte.byte) : bool := Byte.eqb a b.

Fixpoint bytes_eqb (a b : bytes) : bool :=
  match a, b with
  | [], [] => true
  | x :: a', y :: b' => beqb x y && bytes_eqb a' b'
  | _, _ => false
  end.

(* ------------------------------------------------------------------ *)
(** * Outcomes of a C++ call *)

(** Exceptions which can leave the (de)serialisation functions. *)
Inductive exn : Type :=
| ExIo                                   (** std::ios_base::failure of the stream *)
| ExConv                                 (** CppUtilities::ConversionException *)
| ExVersion (present max : N) (record : bytes)  (** VersionNotSupported (lib/versioning.h:29-32) *)
| ExBadVariant.                          (** std::bad_variant_access *)

(** [ROk a]    : the call returns normally
    [RThrow e] : the call throws
    [RUB]      : the call has undefined behaviour
    [RFuel]    : the model ran out of recursion fuel (no statement about the code)
    [RStuck]   : the C++ type checker rejects the call (ill-typed model input) *)
Inductive res (A : Type) : Type :=
| ROk (a : A)
| RThrow (e : exn)
| RUB
| RFuel
| RStuck.
Arguments ROk {A} a.
Arguments RThrow {A} e.
Arguments RUB {A}.
Arguments RFuel {A}.
Arguments RStuck {A}.

Definition rbind {A B} (m : res A) (f : A -> res B) : res B :=
  match m with
  | ROk a => f a
  | RThrow e => RThrow e
  | RUB => RUB
  | RFuel => RFuel
  | RStuck => RStuck
  end.

Declare Scope res_scope.
Notation "'let!' p ':=' m 'in' k" := (rbind m (fun p => k))
  (at level 200, p pattern, m at level 100, k at level 200) : res_scope.
Open Scope res_scope.

(** A C++ counting loop [for (i = 0; i != n; ++i)] with early exit on a throw:
    structural on the binary representation of the bound, so it needs no fuel. *)
Fixpoint loopP {S : Type} (p : positive) (step : S -> res S) (s : S) : res S :=
  match p with
  | xH => step s
  | xO q => let! s1 := loopP q step s in loopP q step s1
  | xI q => let! s0 := step s in let! s1 := loopP q step s0 in loopP q step s1
  end.

Definition loopN {S : Type} (n : N) (step : S -> res S) (s : S) : res S :=
  match n with N0 => ROk s | Npos p => loopP p step s end.

(** The same loop, by iteration on [nat] (only used to reason about [loopN]). *)
Fixpoint loopnat {S : Type} (n : nat) (step : S -> res S) (s : S) : res S :=
  match n with O => ROk s | Datatypes.S m => let! s1 := step s in loopnat m step s1 end.

(* ------------------------------------------------------------------ *)
(** * Association lists *)

Definition omap {A B} (f : A -> B) (o : option A) : option B :=
  match o with Some a => Some (f a) | None => None end.

Fixpoint alookup {K V} (eqb : K -> K -> bool) (k : K) (l : list (K * V)) : option V :=
  match l with
  | [] => None
  | (k', v) :: l' => if eqb k k' then Some v else alookup eqb k l'
  end.

(** overwrite the first binding of [k] (no effect if there is none) *)
Fixpoint aupdate {K V} (eqb : K -> K -> bool) (k : K) (v : V) (l : list (K * V)) : list (K * V) :=
  match l with
  | [] => []
  | (k', v') :: l' => if eqb k k' then (k', v) :: l' else (k', v') :: aupdate eqb k v l'
  end.

Fixpoint insert_at {A} (n : nat) (x : A) (l : list A) : list A :=
  match n, l with
  | O, _ => x :: l
  | S m, [] => [x]
  | S m, y :: l' => y :: insert_at m x l'
  end.
