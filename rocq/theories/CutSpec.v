(** CutSpec.v -- vocabulary for property C78 *)
From Coq Require Import List.
From Verif Require Import Base JsonModel.
Import ListNotations.

Definition is_number (j : json) : Prop := match j with JInt _ | JDbl _ => True | _ => False end.
(** [q] is a beginning of [text], but not all of it *)
Definition cut_text (q text : bytes) : Prop := exists s, s <> [] /\ text = q ++ s.
