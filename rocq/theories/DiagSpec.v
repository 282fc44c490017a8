(** DiagSpec.v -- C41: exactly which diagnostics the user gets to see (specification) *)
From Coq Require Import String List NArith Bool Lia.
From Verif Require Import Base Types GenModel ToolModel ToolFacts.
Import ListNotations.
Local Open Scope list_scope.
Local Open Scope N_scope.

(** the notes a list of diagnostics begins with *)
Fixpoint leading_notes (ds : list diag) : list diag :=
  match ds with
  | d :: ds' => match d_level d with DNote => d :: leading_notes ds' | _ => [] end
  | [] => []
  end.

(** clang's message about the error limit *)
Definition limit_message (d : diag) : Prop :=
  d_level d = DFatal /\ d_category d = 0 /\ d_text d = bs "too many errors emitted, stopping now".

(** [reported limit resilient failed n quiet ds out]: provided that there was a real error before iff [failed] (without
    error-resilience every error is a real one), that there were [n] errors which count for the limit ([0]: no limit) and
    that the last diagnostic which is not a note was dropped or forgotten iff [quiet], the user sees [out] when clang
    comes across [ds]. *)
Inductive reported (limit : N) (resilient : bool) : bool -> N -> bool -> list diag -> list diag -> Prop :=
| rep_end f n q : reported limit resilient f n q [] []
(* ignored ones and their notes are not shown *)
| rep_ignored f n q d ds out : d_level d = DIgnored ->
    reported limit resilient f n true ds out -> reported limit resilient f n q (d :: ds) out
| rep_note_lost f n d ds out : d_level d = DNote ->
    reported limit resilient f n true ds out -> reported limit resilient f n true (d :: ds) out
| rep_note f n d ds out : d_level d = DNote ->
    reported limit resilient f n false ds out -> reported limit resilient f n false (d :: ds) (d :: out)
(* remarks and warnings are *)
| rep_harmless f n q d ds out : d_level d = DRemark \/ d_level d = DWarning ->
    reported limit resilient f n false ds out -> reported limit resilient f n q (d :: ds) (d :: out)
(* a semantic error, even a fatal one, is shown as a warning and forgotten unless there was a real error *)
| rep_forgotten n q d d' ds out : resilient = true -> semantic_error d -> softened d d' ->
    reported limit resilient false 0 true ds out -> reported limit resilient false n q (d :: ds) (d' :: out)
(* other errors count; they are shown as long as the limit is not exceeded *)
| rep_error f n q d d' ds out : d_level d = DError -> f = true \/ ~ (resilient = true /\ semantic_error d) ->
    limit = 0 \/ n + 1 <= limit -> (if resilient then softened d d' else d' = d) ->
    reported limit resilient true (n + 1) false ds out -> reported limit resilient f n q (d :: ds) (d' :: out)
(* when it is exceeded, a message is shown instead and that's the end *)
| rep_limit f n q d m ds : d_level d = DError -> f = true \/ ~ (resilient = true /\ semantic_error d) ->
    limit <> 0 -> limit < n + 1 -> limit_message m -> reported limit resilient f n q (d :: ds) [m]
(* a fatal one is the end as well; only its notes follow *)
| rep_fatal f n q d d' ds : d_level d = DFatal -> f = true \/ ~ (resilient = true /\ semantic_error d) ->
    (if resilient then softened d d' else d' = d) -> reported limit resilient f n q (d :: ds) (d' :: leading_notes ds).
