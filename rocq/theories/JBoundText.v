(** JBoundText.v -- the document denoted by a text is not larger than the text (property C64) *)
From Coq Require Import String List NArith ZArith Bool Arith Lia.
From Verif Require Import Base BaseFacts Types JsonModel JsonText GrammarSpec GrammarFacts JBoundSpec JBoundFacts.
Import ListNotations.
Local Open Scope list_scope.
Local Open Scope nat_scope.

Lemma utf8_length c u : utf8_of c u -> length u <= 4.
Proof. destruct 1; cbn; lia. Qed.
Lemma hex_length h c : hex_code h c -> length h = 4.
Proof. intros (h1 & h2 & h3 & h4 & a1 & a2 & a3 & a4 & -> & _). reflexivity. Qed.
Lemma chars_length t s : chars t s -> length s <= length t.
Proof.
  induction 1 as [|b t s _ _ _ _ IH|e c t s _ _ IH|h c u t s H _ U _ IH|h1 h2 hi lo u t s H1 H2 _ _ U _ IH]; rewrite ?app_length in *; cbn [length] in *; try lia.
  - apply utf8_length in U. apply hex_length in H. change (length (chr "\u")) with 2. lia.
  - apply utf8_length in U. apply hex_length in H1, H2. change (length (chr "\u")) with 2. lia.
Qed.
Lemma quoted_length t s : quoted t s -> 1 + length s <= length t.
Proof. intros (x & -> & H). apply chars_length in H. rewrite !app_length. cbn. lia. Qed.
Lemma int_length m i f e : number_text m i f e -> 1 <= length i.
Proof. intros N. destruct (nt_int _ _ _ _ N) as [-> | [[Hn _] _]]; [cbn; lia|]. destruct i; [congruence|cbn; lia]. Qed.
Lemma number_length T t j : number T t j -> jsize j <= length t.
Proof. destruct 1 as [? ? ? N|? ? ? ? N|? ? ? ? ? N]; apply int_length in N; cbn [jsize]; rewrite !app_length; lia. Qed.
Lemma value_length T :
  (forall t j, value_text T t j -> jsize j <= length t)
  /\ (forall t l, items_text T t l -> jsizes l <= length t)
  /\ (forall t ms, members_text T t ms -> msizes ms <= length t).
Proof.
  apply text_ind; intros; rewrite ?app_length in *; try (cbn; lia).
  all: repeat match goal with H : quoted _ _ |- _ => apply quoted_length in H | H : number _ _ _ |- _ => apply number_length in H end.
  all: rewrite ?jsize_arr, ?jsize_obj, ?jsizes_cons, ?msizes_cons in *; change (jsizes []) with 0 in *; change (msizes []) with 0 in *;
    repeat match goal with |- context[length (chr ?c)] => let n := eval compute in (length (chr c)) in change (length (chr c)) with n end; cbn [jsize] in *; try lia.
Qed.
Lemma document_length T text j : json_text T text j -> jsize j <= length text.
Proof. intros (m & w & t & w' & rest & -> & _ & _ & V & _). apply (proj1 (value_length T)) in V. rewrite !app_length. lia. Qed.
