(** PropertiesEquiv.v -- property C69: documents which mean the same have the same result *)
From Coq Require Import String List NArith ZArith Bool Permutation Lia.
From Verif Require Import Base BaseFacts Types TypesFacts BinModel BinSpec BinSafeSpec BinSafe Float JsonModel JsonRel JsonErr JsonSpec JsonSafeSpec JsonSafe JsonFacts JsonText JsonTextTop JsonTextEnd SerSpec JTreeSpec JTreeFacts AddrSpec AddrFacts PropertiesAddr
  EquivSpec EquivExact EquivRun EquivMap EquivPull EquivTop.
Import ListNotations.
Local Open Scope list_scope.

(** C69: if documents only differ in what does not matter for the type -- the order of the members objects of classes and variants are read from, members no member variable has the
    name of, further members of the same name, characters of names after a NUL character, and what arrays and objects consist of where they cannot be read at all -- at any
    depth, the result is exactly the same: value, objects, errors, exception, whatever the variable, the error list and the settings are *)
Theorem C69_same_meaning : forall G J t j j', equivalent G false t j j' -> forall fuel old st, pull G J fuel t old j st = pull G J fuel t old j' st.
Proof. intros G J t j j' E fuel old st. exact (proj1 (pull_exact G J fuel) t j j' old st E). Qed.
Print Assumptions C69_same_meaning.

Theorem C69_same_meaning_fromJson : forall G J t j j', equivalent G false t j j' -> forall fuel st, fromJson G J fuel t j st = fromJson G J fuel t j' st.
Proof.
  intros G J t j j' E fuel st. pose proof (C69_same_meaning G J t j j' E fuel (dinit G t) st) as P.
  assert (MM : mismatch t j (vinit G t) st = mismatch t j' (vinit G t) st) by (unfold mismatch; rewrite (equivalent_type _ _ _ _ _ E); reflexivity).
  destruct (equivalent_kind _ _ _ _ _ E) as [<- |[(a & b & -> & ->)|(a & b & -> & ->)]]; [reflexivity| |];
    (unfold fromJson; destruct t; first [reflexivity|exact P]).
Qed.
Print Assumptions C69_same_meaning_fromJson.

(** C69: in particular the members a class is read from may be in any order (if the names are distinct), *)
Theorem C69_class_members : forall G J c L, JsonSpec.members G rc_pull c L -> forall ms ms', Permutation ms ms' -> NoDup (map fst ms) ->
  forall fuel old st, pull G J fuel (TStruct c) old (JObj ms) st = pull G J fuel (TStruct c) old (JObj ms') st.
Proof.
  intros G J c L ML ms ms' P ND. apply C69_same_meaning. apply (eq_struct G false c L); [exact ML|]. intros fd _.
  rewrite (lookup_perm ms ms' (jf_name fd) P ND). destruct (alookup _ _ _); constructor. apply eq_same.
Qed.
Print Assumptions C69_class_members.
(** and members no member variable has the name of are ignored, wherever they are *)
Theorem C69_unknown_members : forall G J c L, JsonSpec.members G rc_pull c L -> forall n x ms1 ms2, ~ In n (map jf_name L) ->
  forall fuel old st, pull G J fuel (TStruct c) old (JObj (ms1 ++ (n, x) :: ms2)) st = pull G J fuel (TStruct c) old (JObj (ms1 ++ ms2)) st.
Proof.
  intros G J c L ML n x ms1 ms2 NI. apply C69_same_meaning. apply (eq_struct G false c L); [exact ML|]. intros fd Hfd.
  assert (E : alookup bytes_eqb (jf_name fd) (ms1 ++ (n, x) :: ms2) = alookup bytes_eqb (jf_name fd) (ms1 ++ ms2)).
  { induction ms1 as [|[m y] ms1 IH]; cbn [app alookup]; [|destruct (bytes_eqb (jf_name fd) m); [reflexivity|exact IH]].
    destruct (bytes_eqb (jf_name fd) n) eqn:E; [|reflexivity]. apply bytes_eqb_eq in E. destruct NI. rewrite <- E. apply in_map. exact Hfd. }
  rewrite E. destruct (alookup bytes_eqb (jf_name fd) (ms1 ++ ms2)); constructor. apply eq_same.
Qed.
Print Assumptions C69_unknown_members.

(** C69: documents which differ in the order of members anywhere mean the same for types without hash maps *)
Theorem C69_reordered_means_same : forall G C, classes_ordered G C -> forall t j j', maps_ordered C t -> reordered j j' -> equivalent G true t j j'.
Proof. intros G C CO t j j' M R. exact (reordered_equivalent G C CO j j' R t M). Qed.
Print Assumptions C69_reordered_means_same.

(** C69: the order of the entries of maps does not matter either, except for the addresses of new objects, the order errors are reported in and the array indexes in errors *)
Theorem C69_maps : forall G J ud, alloc_ok G -> place_ok G -> jenv_ok G ud (fun _ => True) false -> conv_ok J -> plain_defaults G -> pulled_members_free G -> strings_ordered G ->
  forall fuel t old j j' st v st1, pullable G (fun _ => True) false t -> keys_free G t ->
    variable_ok G ud (p_heap st) t old -> (forall a, refers old a -> exists_at (p_heap st) a) -> heap_typed G ud (p_heap st) -> no_dangling (p_heap st) ->
    json_wf j -> equivalent G true t j j' ->
    pull G J fuel t old j st = POk v st1 -> exists v' st1', pull G J fuel t old j' st = POk v' st1' /\ same_effect st v st1 v' st1'.
Proof. intros G J ud HA HP HE HC PD MF SO fuel t old j j' st v st1 R K O RO T ND W E X. eapply (pull_effect G J ud); eassumption. Qed.
Print Assumptions C69_maps.

(** C69: reordering the members of a document, anywhere: deserialising one document succeeds if and only if deserialising the other one succeeds, with the same result *)
Theorem C69_reordered : forall G J ud C, alloc_ok G -> place_ok G -> jenv_ok G ud (fun _ => True) false -> conv_ok J -> plain_defaults G -> pulled_members_free G -> strings_ordered G -> classes_ordered G C ->
  forall fuel t old j j' st, pullable G (fun _ => True) false t -> keys_free G t -> maps_ordered C t ->
    variable_ok G ud (p_heap st) t old -> (forall a, refers old a -> exists_at (p_heap st) a) -> heap_typed G ud (p_heap st) -> no_dangling (p_heap st) ->
    json_wf j -> reordered j j' ->
    match pull G J fuel t old j st, pull G J fuel t old j' st with
    | POk v st1, POk v' st1' => same_effect st v st1 v' st1'
    | POk _ _, _ | _, POk _ _ => False
    | _, _ => True
    end.
Proof.
  intros G J ud C HA HP HE HC PD MF SO CO fuel t old j j' st R K M O RO T ND W RR.
  pose proof (C69_maps G J ud HA HP HE HC PD MF SO fuel t old j j' st) as X.
  pose proof (C69_maps G J ud HA HP HE HC PD MF SO fuel t old j' j st) as Y.
  assert (E : equivalent G true t j j') by (eapply C69_reordered_means_same; eassumption).
  assert (E' : equivalent G true t j' j) by (eapply C69_reordered_means_same; try eassumption; apply reordered_sym; exact RR).
  assert (W' : json_wf j') by (eapply reordered_wf; eassumption).
  destruct (pull G J fuel t old j st) as [v st1|? ?| | |].
  - destruct (X v st1 R K O RO T ND W E eq_refl) as (v' & st1' & -> & Q). exact Q.
  - destruct (pull G J fuel t old j' st) as [v' st1'|? ?| | |]; try exact I. destruct (Y v' st1' R K O RO T ND W' E' eq_refl) as (? & ? & Q & _). discriminate Q.
  - destruct (pull G J fuel t old j' st) as [v' st1'|? ?| | |]; try exact I. destruct (Y v' st1' R K O RO T ND W' E' eq_refl) as (? & ? & Q & _). discriminate Q.
  - destruct (pull G J fuel t old j' st) as [v' st1'|? ?| | |]; try exact I. destruct (Y v' st1' R K O RO T ND W' E' eq_refl) as (? & ? & Q & _). discriminate Q.
  - destruct (pull G J fuel t old j' st) as [v' st1'|? ?| | |]; try exact I. destruct (Y v' st1' R K O RO T ND W' E' eq_refl) as (? & ? & Q & _). discriminate Q.
Qed.
Print Assumptions C69_reordered.

(** nothing has been allocated and the same errors have been reported *)
Lemma nothing_new st v st1 : (forall a, ~ refers v a) -> no_dangling (p_heap st) -> p_heap st1 = p_heap st -> (exists new, reported st1 = reported st ++ new) -> same_effect st v st1 v st1.
Proof.
  intros N ND E (new & En). split.
  - exists (itself (p_heap st)). split; [apply itself_one|]. split; [intros a X; split; [reflexivity|exact X]|]. rewrite E.
    split; [intros a X; exists a; split; [reflexivity|exact X]|]. split; [intros a X; exists a; split; [reflexivity|exact X]|]. split; [apply itself_alike; exact ND|apply alike_at; intros a R; destruct (N a R)].
  - exists new, new. split; [exact En|]. split; [exact En|apply Permutation_refl].
Qed.
Lemma mismatch_new t j old st v st1 : mismatch t j old st = POk v st1 -> v = old /\ p_heap st1 = p_heap st /\ exists new, reported st1 = reported st ++ new.
Proof.
  rewrite mismatch_spec. unfold reports, reported. destruct (p_err st) as [e|] eqn:E.
  - destruct (fatal _ _); [discriminate|]. intros [= <- <-]. split; [reflexivity|]. split; [reflexivity|]. cbn [p_err es_errs]. eexists. reflexivity.
  - intros [= <- <-]. split; [reflexivity|]. split; [reflexivity|]. exists []. rewrite E. reflexivity.
Qed.

(** C69: fromJson *)
Theorem C69_fromJson : forall G J ud C, alloc_ok G -> place_ok G -> jenv_ok G ud (fun _ => True) false -> conv_ok J -> plain_defaults G -> pulled_members_free G -> strings_ordered G -> classes_ordered G C ->
  forall fuel t j j' st, pullable G (fun _ => True) false t -> keys_free G t -> maps_ordered C t ->
    heap_typed G ud (p_heap st) -> no_dangling (p_heap st) -> json_wf j -> reordered j j' ->
    match fromJson G J fuel t j st, fromJson G J fuel t j' st with
    | POk v st1, POk v' st1' => same_effect st v st1 v' st1'
    | POk _ _, _ | _, POk _ _ => False
    | _, _ => True
    end.
Proof.
  intros G J ud C HA HP HE HC PD MF SO CO fuel t j j' st R K M T ND W RR.
  pose proof (C69_reordered G J ud C HA HP HE HC PD MF SO CO fuel t (dinit G t) j j' st R K M (dinit_ok G ud _ _ HE t _ R) (fun a r => False_ind _ (plain_dinit G PD t a r)) T ND W RR) as P.
  assert (E : equivalent G true t j j') by (eapply C69_reordered_means_same; eassumption).
  assert (Q : match mismatch t j (vinit G t) st, mismatch t j' (vinit G t) st with
    | POk v st1, POk v' st1' => same_effect st v st1 v' st1' | POk _ _, _ | _, POk _ _ => False | _, _ => True end).
  { assert (Z : mismatch t j' (vinit G t) st = mismatch t j (vinit G t) st) by (unfold mismatch; rewrite (equivalent_type _ _ _ _ _ E); reflexivity). rewrite Z.
    destruct (mismatch t j (vinit G t) st) eqn:EM; try exact I. apply mismatch_new in EM as (-> & H2 & H3). apply nothing_new; try assumption. intros a X. exact (plain_vinit G PD t a X). }
  assert (S : forall v, (forall a, ~ refers v a) -> same_effect st v st v st) by (intros v N; apply nothing_new; [exact N|exact ND|reflexivity|exists []; rewrite app_nil_r; reflexivity]).
  assert (NR : forall b a, ~ refers (VBool b) a) by (intros b a X; inversion X). assert (NI : forall b a, ~ refers (VInt b) a) by (intros b a X; inversion X).
  assert (N3 : forall b a, ~ refers (VF32 b) a) by (intros b a X; inversion X). assert (N6 : forall b a, ~ refers (VF64 b) a) by (intros b a X; inversion X).
  assert (NS : forall b a, ~ refers (VStr b) a) by (intros b a X; inversion X).
  destruct (equivalent_kind _ _ _ _ _ E) as [<- |[(a & b & -> & ->)|(a & b & -> & ->)]].
  - unfold fromJson in *. destruct t; try exact I; try (destruct j; first [exact P|exact Q|apply S; auto]; fail).
    + destruct (json_kind k); [|exact I]. destruct j; try exact Q. destruct (in_range k z); [apply S; auto|exact Q].
    + destruct j; try exact Q. destruct (is_float n); [apply S; auto|exact Q].
  - unfold fromJson; destruct t; try exact I; try exact P; try exact Q. destruct (json_kind k); [exact Q|exact I].
  - unfold fromJson; destruct t; try exact I; try exact P; try exact Q. destruct (json_kind k); [exact Q|exact I].
Qed.
Print Assumptions C69_fromJson.

(** C69: fromJson for two texts: what has been deserialised is serialised to the same text *)
Theorem C69_texts : forall E G J ud C, alloc_ok G -> place_ok G -> jenv_ok G ud (fun _ => True) false -> conv_ok J -> plain_defaults G -> pulled_members_free G -> strings_ordered G -> classes_ordered G C ->
  (forall x n, te_strtod E x = Some n -> (n < 2 ^ 64)%N) ->
  forall fuel t text text' j j' rest rest' st v st1, pullable G (fun _ => True) false t -> keys_free G t -> maps_ordered C t -> heap_typed G ud (p_heap st) -> no_dangling (p_heap st) ->
    parseJsonDocFromString E text = TOk j rest -> parseJsonDocFromString E text' = TOk j' rest' -> reordered j j' ->
    fromJsonText E G J fuel t text st = Some (POk v st1) ->
    exists v' st1', fromJsonText E G J fuel t text' st = Some (POk v' st1') /\ same_effect st v st1 v' st1'
      /\ forall fuel', toJson E G J (p_heap st1) fuel' t v = toJson E G J (p_heap st1') fuel' t v'.
Proof.
  intros E G J ud C HA HP HE HC PD MF SO CO HS fuel t text text' j j' rest rest' st v st1 R K M T ND P P' RR X.
  unfold fromJsonText in *. rewrite P in X. rewrite P'. injection X as X.
  assert (W : json_wf j) by (destruct (doc_total E text) as [Z|(j0 & r0 & Z & W)]; rewrite P in Z; [discriminate Z|injection Z as <- <-; exact (parsed_wf E j HS W)]).
  pose proof (C69_fromJson G J ud C HA HP HE HC PD MF SO CO fuel t j j' st R K M T ND W RR) as Q. rewrite X in Q.
  destruct (fromJson G J fuel t j' st) as [v' st1'| | | |]; try contradiction. exists v', st1'. split; [reflexivity|]. split; [exact Q|].
  intros fuel'. destruct Q as ((ro & _ & _ & _ & _ & HH & A) & _). exact (C68_toJson E G J _ _ ro fuel' t v v' HH A).
Qed.
Print Assumptions C69_texts.
