(** PropertiesDispatch.v -- property C55: which overload is taken, and for which types the functions of the
    library can be used. *)
From Coq Require Import List NArith ZArith Bool Lia.
From Verif Require Import Base Bytes Types BinModel BinSafeSpec JsonModel JsonSafeSpec DispatchModel DispatchSpec DispatchFacts DispatchExact.
Import ListNotations.
Open Scope nat_scope.

(** ** Which types can be used *)

(** BinaryDeserializer::read compiles for a type -- the overload is unambiguous here and everywhere below, and all
    functions needed exist -- if and only if the model considers the type readable. *)
Theorem C55_read_exactly (K : N -> kclass) (G : genv) (X : cxx) (t : ty) :
  same_classes K G -> readable_members G -> denotes K X t ->
  (bcompiles K (CallRead X) <-> readable G t).
Proof.
  intros SC M D. split; [exact (read_exact K G SC t X D) | intros R; exact (proj1 (read_compiles K G SC M X t D R))].
Qed.

Theorem C55_write_exactly (K : N -> kclass) (G : genv) (X : cxx) (t : ty) :
  same_classes K G -> writable_members G -> denotes K X t ->
  (bcompiles K (CallWrite X) <-> writable G t).
Proof.
  intros SC M D. split; [exact (write_exact K G SC t X D) | intros R; exact (proj1 (write_compiles K G SC M X t D R))].
Qed.

Theorem C55_push_exactly (K : N -> kclass) (G : genv) (X : cxx) (t : ty) :
  same_classes K G -> pushable_members G -> denotes K X t ->
  (jcompiles K (Push user X) <-> pushable G t).
Proof.
  intros SC M D. split.
  - apply (push_exact K G SC t X user D). left. unfold user. lia.
  - intros R. apply (json_compiles_push K G SC M (Push user X) eq_refl). exists t. split; [exact D |]. split; [exact R |]. left. unfold user. lia.
Qed.

Theorem C55_pull_exactly (K : N -> kclass) (G : genv) (X : cxx) (t : ty) :
  same_classes K G -> pullable_members G -> denotes K X t ->
  (jcompiles K (Pull user X) <-> json_readable G t).
Proof.
  intros SC M D. split.
  - apply (pull_exact K G SC t X user D). left. unfold user. lia.
  - intros R. apply (json_compiles_pull K G SC M (Pull user X) eq_refl). exists t. split; [exact D |]. split; [exact R |]. left. unfold user. lia.
Qed.

(** ** Which overload is taken *)

(** For a readable type, and for the types of all variables which reading such a variable reads in turn -- elements,
    members of classes, values of pointers, at any depth -- the compiler finds exactly one best overload: the one
    the branch of the model for the type describes.  The same holds for the functions which take a version. *)
Theorem C55_read_overload (K : N -> kclass) (G : genv) (X : cxx) (t : ty) :
  same_classes K G -> readable_members G -> denotes K X t -> readable G t ->
  (exists o, read_branch t = Some o /\ bresolve K (CallRead X) = Some o)
  /\ (forall Y, breaches K (CallRead X) (CallRead Y) ->
        exists u o, denotes K Y u /\ readable G u /\ read_branch u = Some o /\ bresolve K (CallRead Y) = Some o)
  /\ (forall Y, breaches K (CallRead X) (CallReadVersion Y) ->
        exists u o, denotes K Y u /\ readable G u /\ version_branch u = Some o /\ bresolve K (CallReadVersion Y) = Some o)
  /\ (forall Y, ~ breaches K (CallRead X) (CallWrite Y) /\ ~ breaches K (CallRead X) (CallWriteVersion Y)).
Proof.
  intros SC M D R.
  assert (A : forall c, breaches K (CallRead X) c -> exists a, (c = CallRead a \/ c = CallReadVersion a) /\ exists u, denotes K a u /\ readable G u).
  { intros c B. apply (read_reaches_from K G SC M _ _ B). exists X. split; [now left |]. exists t. split; assumption. }
  split; [exact (resolve_read_ok K G X t D R) |]. split; [| split].
  - intros Y B. destruct (A _ B) as (a & [E | E] & u & Du & Ru); try discriminate E. injection E as <-.
    destruct (resolve_read_ok K G Y u Du Ru) as (o & E1 & E2). exists u, o. auto.
  - intros Y B. destruct (A _ B) as (a & [E | E] & u & Du & Ru); try discriminate E. injection E as <-.
    destruct (resolve_read_version_ok K G Y u Du Ru) as (o & E1 & E2). exists u, o. auto.
  - intros Y. split; intros B; destruct (A _ B) as (a & [E | E] & _); discriminate E.
Qed.

Theorem C55_write_overload (K : N -> kclass) (G : genv) (X : cxx) (t : ty) :
  same_classes K G -> writable_members G -> denotes K X t -> writable G t ->
  (exists o, write_branch t = Some o /\ bresolve K (CallWrite X) = Some o)
  /\ (forall Y, breaches K (CallWrite X) (CallWrite Y) ->
        exists u o, denotes K Y u /\ writable G u /\ write_branch u = Some o /\ bresolve K (CallWrite Y) = Some o)
  /\ (forall Y, breaches K (CallWrite X) (CallWriteVersion Y) ->
        exists u o, denotes K Y u /\ writable G u /\ version_branch u = Some o /\ bresolve K (CallWriteVersion Y) = Some o)
  /\ (forall Y, ~ breaches K (CallWrite X) (CallRead Y) /\ ~ breaches K (CallWrite X) (CallReadVersion Y)).
Proof.
  intros SC M D R.
  assert (A : forall c, breaches K (CallWrite X) c -> exists a, (c = CallWrite a \/ c = CallWriteVersion a) /\ exists u, denotes K a u /\ writable G u).
  { intros c B. apply (write_reaches_from K G SC M _ _ B). exists X. split; [now left |]. exists t. split; assumption. }
  split; [exact (resolve_write_ok K G X t D R) |]. split; [| split].
  - intros Y B. destruct (A _ B) as (a & [E | E] & u & Du & Ru); try discriminate E. injection E as <-.
    destruct (resolve_write_ok K G Y u Du Ru) as (o & E1 & E2). exists u, o. auto.
  - intros Y B. destruct (A _ B) as (a & [E | E] & u & Du & Ru); try discriminate E. injection E as <-.
    destruct (resolve_write_version_ok K G Y u Du Ru) as (o & E1 & E2). exists u, o. auto.
  - intros Y. split; intros B; destruct (A _ B) as (a & [E | E] & _); discriminate E.
Qed.

(** The overloads of push: also for the calls inside the library's templates, which only see the overloads declared
    before them. *)
Theorem C55_push_overload (K : N -> kclass) (G : genv) (X : cxx) (t : ty) :
  same_classes K G -> pushable_members G -> denotes K X t -> pushable G t ->
  (exists o, push_branch t = Some o /\ jresolve K (Push user X) = Some o)
  /\ (forall line Y, jreaches K (Push user X) (Push line Y) ->
        exists u o, denotes K Y u /\ pushable G u /\ push_branch u = Some o /\ jresolve K (Push line Y) = Some o).
Proof.
  intros SC M D R.
  assert (GC : good_call K G (Push user X)) by (exists t; split; [exact D |]; split; [exact R |]; left; unfold user; lia).
  split.
  - destruct GC as (u & Du & Ru & L). apply (push_ok_resolves K G user X t D R). left. unfold user. lia.
  - intros line Y B. destruct (push_reaches K G SC M (Push user X) (Push line Y) eq_refl GC B) as [_ (u & Du & Ru & L)].
    destruct (push_ok_resolves K G line Y u Du Ru L) as (o & E1 & E2). exists u, o. auto.
Qed.

Theorem C55_pull_overload (K : N -> kclass) (G : genv) (X : cxx) (t : ty) :
  same_classes K G -> pullable_members G -> denotes K X t -> json_readable G t ->
  (exists o, In o (pull_branch t) /\ jresolve K (Pull user X) = Some o)
  /\ (forall line Y, jreaches K (Pull user X) (Pull line Y) ->
        exists u o, denotes K Y u /\ json_readable G u /\ In o (pull_branch u) /\ jresolve K (Pull line Y) = Some o)
  /\ (forall line Y, jreaches K (Pull user X) (PullFromArray line Y) ->
        exists u o, denotes K Y u /\ json_readable G u /\ array_branch u = Some o /\ jresolve K (PullFromArray line Y) = Some o).
Proof.
  intros SC M D R.
  assert (GC : good_call K G (Pull user X)) by (exists t; split; [exact D |]; split; [exact R |]; left; unfold user; lia).
  split; [| split].
  - apply (pull_ok_resolves K G user X t D R). left. unfold user. lia.
  - intros line Y B. destruct (pull_reaches K G SC M (Pull user X) (Pull line Y) eq_refl GC B) as [_ (u & Du & Ru & L)].
    destruct (pull_ok_resolves K G line Y u Du Ru L) as (o & E1 & E2). exists u, o. auto.
  - intros line Y B. destruct (pull_reaches K G SC M (Pull user X) (PullFromArray line Y) eq_refl GC B) as [_ (u & o & Du & Ru & E & L)].
    exists u, o. split; [exact Du |]. split; [exact Ru |]. split; [exact E |]. exact (pull_array_resolves K line Y u o Du E L).
Qed.

(** ** What can be restored can be saved *)

Lemma all_variant_iff (P : ty -> Prop) ts :
  (fix all l := match l with [] => True | t :: l' => (t = TMono \/ P t) /\ all l' end) ts <-> (forall t, In t ts -> t = TMono \/ P t).
Proof. induction ts as [|t ts IH]; cbn; [tauto |]. rewrite IH. split; [intros [A B] u [<- | H]; auto | intros A; split; auto]. Qed.
Lemma all_tuple_iff (P : ty -> Prop) ts :
  (fix all l := match l with [] => True | t :: l' => P t /\ all l' end) ts <-> (forall t, In t ts -> P t).
Proof. induction ts as [|t ts IH]; cbn; [tauto |]. rewrite IH. split; [intros [A B] u [<- | H]; auto | intros A; split; auto]. Qed.

(** Whatever type can be read from binary data can be written to it. *)
Theorem C55_readable_is_writable (K : N -> kclass) (G : genv) (X : cxx) (t : ty) :
  same_classes K G -> writable_members G -> denotes K X t ->
  bcompiles K (CallRead X) -> bcompiles K (CallWrite X).
Proof.
  intros SC M D B. apply (C55_write_exactly K G X t SC M D).
  pose proof (read_exact K G SC t X D B) as R. clear B D X. induction t using TypesFacts.ty_ind'; cbn in *; try contradiction; auto.
  - tauto.
  - tauto.
  - destruct R as [N R]. split; [exact N |]. apply all_variant_iff. intros u Hu. rewrite Forall_forall in H.
    destruct (proj1 (all_variant_iff _ _) R u Hu) as [-> | A]; auto.
  - destruct R as (rc & p & Hc & _). eauto.
Qed.

(** no pointer or optional refers to a variant directly *)
Fixpoint no_pointer_to_variant (t : ty) : Prop :=
  match t with
  | TSeq t | TSet _ _ t => no_pointer_to_variant t
  | TUnique t | TOptional t | TShared t => no_pointer_to_variant t /\ is_variant t = false
  | TMap _ _ a b | TPair a b => no_pointer_to_variant a /\ no_pointer_to_variant b
  | TTuple ts | TVariant ts => (fix all l := match l with [] => True | t :: l' => no_pointer_to_variant t /\ all l' end) ts
  | _ => True
  end.

(** Whatever type can be pulled from JSON can be pushed to JSON, unless a pointer or optional refers to a variant. *)
Theorem C55_pullable_is_pushable (K : N -> kclass) (G : genv) (X : cxx) (t : ty) :
  same_classes K G -> pushable_members G -> denotes K X t -> no_pointer_to_variant t ->
  jcompiles K (Pull user X) -> jcompiles K (Push user X).
Proof.
  intros SC M D NV B. apply (C55_push_exactly K G X t SC M D).
  assert (R : json_readable G t) by (apply (pull_exact K G SC t X user D); [left; unfold user; lia | exact B]).
  clear B D X. unfold json_readable in R.
  induction t using TypesFacts.ty_ind'; cbn in *; try contradiction; auto.
  - destruct (json_kind k); [now left | right; tauto].
  - tauto.
  - tauto.
  - tauto.
  - destruct R as [N R]. split; [exact N |]. apply all_tuple_iff. intros u Hu. rewrite Forall_forall in H.
    apply (H u Hu); [exact (proj1 (all_tuple_iff _ _) NV u Hu) | exact (proj1 (all_tuple_iff _ _) R u Hu)].
  - tauto.
  - tauto.
  - tauto.
  - destruct R as [N R]. split; [exact N |]. apply all_variant_iff. intros u Hu. rewrite Forall_forall in H.
    destruct (proj1 (all_variant_iff _ _) R u Hu) as [-> | A]; [now left | right].
    apply (H u Hu); [exact (proj1 (all_tuple_iff _ _) NV u Hu) | exact A].
  - destruct R as (rc & p & Hc & _). eauto.
Qed.

(** ** toJson and fromJson *)

(** toJsonDocument(x): numbers, maps, multimaps, classes marked as JSON-serialisable, and arrays (which std::string_view
    counts as).  There is no overload for anything else: not for strings, sets, pairs, pointers, optionals, variants. *)
Theorem C55_document_overload (K : N -> kclass) (X : cxx) (t : ty) :
  denotes K X t -> resolve_document K X = document_branch K t.
Proof.
  intros D. exact (document_resolves K X t D).
Qed.
Theorem C55_parse_overload (K : N -> kclass) (X : cxx) (t : ty) :
  denotes K X t -> resolve_parse K X = parse_branch K t.
Proof.
  intros D. exact (parse_resolves K X t D).
Qed.

(** toJson is offered for these types and for strings, for which its body does not compile. *)
Theorem C55_toJson_offered (K : N -> kclass) (X : cxx) (t : ty) :
  denotes K X t ->
  (toJson_enabled K X = true <-> document_branch K t <> None \/ t = TString \/ t = TCStr).
Proof.
  intros D. exact (toJson_offered K X t D).
Qed.

(** ** std::string_view *)

(** A std::string_view is written to binary data like the std::string with the same characters (lib/traits.h:57-59 does not
    exclude it from the iterable types, and its elements are characters). *)
Theorem C55_view_written_as_string (G : genv) (H : heap) (fuel : nat) (ver : N) (W : list N) (s : bytes) :
  write G H (S fuel) ver TView (VOpt (Some (VStr s))) W = write G H (S fuel) ver TString (VStr s) W.
Proof. reflexivity. Qed.

(** C55: iterating is enough for pushing: std::forward_list and other containers without size() are pushed by their own overload,
    whenever the elements can be pushed; values of std::forward_list cannot be pulled and written, they can only be read *)
Lemma jcompiles_same K c1 c2 : jresolve K c1 = jresolve K c2 -> call_type c1 = call_type c2 -> jcompiles K c1 -> jcompiles K c2.
Proof.
  intros E T C c' R. inversion R; subst.
  - destruct (C c1 (jr_self _ _)) as (o & l & E1 & E2). exists o, l. rewrite <- E, <- T. split; assumption.
  - apply C. eapply jr_step; [rewrite E; eassumption | rewrite T; eassumption | eassumption | assumption].
Qed.
Lemma jcompiles_one K c o c1 : jresolve K c = Some o -> jinner K o (call_type c) = Some [c1] -> (jcompiles K c <-> jcompiles K c1).
Proof.
  intros E I. split.
  - intros C c' R. apply C. eapply jr_step; [exact E | exact I | left; reflexivity | exact R].
  - intros C c' R. inversion R as [x | x o' l y z E' I' Hin R' E1 E2]; subst; [exists o, [c1]; split; assumption|].
    rewrite E in E'. injection E' as <-. rewrite I in I'. injection I' as <-. destruct Hin as [<- | []]. apply C. exact R'.
Qed.
Theorem C55_without_size (K : N -> kclass) (G : genv) (X a : cxx) (t : ty) :
  same_classes K G -> pushable_members G -> denotes K a t ->
  X = CSpec StdForwardList [a]
  \/ (exists c, X = CClass c /\ k_iteratable (K c) = true /\ k_size (K c) = false /\ k_serializable (K c) = false /\ k_map (K c) = false
        /\ k_multimap (K c) = false /\ k_elements (K c) = [a]) ->
  jresolve K (Push user X) = Some PushUnsized /\ (jcompiles K (Push user X) <-> pushable G t).
Proof.
  intros SC M D HX.
  assert (R : jresolve K (Push user X) = Some PushUnsized /\ jinner K PushUnsized X = Some [PushToArray 237 a]).
  { destruct HX as [-> | (c & -> & H1 & H2 & H3 & H4 & H5 & H6)].
    - split; reflexivity.
    - split.
      + unfold jresolve, select, count, jfits, jcond. cbn. rewrite ?H1, ?H2, ?H3, ?H4, ?H5. cbn.
        unfold IsArrayOrSet, IsMapOrHash, IsMultiMapOrHash, HasSize, IsIteratable, JsonIsBuiltInType, TreatAsMapOrHash, TreatAsMultiMapOrHash, TreatAsSet, TreatAsMultiSet. cbn.
        rewrite ?H1, ?H2, ?H3, ?H4, ?H5. cbn. destruct (k_set (K c)), (k_multiset (K c)); reflexivity.
      + unfold jinner, const_element, element. rewrite H6. reflexivity. }
  destruct R as [R1 R2]. split; [exact R1|]. rewrite (jcompiles_one K (Push user X) PushUnsized (PushToArray 237 a) R1 R2).
  assert (R3 : jresolve K (Push user (CSpec StdList [a])) = Some PushSized) by reflexivity.
  assert (R4 : jinner K PushSized (CSpec StdList [a]) = Some [PushToArray 224 a]) by reflexivity.
  assert (S : jresolve K (PushToArray 237 a) = jresolve K (PushToArray 224 a)) by reflexivity.
  rewrite <- (C55_push_exactly K G (CSpec StdList [a]) (TSeq t) SC M ltac:(apply de_sequence; [reflexivity | intros [? _]; discriminate | exact D])).
  rewrite (jcompiles_one K (Push user (CSpec StdList [a])) PushSized (PushToArray 224 a) R3 R4).
  split; apply jcompiles_same; auto; reflexivity.
Qed.
Print Assumptions C55_without_size.
Theorem C55_forward_list (K : N -> kclass) (a : cxx) :
  ~ jcompiles K (Pull user (CSpec StdForwardList [a])) /\ ~ bcompiles K (CallWrite (CSpec StdForwardList [a]))
  /\ (bcompiles K (CallRead (CSpec StdForwardList [a])) <-> bcompiles K (CallRead a)).
Proof.
  split; [| split].
  - intros C. destruct (C (PullFromArray 638 (CSpec StdForwardList [a]))) as (o & l & E & I).
    + eapply jr_step; [reflexivity | reflexivity | left; reflexivity | apply jr_self].
    + cbn in E. injection E as <-. discriminate I.
  - intros C. destruct (C _ (br_self _ _)) as (o & l & E & I). discriminate E.
  - assert (E : bresolve K (CallRead (CSpec StdForwardList [a])) = Some BResizable) by reflexivity.
    assert (I : binner K BResizable (CallRead (CSpec StdForwardList [a])) = Some [CallRead a]) by reflexivity.
    split; intros C c' R.
    + apply C. eapply br_step; [exact E | exact I | left; reflexivity | exact R].
    + inversion R as [x | x o' l y z E' I' Hin R' E1 E2]; subst; [exists BResizable, [CallRead a]; split; assumption|].
      rewrite E in E'. injection E' as <-. rewrite I in I'. injection I' as <-. destruct Hin as [<- | []]. apply C. exact R'.
Qed.
Print Assumptions C55_forward_list.

Print Assumptions C55_read_exactly.
Print Assumptions C55_write_exactly.
Print Assumptions C55_push_exactly.
Print Assumptions C55_pull_exactly.
Print Assumptions C55_read_overload.
Print Assumptions C55_write_overload.
Print Assumptions C55_push_overload.
Print Assumptions C55_pull_overload.
Print Assumptions C55_readable_is_writable.
Print Assumptions C55_pullable_is_pushable.
Print Assumptions C55_document_overload.
Print Assumptions C55_parse_overload.
Print Assumptions C55_toJson_offered.
Print Assumptions C55_view_written_as_string.
