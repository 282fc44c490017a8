(** PropertiesCxx.v -- C56: what the text which the generator writes means as C++ code.

    CxxText.v reads the text as C++ code: [file] yields the functions it defines, [run_write], [run_read],
    [run_push_text] and [run_pull_text] execute their bodies. *)
From Coq Require Import String List NArith ZArith Bool Lia.
From Verif Require Import Base Bytes Types BinModel GenModel GenSem GenSpec JsonModel JsonGen CxxText CxxTop.
Import ListNotations.
Local Open Scope list_scope.
Local Open Scope N_scope.

(** C56: nothing at all is generated if there is no class to generate code for *)
Theorem C56_no_classes_no_text : forall o ds, relevant_classes o ds = [] -> generate_binary o ds = [] /\ generate_json o ds = [].
Proof. intros o ds E. unfold generate_binary, generate_json. rewrite E. split; reflexivity. Qed.
Print Assumptions C56_no_classes_no_text.

(** C56: the text defines for each class, in order, one function for serializing, one for deserializing (if the class can be
    default-constructed), and nothing else *)
Theorem C56_binary_file : forall o ds, proper_names o ds -> exists W R,
  file "BinaryReflector" (generate_binary o ds) = Some (file_functions FWrite FRead (relevant_classes o ds) W R).
Proof. intros o ds PN. eexists _, _. apply binary_file_functions, PN. Qed.
Print Assumptions C56_binary_file.
Theorem C56_json_file : forall o ds, proper_names o ds -> exists W R,
  file "JsonReflector" (generate_json o ds) = Some (file_functions FPush FPull (relevant_classes o ds) W R).
Proof. intros o ds PN. eexists _, _. apply json_file_functions, PN. Qed.
Print Assumptions C56_json_file.

(** C56: executing the body of a writer (whatever the functions it calls do) serializes the base classes, then the version,
    then the members which belong to that version, in the order of the declarations *)
Theorem C56_writer_calls : forall o ds W R, proper_names o ds ->
  file "BinaryReflector" (generate_binary o ds) = Some (file_functions FWrite FRead (relevant_classes o ds) W R) ->
  forall k, In k (relevant_classes o ds) ->
  exists names, (forall v, selected (befriends (k_rec k) fn_write) v [] (cr_decls (k_rec k)) (names v))
  /\ forall S vmax base member varint ver (s : S), version_constant vmax k ->
     run_write vmax base member varint (W k) ver s
     = write_calls (class_version k) (map qname (find_bases ds (relevant_classes o ds) k)) names base member varint ver s.
Proof.
  intros o ds W R PN FF k Hk. destruct (W_runs o ds PN W R FF k Hk) as (names & SE & Q). exists names. split; [exact SE|].
  intros S vmax base member varint ver s V. apply (Q S vmax base member varint ver s V).
Qed.
Print Assumptions C56_writer_calls.

(** C56: likewise for a reader; the members belong to the version which was found *)
Theorem C56_reader_calls : forall o ds W R, proper_names o ds ->
  file "BinaryReflector" (generate_binary o ds) = Some (file_functions FWrite FRead (relevant_classes o ds) W R) ->
  forall k, In k (relevant_classes o ds) -> cr_defctor (k_rec k) = true ->
  exists names, (forall v, selected (befriends (k_rec k) fn_read) v [] (cr_decls (k_rec k)) (names v))
  /\ forall S vmax base member varint ver (s : S), version_constant vmax k ->
     run_read vmax base member varint (R k) ver s
     = read_calls (qname k) (class_version k) (map qname (find_bases ds (relevant_classes o ds) k)) names base member varint ver s.
Proof.
  intros o ds W R PN FF k Hk D. destruct (R_runs o ds PN W R FF k Hk D) as (names & SE & Q). exists names. split; [exact SE|].
  intros S vmax base member varint ver s V. apply (Q S vmax base member varint ver s V).
Qed.
Print Assumptions C56_reader_calls.

(** C56: executing the body of a push function pushes the base classes, then the accessible members under their names *)
Theorem C56_push_calls : forall o ds W R, proper_names o ds ->
  file "JsonReflector" (generate_json o ds) = Some (file_functions FPush FPull (relevant_classes o ds) W R) ->
  forall k, In k (relevant_classes o ds) ->
  exists names, listed (pushable (befriends (k_rec k) fn_push)) (cr_decls (k_rec k)) names
  /\ forall S base member (s : S),
     run_push_text base member (W k) s = push_calls (map qname (find_bases ds (relevant_classes o ds) k)) names base member s.
Proof.
  intros o ds W R PN FF k Hk. destruct (P_runs o ds PN W R FF k Hk) as (names & SE & Q). exists names. split; [exact SE|].
  intros S base member s. apply (Q S base member s).
Qed.
Print Assumptions C56_push_calls.

(** C56: executing the body of a pull function pulls the base classes, then the accessible members by their names, and the class is
    the current record of the error list while its members are pulled *)
Theorem C56_pull_calls : forall o ds W R, proper_names o ds ->
  file "JsonReflector" (generate_json o ds) = Some (file_functions FPush FPull (relevant_classes o ds) W R) ->
  forall k, In k (relevant_classes o ds) -> cr_defctor (k_rec k) = true ->
  exists names, listed (accessible (befriends (k_rec k) fn_pull)) (cr_decls (k_rec k)) names
  /\ forall A base member (a : A) st,
     run_pull_text base member (R k) a st = pull_calls (qname k) (map qname (find_bases ds (relevant_classes o ds) k)) names base member a st.
Proof.
  intros o ds W R PN FF k Hk D. destruct (L_runs o ds PN W R FF k Hk D) as (names & SE & Q). exists names. split; [exact SE|].
  intros A base member a st. apply (Q A base member a st).
Qed.
Print Assumptions C56_pull_calls.

(** C56: with the library's functions, executing the generated text is what the other theorems are about: writing, reading, pushing and
    pulling an object of the class in the models BinModel.v and JsonModel.v *)
Theorem C56_text_writes : forall o ds G resolve W R, proper_names o ds ->
  (forall k, In k (relevant_classes o ds) -> resolve (qname k) = Some (cr_id (k_rec k))) ->
  file "BinaryReflector" (generate_binary o ds) = Some (file_functions FWrite FRead (relevant_classes o ds) W R) ->
  forall k rc mtype vmax, In k (relevant_classes o ds) -> g_class G (cr_id (k_rec k)) = Some rc -> generated_binary o ds k rc ->
  declared_types k mtype -> version_constant vmax k ->
  forall H f fs ver Ws,
  (let! (_, s) := run_write vmax (lib_write_base G H f resolve fs) (lib_write_member G H f (cr_id (k_rec k)) mtype fs) lib_write_varint (W k) ver ([], Ws) in ROk s)
  = write_cls G H (S f) ver (cr_id (k_rec k)) fs Ws.
Proof. intros. eapply text_writes; eauto. Qed.
Print Assumptions C56_text_writes.
Theorem C56_text_reads : forall o ds G resolve W R, proper_names o ds ->
  (forall k, In k (relevant_classes o ds) -> resolve (qname k) = Some (cr_id (k_rec k))) ->
  file "BinaryReflector" (generate_binary o ds) = Some (file_functions FWrite FRead (relevant_classes o ds) W R) ->
  forall k rc mtype vmax, In k (relevant_classes o ds) -> g_class G (cr_id (k_rec k)) = Some rc -> generated_binary o ds k rc ->
  declared_types k mtype -> version_constant vmax k -> cr_defctor (k_rec k) = true ->
  forall f os ver s st,
  (let! (ver', (os', s', st')) := run_read vmax (lib_read_base G f resolve) (lib_read_member G f (cr_id (k_rec k)) mtype) lib_read_varint (R k) ver (os, s, st) in
   ROk (os', ver', s', st'))
  = read_cls G (S f) ver (cr_id (k_rec k)) os s st.
Proof. intros. eapply text_reads; eauto. Qed.
Print Assumptions C56_text_reads.
Theorem C56_text_pushes : forall o ds G J resolve W R, proper_names o ds ->
  (forall k, In k (relevant_classes o ds) -> resolve (qname k) = Some (cr_id (k_rec k))) ->
  file "JsonReflector" (generate_json o ds) = Some (file_functions FPush FPull (relevant_classes o ds) W R) ->
  forall k rc mtype, In k (relevant_classes o ds) -> g_class G (cr_id (k_rec k)) = Some rc -> generated_json o ds k rc -> declared_types k mtype ->
  forall H f fs ms,
  run_push_text (lib_push_base G J H f resolve fs) (lib_push_member G J H f (cr_id (k_rec k)) mtype fs) (W k) ms = push_cls G J H (S f) (cr_id (k_rec k)) fs ms.
Proof. intros. eapply text_pushes; eauto. Qed.
Print Assumptions C56_text_pushes.
Theorem C56_text_pulls : forall o ds G J resolve W R, proper_names o ds ->
  (forall k, In k (relevant_classes o ds) -> resolve (qname k) = Some (cr_id (k_rec k))) ->
  file "JsonReflector" (generate_json o ds) = Some (file_functions FPush FPull (relevant_classes o ds) W R) ->
  forall k rc mtype, In k (relevant_classes o ds) -> g_class G (cr_id (k_rec k)) = Some rc -> generated_json o ds k rc -> declared_types k mtype ->
  cr_defctor (k_rec k) = true ->
  forall f os ms st,
  run_pull_text (lib_pull_base G J f resolve ms) (lib_pull_member G J f (cr_id (k_rec k)) mtype ms) (R k) os st = pull_cls G J (S f) (cr_id (k_rec k)) os ms st.
Proof. intros. eapply text_pulls; eauto. Qed.
Print Assumptions C56_text_pulls.
