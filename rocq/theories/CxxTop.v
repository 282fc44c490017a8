(** CxxTop.v -- generated files define the functions they have to define *)
From Coq Require Import String List NArith ZArith Bool Lia.
From Verif Require Import Base BaseFacts Bytes Types BinModel GenModel GenSem GenSpec GenFacts GenMarkers GenSelect GenText GenLink JsonModel JsonRel JsonGen
  CxxText CxxFacts CxxLines CxxRun CxxHeads CxxJson.
Import ListNotations.
Local Open Scope list_scope.
Local Open Scope N_scope.

Lemma each_rd_iter {A S} (f : A -> S -> res S) l : forall s, each f l s = rd_iter f l s.
Proof. induction l as [|x l IH]; intros s; cbn; [reflexivity|]. apply rbind_ext. intros. apply IH. Qed.
Lemma each_map {A B S} (g : A -> B) (f : B -> S -> res S) l s : each f (map g l) s = rd_iter (fun x => f (g x)) l s.
Proof. rewrite each_rd_iter. apply rd_iter_map. Qed.

Definition bases_of (o : gopts) (ds : list decl) (k : rclass) : list rclass := find_bases ds (relevant_classes o ds) k.

Section Bodies.
  Variables (rbs : list rclass) (k : rclass).
  Hypothesis (PK : class_proper k) (PR : forall b, In b rbs -> class_proper b).

  Lemma ttoks_version vmax b : version_constant vmax k -> k_base k = Some b -> vmax (ttoks (cb_printed b)) = class_version k.
  Proof.
    intros V E. unfold class_version. rewrite E. destruct PK as (_ & PB & _). specialize (PB _ E). pose proof (V b) as Q. unfold ttoks.
    destruct (tokens (cb_printed b)) as [ts|] eqn:TK; [apply Q; auto|]. exfalso.
    unfold tokens in TK. destruct PB as [_ PB]. pose proof (tstate_text _ PNone I PB) as TS. destruct (lex_text PNone (cb_printed b)) as [p ts]. cbn [fst] in TS.
    destruct p; try discriminate TK; destruct TS.
  Qed.

  Lemma exec_return {S} ob ov om ls : forall stk ver (s : S), exec ob ov om (ls ++ [LReturn]) stk ver s = exec ob ov om ls stk ver s.
  Proof.
    induction ls as [|l ls IH]; intros stk ver s; [reflexivity|]. cbn [app exec]. destruct l; try apply IH.
    - destruct (active stk); [|apply IH]. apply rbind_ext. intros. apply IH.
    - destruct (active stk); [|apply IH]. apply rbind_ext. intros [? ?]. apply IH.
    - destruct (_ && _); [reflexivity|apply IH].
    - destruct stk; [reflexivity|apply IH].
    - destruct (active stk); [|apply IH]. apply rbind_ext. intros. apply IH.
  Qed.

  Lemma writer_text_body : exists body, chunk (concat (map wtext (writer_lines rbs k))) body
    /\ exists names, (forall v, selected (befriends (k_rec k) fn_write) v [] (cr_decls (k_rec k)) (names v))
    /\ forall S vmax base member varint ver (s : S), version_constant vmax k ->
         run_write vmax base member varint body ver s = exec base (on_version_w vmax varint) (fun n _ => member n) (writer_lines rbs k) [] ver s
         /\ run_write vmax base member varint body ver s = write_calls (class_version k) (map qname rbs) names base member varint ver s.
  Proof.
    destruct (writer_body (writer_lines rbs k) (writer_blocks rbs k) (writer_lines_proper rbs k PK PR)) as (body & C & R).
    exists body. split; [exact C|]. exists (fun v => map (fun fd => snd (bf_key fd)) (filter (visible v) (bp_fields (writer_prog rbs k)))). split.
    - intros v. apply members_selected, bounds_ok_nil.
    - intros S vmax base member varint ver s V. split; [apply R|]. rewrite R, exec_writer. unfold GenFacts.body, write_calls, visit_members.
      rewrite each_map. apply rbind_ext. intros s1. destruct (k_base k) as [b|] eqn:KB.
      + unfold on_version_w. rewrite (ttoks_version _ _ V KB). cbv zeta. destruct (class_version k =? 0); cbn [rbind].
        * rewrite each_map. reflexivity.
        * rewrite rbind_assoc. apply rbind_ext. intros s2. cbn [rbind]. rewrite each_map. reflexivity.
      + unfold class_version. rewrite KB. cbn [rbind N.eqb]. rewrite each_map. reflexivity.
  Qed.
  Lemma reader_text_body : exists body, chunk (concat (map (rtext (qname k)) (reader_lines rbs k))) body
    /\ (cr_defctor (k_rec k) = true -> exists names, (forall v, selected (befriends (k_rec k) fn_read) v [] (cr_decls (k_rec k)) (names v))
    /\ forall S vmax base member varint ver (s : S), version_constant vmax k ->
         run_read vmax base member varint body ver s = exec base (on_version_r vmax varint (qname k)) (fun n _ => member n) (reader_lines rbs k) [] ver s
         /\ run_read vmax base member varint body ver s = read_calls (qname k) (class_version k) (map qname rbs) names base member varint ver s).
  Proof.
    destruct (reader_lines_proper rbs k PK PR) as (ls & E & B & P). destruct (reader_body (qname k) ls (proj1 PK) B P) as (body & C & R). rewrite <- E in C.
    assert (R': forall S vmax base member varint ver (s : S), run_read vmax base member varint body ver s
       = exec base (on_version_r vmax varint (qname k)) (fun n _ => member n) (reader_lines rbs k) [] ver s).
    { intros. rewrite E, exec_return. apply R. }
    exists body. split; [exact C|]. intros D.
    assert (RP: reader_prog rbs k = Some {| bp_bases := map (fun b => cr_id (k_rec b)) rbs; bp_vmax := class_version k;
            bp_fields := members (befriends (k_rec k) fn_read) (cr_id (k_rec k)) (cr_decls (k_rec k)) 0 0; bp_ret0 := false |}) by (unfold reader_prog; rewrite D; reflexivity).
    exists (fun v => map (fun fd => snd (bf_key fd)) (filter (visible v) (members (befriends (k_rec k) fn_read) (cr_id (k_rec k)) (cr_decls (k_rec k)) 0 0))). split.
    - intros v. apply members_selected, bounds_ok_nil.
    - intros S vmax base member varint ver s V. split; [apply R'|]. rewrite R', (exec_reader _ _ _ _ _ _ _ _ RP). unfold GenFacts.body, read_calls, visit_members. cbn [bp_fields].
      rewrite each_map. apply rbind_ext. intros s1. destruct (k_base k) as [b|] eqn:KB.
      + unfold on_version_r. rewrite (ttoks_version _ _ V KB). destruct (class_version k =? 0); cbn [rbind negb andb].
        * rewrite each_map. reflexivity.
        * rewrite rbind_assoc. apply rbind_ext. intros [v s2]. rewrite N.ltb_antisym. destruct (v <=? class_version k); cbn [rbind negb]; [|reflexivity].
          rewrite each_map. reflexivity.
      + unfold class_version. rewrite KB. cbn [rbind N.eqb negb andb]. rewrite each_map. reflexivity.
  Qed.
End Bodies.

Lemma rd_iter_app' {A S} (f : A -> S -> res S) a : forall b s, rd_iter f (a ++ b) s = (let! s' := rd_iter f a s in rd_iter f b s').
Proof. induction a as [|x a IH]; intros b s; cbn; [reflexivity|]. rewrite rbind_assoc. apply rbind_ext. intros. apply IH. Qed.
Lemma fold_m_app' {A B} (f : A -> B -> M A) a : forall b x st, fold_m f (a ++ b) x st = bind (fold_m f a x) (fun y => fold_m f b y) st.
Proof.
  induction a as [|y a IH]; intros b x st; cbn [app fold_m]; [reflexivity|]. rewrite bind_assoc'. apply bind_ext'. intros. apply IH.
Qed.

Definition jnames (ls : list jline) : list bytes := flat_map (fun l => match l with JMember n _ => [n] | _ => [] end) ls.
Lemma jnames_only ls : only_members ls -> forall S (base : bytes -> S -> res S) member s, rd_iter (jpush base member) ls s = each (fun n => member n n) (jnames ls) s.
Proof.
  induction ls as [|l ls IH]; intros O S base member s; [reflexivity|]. destruct (O l (or_introl eq_refl)) as (n & t & ->). cbn [rd_iter jnames flat_map app each jpush].
  apply rbind_ext. intros. apply IH. intros x Hx. apply O. right; exact Hx.
Qed.
Lemma listed_push friend ds : listed (pushable friend) ds (jnames (push_members friend ds)).
Proof.
  induction ds as [|d ds IH]; [constructor|]. unfold push_members. cbn [flat_map]. destruct d as [n l|n acc const t|]; cbn [app].
  - apply ls_skip; [|exact IH]. intros m (x & y & z & E & _); discriminate.
  - destruct (friend || is_public acc) eqn:Acc; cbn [app jnames flat_map].
    + apply ls_take; [|exact IH]. exists acc, const, t. split; [reflexivity|]. destruct friend; [auto|]. right. destruct acc; [reflexivity|discriminate..].
    + apply ls_skip; [|exact IH]. intros m (x & y & z & E & A). inversion E; subst. destruct A as [-> | ->]; [discriminate|]. destruct friend; discriminate.
  - apply ls_skip; [|exact IH]. intros m (x & y & z & E & _); discriminate.
Qed.
Lemma listed_pull friend ds : listed (accessible friend) ds (jnames (pull_members friend ds)).
Proof.
  induction ds as [|d ds IH]; [constructor|]. unfold pull_members. cbn [flat_map]. destruct d as [n l|n acc const t|]; cbn [app].
  - apply ls_skip; [|exact IH]. intros m (x & y & E & _); discriminate.
  - destruct const; [apply ls_skip; [|exact IH]; intros m (x & y & E & _); discriminate|].
    destruct (friend || is_public acc) eqn:Acc; cbn [app jnames flat_map].
    + apply ls_take; [|exact IH]. exists acc, t. split; [reflexivity|]. destruct friend; [auto|]. right. destruct acc; [reflexivity|discriminate..].
    + apply ls_skip; [|exact IH]. intros m (x & y & E & A). inversion E; subst. destruct A as [-> | ->]; [discriminate|]. destruct friend; discriminate.
  - apply ls_skip; [|exact IH]. intros m (x & y & E & _); discriminate.
Qed.
Lemma jpush_bases rbs : forall S (base : bytes -> S -> res S) member s,
  rd_iter (jpush base member) (map (fun b => JBase (qname b)) rbs) s = each base (map qname rbs) s.
Proof. induction rbs as [|b rbs IH]; intros; cbn; [reflexivity|]. apply rbind_ext. intros. apply IH. Qed.

Section JBodies.
  Variables (rbs : list rclass) (k : rclass).
  Hypothesis (PK : class_proper k) (PR : forall b, In b rbs -> class_proper b).

  Lemma push_lines_proper l : In l (push_lines rbs k) -> jline_proper l /\ match l with JSetRecord _ | JRestoreRecord => False | _ => True end.
  Proof.
    unfold push_lines. cbv zeta. rewrite !in_app_iff. intros [H|[H|[H|[H|H]]]].
    - destruct H as [<-|[]]. split; [reflexivity|exact I].
    - apply in_map_iff in H. destruct H as (b & <- & Hb). split; [apply (PR _ Hb)|exact I].
    - destruct H as [<-|[]]. split; [reflexivity|exact I].
    - apply push_members_in in H. destruct H as (n & acc & c & t & -> & Hin & _). split; [|exact I]. destruct PK as (_ & _ & PM & _). eapply PM; eauto.
    - destruct (no_bases rbs && _); [destruct H as [<-|[]]; split; exact I|destruct H].
  Qed.
  Lemma pull_lines_proper l : In l (pull_lines rbs k) -> jline_proper l.
  Proof.
    unfold pull_lines. cbv zeta. rewrite !in_app_iff. intros [H|[H|[H|[H|[H|H]]]]].
    - destruct H as [<-|[]]. reflexivity.
    - apply in_map_iff in H. destruct H as (b & <- & Hb). apply (PR _ Hb).
    - destruct H as [<-|[<-|[<-|[]]]]; [reflexivity|apply PK|reflexivity].
    - apply pull_members_in in H. destruct H as (n & acc & t & -> & Hin & _). destruct PK as (_ & _ & PM & _). eapply PM; eauto.
    - destruct (no_bases rbs && _); [destruct H as [<-|[]]; exact I|destruct H].
    - destruct H as [<-|[<-|[]]]; [reflexivity|exact I].
  Qed.

  Lemma push_text_body : exists body, chunk (concat (map push_text (push_lines rbs k))) body
    /\ exists names, listed (pushable (befriends (k_rec k) fn_push)) (cr_decls (k_rec k)) names
    /\ forall S base member (s : S),
         run_push_text base member body s = rd_iter (jpush base member) (push_lines rbs k) s
         /\ run_push_text base member body s = push_calls (map qname rbs) names base member s.
  Proof.
    destruct (push_body (push_lines rbs k) push_lines_proper) as (body & C & R). exists body. split; [exact C|].
    eexists. split; [apply listed_push|]. intros S base member s. split; [apply R|]. rewrite R. unfold push_lines, push_calls. cbv zeta.
    cbn [app rd_iter jpush rbind]. rewrite rd_iter_app', jpush_bases. apply rbind_ext. intros s1. cbn [app rd_iter jpush rbind].
    rewrite rd_iter_app', jnames_only by apply push_only.
    match goal with |- rbind ?m _ = ?m => destruct m; try reflexivity end. cbn [rbind]. destruct (no_bases rbs && _); reflexivity.
  Qed.

  Definition drop {A} (p : option (option bytes) * A) : M A := let '(_, a) := p in ret a.
  Lemma jpull_bases A (base : bytes -> A -> M A) member prev rest l : forall a st,
    bind (fold_m (fun pa l => jpull base member l pa) (map (fun b => JBase (qname b)) l ++ rest) (prev, a)) drop st
    = bind (each_m base (map qname l) a) (fun a1 => bind (fold_m (fun pa l => jpull base member l pa) rest (prev, a1)) drop) st.
  Proof.
    induction l as [|b l IH]; intros a st; [reflexivity|]. cbn [map app fold_m each_m]. rewrite !bind_assoc'. unfold bind at 1, bind at 2. cbn [jpull]. unfold bind at 1.
    destruct (base (qname b) a st) as [a' st'| | | |]; try reflexivity. apply IH.
  Qed.
  Lemma jpull_members A (base : bytes -> A -> M A) member prev rest ls : only_members ls -> forall a st,
    bind (fold_m (fun pa l => jpull base member l pa) (ls ++ rest) (prev, a)) drop st
    = bind (each_m (fun n => member n n) (jnames ls) a) (fun a1 => bind (fold_m (fun pa l => jpull base member l pa) rest (prev, a1)) drop) st.
  Proof.
    induction ls as [|l ls IH]; intros O a st; [reflexivity|]. destruct (O l (or_introl eq_refl)) as (n & t & ->).
    cbn [app fold_m jnames flat_map each_m]. rewrite !bind_assoc'. unfold bind at 1, bind at 2. cbn [jpull]. unfold bind at 1.
    destruct (member n n a st) as [a' st'| | | |]; try reflexivity. apply IH. intros x Hx. apply O. right; exact Hx.
  Qed.
  Lemma pull_text_body : exists body, chunk (concat (map pull_text (pull_lines rbs k))) body
    /\ exists names, listed (accessible (befriends (k_rec k) fn_pull)) (cr_decls (k_rec k)) names
    /\ forall A base member (a : A) st,
         run_pull_text base member body a st = bind (fold_m (fun pa l => jpull base member l pa) (pull_lines rbs k) (None, a)) drop st
         /\ run_pull_text base member body a st = pull_calls (qname k) (map qname rbs) names base member a st.
  Proof.
    destruct (pull_body (pull_lines rbs k) pull_lines_proper) as (body & C & R). exists body. split; [exact C|].
    eexists. split; [apply listed_pull|]. intros A base member a st. split; [apply R|]. rewrite R. fold (@drop A). unfold pull_lines, pull_calls. cbv zeta.
    cbn [app]. cbn [fold_m]. unfold bind at 1, bind at 1. cbn [jpull]. change (bind (fold_m ?f ?l ?x) drop st) with (bind (fold_m f l x) drop st).
    match goal with |- match ?m with _ => _ end = _ => change (bind (fold_m (fun pa l => jpull base member l pa)
      (map (fun b => JBase (qname b)) rbs ++ [JNote (bs "set error context for current record"); JSetRecord (qname k); JNote (bs "pull members")]
       ++ pull_members (befriends (k_rec k) fn_pull) (cr_decls (k_rec k)) ++ (if no_bases rbs && no_lines (pull_members (befriends (k_rec k) fn_pull) (cr_decls (k_rec k))) then [JVoid] else [])
       ++ [JNote (bs "restore error context for previous record"); JRestoreRecord]) (None, a)) drop st
       = bind (each_m base (map qname rbs) a) (fun a1 => in_record (qname k) (each_m (fun n => member n n) (jnames (pull_members (befriends (k_rec k) fn_pull) (cr_decls (k_rec k)))) a1)) st) end.
    rewrite jpull_bases. apply bind_ext'. intros a1 st1.
    set (prev := match p_err st1 with Some e => es_record e | None => None end).
    match goal with |- ?L = _ => change L with (bind (fold_m (fun pa l => jpull base member l pa)
       (pull_members (befriends (k_rec k) fn_pull) (cr_decls (k_rec k)) ++ (if no_bases rbs && no_lines (pull_members (befriends (k_rec k) fn_pull) (cr_decls (k_rec k))) then [JVoid] else [])
       ++ [JNote (bs "restore error context for previous record"); JRestoreRecord]) (Some prev, a1)) drop (put_record (Some (qname k)) st1)) end.
    rewrite jpull_members by apply pull_only. unfold bind, in_record. fold prev.
    destruct (each_m _ _ a1 (put_record (Some (qname k)) st1)); try reflexivity. destruct (no_bases rbs && _); reflexivity.
  Qed.
End JBodies.

(* ------------------------------------------------------------------ *)
(** * Files *)

Lemma find_bases_relevant ds ks k b : In b (find_bases ds ks k) -> In b ks.
Proof. intros H. apply filter_In in H. apply H. Qed.

Lemma functions_of kw kr ks : forall W R W' R', file_functions kw kr ks W R = file_functions kw kr ks W' R' ->
  forall k, In k ks -> W k = W' k /\ (cr_defctor (k_rec k) = true -> R k = R' k).
Proof.
  induction ks as [|x ks IH]; intros W R W' R' E k; [intros []|]. unfold file_functions in E. cbn [flat_map] in E.
  assert (Q: W x = W' x /\ (cr_defctor (k_rec x) = true -> R x = R' x) /\ file_functions kw kr ks W R = file_functions kw kr ks W' R').
  { destruct (cr_defctor (k_rec x)); cbn [app] in E; inversion E; repeat split; auto; discriminate. }
  destruct Q as (Q1 & Q2 & Q3). intros [-> |Hk]; [auto|]. eapply IH; eauto.
Qed.

(** choice of the bodies, which the text determines *)
Definition nodes_of (s : bytes) : list node := match tokens s with Some ts => match group ts with Some ns => ns | None => [] end | None => [] end.
Lemma nodes_chunk s ns : chunk s ns -> nodes_of s = ns.
Proof. intros C. destruct (chunk_group _ _ C) as (ts & TK & GR). unfold nodes_of. rewrite TK, GR. reflexivity. Qed.

Section Files.
  Variables (o : gopts) (ds : list decl).
  Hypothesis PN : proper_names o ds.
  Notation ks := (relevant_classes o ds).
  Notation rbs k := (find_bases ds ks k).

  Lemma proper_class k : In k ks -> class_proper k /\ forall b, In b (rbs k) -> class_proper b.
  Proof. intros H. split; [eapply relevant_proper; eauto|]. intros b Hb. eapply relevant_proper; [exact PN|]. eapply find_bases_relevant, Hb. Qed.

  Definition wbody (k : rclass) : list node := nodes_of (concat (map wtext (writer_lines (rbs k) k))).
  Definition rbody (k : rclass) : list node := nodes_of (concat (map (rtext (qname k)) (reader_lines (rbs k) k))).
  Definition pushbody (k : rclass) : list node := nodes_of (concat (map push_text (push_lines (rbs k) k))).
  Definition pullbody (k : rclass) : list node := nodes_of (concat (map pull_text (pull_lines (rbs k) k))).

  Lemma binary_file_functions : file "BinaryReflector" (generate_binary o ds) = Some (file_functions FWrite FRead ks wbody rbody).
  Proof.
    unfold generate_binary, file_functions. apply (binary_file (binary_class_text o) ds ks). intros k Hk. destruct (proper_class k Hk) as [PK PR].
    destruct (writer_text_body _ _ PK PR) as (w & CW & _). destruct (reader_text_body _ _ PK PR) as (r & CR & _).
    unfold wbody, rbody. rewrite (nodes_chunk _ _ CW), (nodes_chunk _ _ CR). apply binary_class_defines; try assumption; [apply PN|apply PK].
  Qed.
  Lemma json_file_functions : file "JsonReflector" (generate_json o ds) = Some (file_functions FPush FPull ks pushbody pullbody).
  Proof.
    unfold generate_json, file_functions. apply (json_file (json_class_text o) ds ks). intros k Hk. destruct (proper_class k Hk) as [PK PR].
    destruct (push_text_body _ _ PK PR) as (w & CW & _). destruct (pull_text_body _ _ PK PR) as (r & CR & _).
    unfold pushbody, pullbody. rewrite (nodes_chunk _ _ CW), (nodes_chunk _ _ CR). apply json_class_defines; try assumption; [apply PN|apply PK].
  Qed.

  Section Binary.
    Variables (W R : rclass -> list node).
    Hypothesis FF : file "BinaryReflector" (generate_binary o ds) = Some (file_functions FWrite FRead ks W R).
    Lemma W_is k : In k ks -> chunk (concat (map wtext (writer_lines (rbs k) k))) (W k).
    Proof.
      intros Hk. destruct (proper_class k Hk) as [PK PR]. destruct (writer_text_body _ _ PK PR) as (w & CW & _).
      rewrite binary_file_functions in FF. apply Some_inj in FF. destruct (functions_of _ _ _ _ _ _ _ FF _ Hk) as [E _]. rewrite <- E. unfold wbody. rewrite (nodes_chunk _ _ CW). exact CW.
    Qed.
    Lemma R_is k : In k ks -> cr_defctor (k_rec k) = true -> chunk (concat (map (rtext (qname k)) (reader_lines (rbs k) k))) (R k).
    Proof.
      intros Hk D. destruct (proper_class k Hk) as [PK PR]. destruct (reader_text_body _ _ PK PR) as (r & CR & _).
      rewrite binary_file_functions in FF. apply Some_inj in FF. destruct (functions_of _ _ _ _ _ _ _ FF _ Hk) as [_ E]. rewrite <- (E D). unfold rbody. rewrite (nodes_chunk _ _ CR). exact CR.
    Qed.
    Lemma W_runs k : In k ks ->
      exists names, (forall v, selected (befriends (k_rec k) fn_write) v [] (cr_decls (k_rec k)) (names v))
      /\ forall S vmax base member varint ver (s : S), version_constant vmax k ->
         run_write vmax base member varint (W k) ver s = exec base (on_version_w vmax varint) (fun n _ => member n) (writer_lines (rbs k) k) [] ver s
         /\ run_write vmax base member varint (W k) ver s = write_calls (class_version k) (map qname (rbs k)) names base member varint ver s.
    Proof.
      intros Hk. destruct (proper_class k Hk) as [PK PR]. destruct (writer_text_body _ _ PK PR) as (w & CW & Q). rewrite (chunk_unique _ _ _ (W_is k Hk) CW). exact Q.
    Qed.
    Lemma R_runs k : In k ks -> cr_defctor (k_rec k) = true ->
      exists names, (forall v, selected (befriends (k_rec k) fn_read) v [] (cr_decls (k_rec k)) (names v))
      /\ forall S vmax base member varint ver (s : S), version_constant vmax k ->
         run_read vmax base member varint (R k) ver s = exec base (on_version_r vmax varint (qname k)) (fun n _ => member n) (reader_lines (rbs k) k) [] ver s
         /\ run_read vmax base member varint (R k) ver s = read_calls (qname k) (class_version k) (map qname (rbs k)) names base member varint ver s.
    Proof.
      intros Hk D. destruct (proper_class k Hk) as [PK PR]. destruct (reader_text_body _ _ PK PR) as (w & CW & Q). rewrite (chunk_unique _ _ _ (R_is k Hk D) CW). exact (Q D).
    Qed.
  End Binary.

  Section Json.
    Variables (W R : rclass -> list node).
    Hypothesis FF : file "JsonReflector" (generate_json o ds) = Some (file_functions FPush FPull ks W R).
    Lemma P_is k : In k ks -> chunk (concat (map push_text (push_lines (rbs k) k))) (W k).
    Proof.
      intros Hk. destruct (proper_class k Hk) as [PK PR]. destruct (push_text_body _ _ PK PR) as (w & CW & _).
      rewrite json_file_functions in FF. apply Some_inj in FF. destruct (functions_of _ _ _ _ _ _ _ FF _ Hk) as [E _]. rewrite <- E. unfold pushbody. rewrite (nodes_chunk _ _ CW). exact CW.
    Qed.
    Lemma L_is k : In k ks -> cr_defctor (k_rec k) = true -> chunk (concat (map pull_text (pull_lines (rbs k) k))) (R k).
    Proof.
      intros Hk D. destruct (proper_class k Hk) as [PK PR]. destruct (pull_text_body _ _ PK PR) as (r & CR & _).
      rewrite json_file_functions in FF. apply Some_inj in FF. destruct (functions_of _ _ _ _ _ _ _ FF _ Hk) as [_ E]. rewrite <- (E D). unfold pullbody. rewrite (nodes_chunk _ _ CR). exact CR.
    Qed.
    Lemma P_runs k : In k ks -> exists names, listed (pushable (befriends (k_rec k) fn_push)) (cr_decls (k_rec k)) names
      /\ forall S base member (s : S),
         run_push_text base member (W k) s = rd_iter (jpush base member) (push_lines (rbs k) k) s
         /\ run_push_text base member (W k) s = push_calls (map qname (rbs k)) names base member s.
    Proof.
      intros Hk. destruct (proper_class k Hk) as [PK PR]. destruct (push_text_body _ _ PK PR) as (w & CW & Q). rewrite (chunk_unique _ _ _ (P_is k Hk) CW). exact Q.
    Qed.
    Lemma L_runs k : In k ks -> cr_defctor (k_rec k) = true -> exists names, listed (accessible (befriends (k_rec k) fn_pull)) (cr_decls (k_rec k)) names
      /\ forall A base member (a : A) st,
         run_pull_text base member (R k) a st = bind (fold_m (fun pa l => jpull base member l pa) (pull_lines (rbs k) k) (None, a)) drop st
         /\ run_pull_text base member (R k) a st = pull_calls (qname k) (map qname (rbs k)) names base member a st.
    Proof.
      intros Hk D. destruct (proper_class k Hk) as [PK PR]. destruct (pull_text_body _ _ PK PR) as (w & CW & Q). rewrite (chunk_unique _ _ _ (L_is k Hk D) CW). exact Q.
    Qed.
  End Json.
End Files.

(* ------------------------------------------------------------------ *)
(** * With the library's functions *)

Lemma exec_ext {S} ob ob' ov ov' (om om' : bytes -> ty -> N -> S -> res S) ls :
  (forall q ver s, In (LBase q) ls -> ob q ver s = ob' q ver s) -> (forall b ver s, In (LVersion b) ls -> ov b ver s = ov' b ver s) ->
  (forall n t ver s, In (LMember n t) ls -> om n t ver s = om' n t ver s) ->
  forall stk ver s, exec ob ov om ls stk ver s = exec ob' ov' om' ls stk ver s.
Proof.
  induction ls as [|l ls IH]; intros HB HV HM stk ver s; [reflexivity|].
  specialize (IH (fun q ver s Hq => HB q ver s (or_intror Hq)) (fun q ver s Hq => HV q ver s (or_intror Hq)) (fun n t ver s Hq => HM n t ver s (or_intror Hq))).
  cbn [exec]. destruct l; try apply IH.
  - destruct (active stk); [|apply IH]. rewrite HB by (left; reflexivity). apply rbind_ext. intros. apply IH.
  - destruct (active stk); [|apply IH]. rewrite HV by (left; reflexivity). apply rbind_ext. intros [? ?]. apply IH.
  - destruct (_ && _); [reflexivity|apply IH].
  - destruct stk; [reflexivity|apply IH].
  - destruct (active stk); [|apply IH]. rewrite HM by (left; reflexivity). apply rbind_ext. intros. apply IH.
Qed.
Lemma writer_version rbs k b : In (LVersion b) (writer_lines rbs k) -> exists c, k_base k = Some c /\ b = cb_printed c.
Proof.
  unfold writer_lines. destruct (writer_members _ _ mt0) as [ms m] eqn:E. rewrite !in_app_iff. intros [H|[H|[H|[H|[H|[H|H]]]]]].
  - destruct H as [H|[]]; discriminate.
  - apply in_map_iff in H. destruct H as (x & Q & _). discriminate.
  - unfold version_lines in H. destruct (k_base k) as [c|]; [|destruct H]. destruct H as [H|[H|[]]]; [discriminate|]. inversion H. exists c. auto.
  - destruct H as [H|[]]; discriminate.
  - destruct (writer_shape _ _ _ _ _ E _ H).
  - destruct (conclude_shape _ _ H).
  - destruct (no_bases rbs && _); [destruct H as [H|[]]; discriminate|destruct H].
Qed.
Lemma reader_version rbs k b : In (LVersion b) (reader_lines rbs k) -> exists c, k_base k = Some c /\ b = cb_printed c.
Proof.
  unfold reader_lines. destruct (reader_members _ _ mt0) as [ms m] eqn:E. rewrite !in_app_iff. intros [H|[H|[H|[H|[H|[H|[H|H]]]]]]].
  - destruct H as [H|[]]; discriminate.
  - apply in_map_iff in H. destruct H as (x & Q & _). discriminate.
  - unfold version_lines in H. destruct (k_base k) as [c|]; [|destruct H]. destruct H as [H|[H|[]]]; [discriminate|]. inversion H. exists c. auto.
  - destruct H as [H|[]]; discriminate.
  - destruct (reader_shape _ _ _ _ _ E _ H).
  - destruct (conclude_shape _ _ H).
  - destruct (no_bases rbs && _); [destruct H as [H|[]]; discriminate|destruct H].
  - destruct H as [H|[]]; discriminate.
Qed.

Section Library.
  Variables (o : gopts) (ds : list decl) (G : genv) (resolve : bytes -> option N).
  Hypothesis PN : proper_names o ds.
  Hypothesis RES : forall k, In k (relevant_classes o ds) -> resolve (qname k) = Some (cr_id (k_rec k)).
  Notation ks := (relevant_classes o ds).
  Variables (k : rclass) (rc : rtclass) (mtype : bytes -> ty).
  Hypothesis (KIN : In k ks) (HC : g_class G (cr_id (k_rec k)) = Some rc) (MT : declared_types k mtype).

  Lemma text_writes W R vmax H f fs ver Ws : generated_binary o ds k rc -> version_constant vmax k ->
    file "BinaryReflector" (generate_binary o ds) = Some (file_functions FWrite FRead ks W R) ->
    (let! (_, s) := run_write vmax (lib_write_base G H f resolve fs) (lib_write_member G H f (cr_id (k_rec k)) mtype fs) lib_write_varint (W k) ver ([], Ws) in ROk s)
    = write_cls G H (S f) ver (cr_id (k_rec k)) fs Ws.
  Proof.
    intros GB VC FF. destruct (proper_class _ _ PN _ KIN) as [PK _]. destruct (W_runs _ _ PN W R FF k KIN) as (names & _ & Q).
    rewrite (proj1 (Q _ vmax (lib_write_base G H f resolve fs) (lib_write_member G H f (cr_id (k_rec k)) mtype fs) lib_write_varint ver ([], Ws) VC)).
    rewrite <- (run_writer_is_model o ds G resolve RES H f k rc ver fs Ws HC GB). unfold run_writer.
    match goal with |- rbind ?a _ = rbind ?b _ => replace a with b end.
    - match goal with |- rbind ?a _ = _ => destruct a as [[? [? ?]]| | | |]; reflexivity end.
    - apply exec_ext.
      + intros q v [out W0] _. reflexivity.
      + intros b v [out W0] Hin. apply writer_version in Hin. destruct Hin as (c & KB & ->). unfold on_version_w. rewrite (ttoks_version _ PK _ _ VC KB).
        destruct (class_version k =? 0); [reflexivity|]. unfold lib_write_varint. cbv zeta. rewrite rbind_assoc. reflexivity.
      + intros n t v [out W0] Hin. apply (lines_members (find_bases ds ks k) k n t) in Hin. destruct Hin as (acc & Hin & _). unfold lib_write_member. rewrite (MT _ _ _ _ Hin). reflexivity.
  Qed.
  Lemma text_reads W R vmax f os ver s st : generated_binary o ds k rc -> version_constant vmax k -> cr_defctor (k_rec k) = true ->
    file "BinaryReflector" (generate_binary o ds) = Some (file_functions FWrite FRead ks W R) ->
    (let! (ver', (os', s', st')) := run_read vmax (lib_read_base G f resolve) (lib_read_member G f (cr_id (k_rec k)) mtype) lib_read_varint (R k) ver (os, s, st) in ROk (os', ver', s', st'))
    = read_cls G (S f) ver (cr_id (k_rec k)) os s st.
  Proof.
    intros GB VC D FF. destruct (proper_class _ _ PN _ KIN) as [PK _]. destruct (R_runs _ _ PN W R FF k KIN D) as (names & _ & Q).
    rewrite (proj1 (Q _ vmax (lib_read_base G f resolve) (lib_read_member G f (cr_id (k_rec k)) mtype) lib_read_varint ver (os, s, st) VC)).
    rewrite <- (run_reader_is_model o ds G resolve RES f k rc ver os s st HC GB D). unfold run_reader.
    match goal with |- rbind ?a _ = rbind ?b _ => replace a with b; [reflexivity|] end.
    apply exec_ext.
    - intros q v [[os0 s0] st0] _. reflexivity.
    - intros b v [[os0 s0] st0] Hin. apply reader_version in Hin. destruct Hin as (c & KB & ->). unfold on_version_r. rewrite (ttoks_version _ PK _ _ VC KB).
      destruct (class_version k =? 0); [reflexivity|]. unfold lib_read_varint. rewrite rbind_assoc. apply rbind_ext. intros [v' s']. reflexivity.
    - intros n t v [[os0 s0] st0] Hin. apply (lines_members (find_bases ds ks k) k n t) in Hin. destruct Hin as (acc & Hin & _). unfold lib_read_member. rewrite (MT _ _ _ _ Hin). reflexivity.
  Qed.

  Lemma text_pushes W R J H f fs ms : generated_json o ds k rc ->
    file "JsonReflector" (generate_json o ds) = Some (file_functions FPush FPull ks W R) ->
    run_push_text (lib_push_base G J H f resolve fs) (lib_push_member G J H f (cr_id (k_rec k)) mtype fs) (W k) ms
    = push_cls G J H (S f) (cr_id (k_rec k)) fs ms.
  Proof.
    intros GJ FF. destruct (P_runs _ _ PN W R FF k KIN) as (names & _ & Q).
    rewrite (proj1 (Q _ (lib_push_base G J H f resolve fs) (lib_push_member G J H f (cr_id (k_rec k)) mtype fs) ms)).
    rewrite <- (run_push_is_model o ds G J resolve RES H f k rc fs ms HC GJ).
    assert (P: forall l, In l (push_lines (find_bases ds ks k) k) -> match l with JMember n t => mtype n = t | JSetRecord _ | JRestoreRecord => False | _ => True end).
    { intros l Hl. destruct (proper_class _ _ PN _ KIN) as [PK PR]. pose proof (push_lines_proper _ _ PK PR _ Hl) as [_ NR]. destruct l as [x|x|x|n t| |]; auto.
      unfold push_lines in Hl. cbv zeta in Hl. rewrite !in_app_iff in Hl. destruct Hl as [[X|[]]|[X|[[X|[]]|[X|X]]]]; try discriminate X.
      - apply in_map_iff in X. destruct X as (b & X & _). discriminate X.
      - apply push_members_in in X. destruct X as (n' & acc & c & t' & E & Hin & _). inversion E; subst. eapply MT; eauto.
      - destruct (no_bases _ && _); [destruct X as [X|[]]; discriminate X|destruct X]. }
    revert ms P. generalize (push_lines (find_bases ds ks k) k). intros ls. induction ls as [|l ls IH]; intros ms P; [reflexivity|].
    assert (P': forall l0, In l0 ls -> match l0 with JMember n t => mtype n = t | JSetRecord _ | JRestoreRecord => False | _ => True end) by (intros; apply P; right; assumption).
    pose proof (P l (or_introl eq_refl)) as Pl. cbn [rd_iter run_push]. destruct l as [x|x|x|n t| |]; cbn [jpush rbind]; try contradiction.
    - apply IH, P'.
    - unfold lib_push_base. destruct (resolve x); [|reflexivity]. apply rbind_ext. intros. apply IH, P'.
    - unfold lib_push_member. rewrite Pl. destruct (alookup fkey_eqb (cr_id (k_rec k), n) fs); [|reflexivity]. rewrite rbind_assoc. apply rbind_ext. intros. apply IH, P'.
    - apply IH, P'.
  Qed.

  Lemma pull_types l : In l (pull_lines (find_bases ds ks k) k) -> match l with JMember n t => mtype n = t | _ => True end.
  Proof.
    intros Hl. destruct l as [x|x|x|n t| |]; auto. unfold pull_lines in Hl. cbv zeta in Hl. rewrite !in_app_iff in Hl.
    destruct Hl as [[X|[]]|[X|[[X|[X|[X|[]]]]|[X|[X|[X|[X|[]]]]]]]]; try discriminate X.
    - apply in_map_iff in X. destruct X as (b & X & _). discriminate X.
    - apply pull_members_in in X. destruct X as (n' & acc & t' & E & Hin & _). inversion E; subst. eapply MT; eauto.
    - destruct (no_bases _ && _); [destruct X as [X|[]]; discriminate X|destruct X].
  Qed.
  Section PullLines.
    Variables (J : jenv) (f : nat) (ms : list (bytes * json)).
    Notation jp := (fun pa l => jpull (lib_pull_base G J f resolve ms) (lib_pull_member G J f (cr_id (k_rec k)) mtype ms) l pa).
    Notation rp := (run_pull G J f resolve (cr_id (k_rec k)) ms).
    Definition typed (l : jline) : Prop := match l with JMember n t => mtype n = t | _ => True end.
    Lemma pull_lines_after ls : (forall l, In l ls -> typed l) -> forall p a st, bind (fold_m jp ls (Some p, a)) drop st = rp ls p a st.
    Proof.
      induction ls as [|l ls IH]; intros P p a st; [reflexivity|]. pose proof (P l (or_introl eq_refl)) as Pl. specialize (IH (fun x Hx => P x (or_intror Hx))).
      cbn [fold_m run_pull]. rewrite bind_assoc'. unfold bind at 1. destruct l as [x|x|x|n t| |]; cbn [jpull].
      - apply IH.
      - unfold lib_pull_base. destruct (resolve x); [|reflexivity]. unfold bind at 1, bind at 2. destruct (pull_cls G J f n a ms st); try reflexivity. apply IH.
      - apply IH.
      - unfold lib_pull_member. cbn [typed] in Pl. rewrite Pl. unfold bind at 1, bind at 2. destruct (pull_member _ _ _ a st); try reflexivity. apply IH.
      - apply IH.
      - apply IH.
    Qed.
    Lemma pull_lines_before pre q post : (forall l, In l (pre ++ JSetRecord q :: post) -> typed l) ->
      (forall l, In l pre -> match l with JSetRecord _ | JRestoreRecord => False | _ => True end) -> forall a st,
      bind (fold_m jp (pre ++ JSetRecord q :: post) (None, a)) drop st = rp (pre ++ JSetRecord q :: post) None a st.
    Proof.
      induction pre as [|l pre IH]; intros P N a st.
      - cbn [app fold_m run_pull]. rewrite bind_assoc'. unfold bind at 1. cbn [jpull]. apply pull_lines_after. intros x Hx. apply P. right; exact Hx.
      - pose proof (P l (or_introl eq_refl)) as Pl. pose proof (N l (or_introl eq_refl)) as Nl.
        specialize (IH (fun x Hx => P x (or_intror Hx)) (fun x Hx => N x (or_intror Hx))).
        cbn [app fold_m run_pull]. rewrite bind_assoc'. unfold bind at 1. destruct l as [x|x|x|n t| |]; cbn [jpull]; try contradiction.
        + apply IH.
        + unfold lib_pull_base. destruct (resolve x); [|reflexivity]. unfold bind at 1, bind at 2. destruct (pull_cls G J f n a ms st); try reflexivity. apply IH.
        + unfold lib_pull_member. cbn [typed] in Pl. rewrite Pl. unfold bind at 1, bind at 2. destruct (pull_member _ _ _ a st); try reflexivity. apply IH.
        + apply IH.
    Qed.
  End PullLines.

  Lemma text_pulls W R J f os ms st : generated_json o ds k rc -> cr_defctor (k_rec k) = true ->
    file "JsonReflector" (generate_json o ds) = Some (file_functions FPush FPull ks W R) ->
    run_pull_text (lib_pull_base G J f resolve ms) (lib_pull_member G J f (cr_id (k_rec k)) mtype ms) (R k) os st
    = pull_cls G J (S f) (cr_id (k_rec k)) os ms st.
  Proof.
    intros GJ D FF. destruct (L_runs _ _ PN W R FF k KIN D) as (names & _ & Q).
    rewrite (proj1 (Q _ (lib_pull_base G J f resolve ms) (lib_pull_member G J f (cr_id (k_rec k)) mtype ms) os st)).
    rewrite <- (run_pull_is_model o ds G J resolve RES f k rc os ms st HC GJ D).
    assert (E: exists pre post, pull_lines (find_bases ds ks k) k = pre ++ JSetRecord (qname k) :: post
              /\ forall l, In l pre -> match l with JSetRecord _ | JRestoreRecord => False | _ => True end).
    { unfold pull_lines. cbv zeta. eexists ([JNote (bs "pull base classes")] ++ map (fun b => JBase (qname b)) (find_bases ds ks k) ++ [JNote (bs "set error context for current record")]), _.
      split; [rewrite <- !app_assoc; reflexivity|]. intros l. rewrite !in_app_iff. intros [[<-|[]]|[H|[<-|[]]]]; try exact I. apply in_map_iff in H. destruct H as (b & <- & _). exact I. }
    destruct E as (pre & post & E & NP). pose proof pull_types as PT. rewrite E in PT |- *. apply pull_lines_before; [exact PT|exact NP].
  Qed.
End Library.
