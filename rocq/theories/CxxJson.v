(** CxxJson.v -- what the bodies of generated JSON functions do *)
From Coq Require Import String List NArith ZArith Bool Lia.
From Verif Require Import Base BaseFacts Types BinModel GenModel GenSem GenSpec GenFacts GenMarkers GenSelect GenText JsonModel JsonRel JsonGen
  CxxText CxxFacts CxxLines CxxRun CxxHeads.
Import ListNotations.
Local Open Scope list_scope.
Local Open Scope N_scope.

Definition jstmt_text (s : bytes) (st : jstmt) : Prop := exists ts, chunk s [Simple ts] /\ jstatement ts = Some st.
Lemma jconst_stmt s st ts : lex_text PNone s = (PNone, ts ++ [Punct [Byte.x3b]]) -> forallb (fun t => match t with Punct [b] => negb (beqb b Byte.x3b || beqb b Byte.x7b || beqb b Byte.x7d) | _ => true end) ts = true ->
  jstatement ts = Some st -> jstmt_text s st.
Proof. intros L I B. exists ts. split; [|exact B]. apply chunk_simple; [apply lexed_const, L|apply inertb_ok, I]. Qed.
Ltac jconst := match goal with |- jstmt_text ?s _ =>
  let r := eval vm_compute in (snd (lex_text PNone s)) in
  let ts := eval vm_compute in (removelast r) in apply (jconst_stmt _ _ ts); vm_compute; reflexivity end.

Lemma push_base_text q : qualified_name q -> jstmt_text (push_text (JBase q)) (PushBaseStmt q).
Proof.
  intros (l & NE & F & ->). exists (T "push(static_cast<const ::" ++ qtoks l ++ T " &>(reflectable), value, allocator)"). split.
  - apply chunk_simple; [|inerts]. cbn [push_text]. lexrun. rewrite <- !app_assoc. reflexivity.
  - unfold jstatement. erewrite choose_hit.
    2: { change (pat "push(static_cast<const ::@ &>(reflectable), value, allocator)")
           with (T "push(static_cast<const ::" ++ hqual :: T " &>(reflectable), value, allocator)"). fitall. }
    cbn [one]. rewrite spell_qtoks. reflexivity.
Qed.
Lemma push_member_text n t : identifier n -> jstmt_text (push_text (JMember n t)) (PushMemberStmt n n).
Proof.
  intros H. pose proof (identifier_plain _ H) as HS. exists (T "push(reflectable." ++ Id n :: T ", " ++ Str n :: T ", value, allocator)"). split.
  - apply chunk_simple; [|inerts]. cbn [push_text]. lexrun. rewrite <- !app_assoc. reflexivity.
  - unfold jstatement. misses. erewrite choose_hit.
    2: { change (pat "push(reflectable.$, ~, value, allocator)") with (T "push(reflectable." ++ hname :: T ", " ++ hstring :: T ", value, allocator)"). fitall. }
    cbn [two]. rewrite spell_one_id, spell_one_str. reflexivity.
Qed.
Lemma pull_base_text q : qualified_name q -> jstmt_text (pull_text (JBase q)) (PullBaseStmt q).
Proof.
  intros (l & NE & F & ->). exists (T "pull(static_cast<::" ++ qtoks l ++ T " &>(reflectable), value, errors)"). split.
  - apply chunk_simple; [|inerts]. cbn [pull_text]. lexrun. rewrite <- !app_assoc. reflexivity.
  - unfold jstatement. misses. erewrite choose_hit.
    2: { change (pat "pull(static_cast<::@ &>(reflectable), value, errors)")
           with (T "pull(static_cast<::" ++ hqual :: T " &>(reflectable), value, errors)"). fitall. }
    cbn [one]. rewrite spell_qtoks. reflexivity.
Qed.
Lemma pull_member_text n t : identifier n -> jstmt_text (pull_text (JMember n t)) (PullMemberStmt n n).
Proof.
  intros H. pose proof (identifier_plain _ H) as HS. exists (T "pull(reflectable." ++ Id n :: T ", " ++ Str n :: T ", value, errors)"). split.
  - apply chunk_simple; [|inerts]. cbn [pull_text]. lexrun. rewrite <- !app_assoc. reflexivity.
  - unfold jstatement. misses. erewrite choose_hit.
    2: { change (pat "pull(reflectable.$, ~, value, errors)") with (T "pull(reflectable." ++ hname :: T ", " ++ hstring :: T ", value, errors)"). fitall. }
    cbn [two]. rewrite spell_one_id, spell_one_str. reflexivity.
Qed.
Definition h_errors : list token := pat "if (errors)".
Lemma opens_errors : opens (bs "    if (errors) {" ++ nl) h_errors. Proof. apply opens_const; reflexivity. Qed.

Lemma set_record_text q : qualified_name q -> exists t1 t2 t3, chunk (pull_text (JSetRecord q)) [Simple t1; Block h_errors [Simple t2; Simple t3]]
  /\ jstatement t1 = Some DeclarePrevious /\ jstatement t2 = Some SavePrevious /\ jstatement t3 = Some (SetRecord q).
Proof.
  intros H. apply qualified_plain in H.
  assert (H1: jstmt_text (bs "    const char *previousRecord = nullptr;" ++ nl) DeclarePrevious) by jconst.
  assert (H2: jstmt_text (bs "        previousRecord = errors->currentRecord;" ++ nl) SavePrevious) by jconst.
  assert (H3: jstmt_text (bs "        errors->currentRecord = " ++ quote ++ q ++ quote ++ bs ";" ++ nl) (SetRecord q)).
  { exists (T "errors->currentRecord = " ++ [Str q]). split.
    - apply chunk_simple; [|inerts]. lexrun. rewrite <- !app_assoc. reflexivity.
    - unfold jstatement. misses. erewrite choose_hit.
      2: { change (pat "errors->currentRecord = ~") with (T "errors->currentRecord = " ++ [hstring]). rewrite fits_pre by reflexivity. reflexivity. }
      cbn [one]. rewrite spell_one_str. reflexivity. }
  destruct H1 as (t1 & C1 & B1), H2 as (t2 & C2 & B2), H3 as (t3 & C3 & B3). exists t1, t2, t3. split; [|auto]. cbn [pull_text].
  match goal with |- chunk ?t _ => replace t with
    ((bs "    const char *previousRecord = nullptr;" ++ nl) ++ ((bs "    if (errors) {" ++ nl) ++ ((bs "        previousRecord = errors->currentRecord;" ++ nl)
      ++ (bs "        errors->currentRecord = " ++ quote ++ q ++ quote ++ bs ";" ++ nl)) ++ (bs "    }" ++ nl))) by (rewrite <- !app_assoc; reflexivity) end.
  apply (chunk_app _ _ [Simple t1]); [exact C1|]. apply chunk_block; [apply opens_errors| |apply closes_brace_nl].
  apply (chunk_app _ _ [Simple t2] [Simple t3]); assumption.
Qed.
Lemma restore_record_text : exists t, chunk (pull_text JRestoreRecord) [Block h_errors [Simple t]] /\ jstatement t = Some RestoreRecord.
Proof.
  assert (H1: jstmt_text (bs "        errors->currentRecord = previousRecord;" ++ nl) RestoreRecord) by jconst.
  destruct H1 as (t1 & C1 & B1). exists t1. split; [|exact B1]. cbn [pull_text].
  match goal with |- chunk ?t _ => replace t with
    ((bs "    if (errors) {" ++ nl) ++ (bs "        errors->currentRecord = previousRecord;" ++ nl) ++ (bs "    }" ++ nl)) by (rewrite <- !app_assoc; reflexivity) end.
  apply chunk_block; [apply opens_errors|exact C1|apply closes_brace_nl].
Qed.
Lemma push_void_text : exists t1 t2 t3, chunk (push_text JVoid) [Simple t1; Simple t2; Simple t3] /\ jstatement t1 = Some (JDiscard (bs "reflectable"))
  /\ jstatement t2 = Some (JDiscard (bs "value")) /\ jstatement t3 = Some (JDiscard (bs "allocator")).
Proof.
  assert (H1: jstmt_text (bs "    (void)reflectable;" ++ nl) (JDiscard (bs "reflectable"))) by jconst.
  assert (H2: jstmt_text (bs "    (void)value;" ++ nl) (JDiscard (bs "value"))) by jconst.
  assert (H3: jstmt_text (bs "    (void)allocator;" ++ nl) (JDiscard (bs "allocator"))) by jconst.
  destruct H1 as (t1 & C1 & B1), H2 as (t2 & C2 & B2), H3 as (t3 & C3 & B3). exists t1, t2, t3. split; [|auto].
  change (push_text JVoid) with ((bs "    (void)reflectable;" ++ nl) ++ (bs "    (void)value;" ++ nl) ++ (bs "    (void)allocator;" ++ nl)).
  apply (chunk_app _ _ [Simple t1]); [exact C1|]. apply (chunk_app _ _ [Simple t2] [Simple t3]); assumption.
Qed.
Lemma pull_void_text : exists t1 t2, chunk (pull_text JVoid) [Simple t1; Simple t2] /\ jstatement t1 = Some (JDiscard (bs "reflectable"))
  /\ jstatement t2 = Some (JDiscard (bs "value")).
Proof.
  assert (H1: jstmt_text (bs "    (void)reflectable;" ++ nl) (JDiscard (bs "reflectable"))) by jconst.
  assert (H2: jstmt_text (bs "    (void)value;" ++ nl) (JDiscard (bs "value"))) by jconst.
  destruct H1 as (t1 & C1 & B1), H2 as (t2 & C2 & B2). exists t1, t2. split; [|auto].
  change (pull_text JVoid) with ((bs "    (void)reflectable;" ++ nl) ++ (bs "    (void)value;" ++ nl)).
  apply (chunk_app _ _ [Simple t1] [Simple t2]); assumption.
Qed.
Lemma jnote_text s : no_newline s -> chunk (bs "    // " ++ s ++ nl) [].
Proof. intros H. apply chunk_silent. apply lexed_note; [reflexivity|exact H]. Qed.

(* ------------------------------------------------------------------ *)
(** * push *)

Section Push.
  Context {S : Type}.
  Variables (base : bytes -> S -> res S) (member : bytes -> bytes -> S -> res S).
  Notation run := (run_push_text base member).
  Definition jpush (l : jline) (s : S) : res S := match l with JBase q => base q s | JMember n _ => member n n s | JNote _ | JVoid => ROk s | _ => RStuck end.

  Lemma run_push_text_app a : forall b s, run (a ++ b) s = (let! s' := run a s in run b s').
  Proof.
    induction a as [|n a IH]; intros b s; [reflexivity|]. cbn [app run_push_text]. destruct n as [ts|h body]; [|reflexivity].
    destruct (jstatement ts) as [[]|]; try reflexivity; try (rewrite rbind_assoc; apply rbind_ext; intros; apply IH).
    destruct (existsb _ _); [apply IH|reflexivity].
  Qed.
  Definition jline_proper (l : jline) : Prop :=
    match l with JNote s => no_newline s | JBase q => qualified_name q | JSetRecord q => qualified_name q | JMember n _ => identifier n | _ => True end.
  Lemma push_line l : jline_proper l -> (match l with JSetRecord _ | JRestoreRecord => False | _ => True end) ->
    exists ns, chunk (push_text l) ns /\ forall s, run ns s = jpush l s.
  Proof.
    intros P NR. destruct l as [s|q|q|n t| |]; cbn [jline_proper] in P; try destruct NR.
    - exists []. split; [apply jnote_text, P|reflexivity].
    - destruct (push_base_text q P) as (ts & C & B). exists [Simple ts]. split; [exact C|]. intros s. cbn [run_push_text]. rewrite B. apply rbind_ret.
    - destruct (push_member_text n t P) as (ts & C & B). exists [Simple ts]. split; [exact C|]. intros s. cbn [run_push_text]. rewrite B. apply rbind_ret.
    - destruct push_void_text as (t1 & t2 & t3 & C & B1 & B2 & B3). eexists. split; [exact C|]. intros s. cbn [run_push_text]. rewrite B1, B2, B3. reflexivity.
  Qed.
  Lemma push_body_aux ls : (forall l, In l ls -> jline_proper l /\ match l with JSetRecord _ | JRestoreRecord => False | _ => True end) ->
    exists body, chunk (concat (map push_text ls)) body /\ forall s, run body s = rd_iter jpush ls s.
  Proof.
    induction ls as [|l ls IH]; intros H; [exists []; split; [apply chunk_nil|reflexivity]|].
    destruct (push_line l) as (ns & C & R); [apply H; left; reflexivity..|]. destruct IH as (body & CB & RB); [intros; apply H; right; assumption|].
    exists (ns ++ body). split; [cbn [map concat]; apply chunk_app; assumption|]. intros s. rewrite run_push_text_app, R. cbn [rd_iter]. apply rbind_ext. intros. apply RB.
  Qed.
End Push.
Lemma push_body ls : (forall l, In l ls -> jline_proper l /\ match l with JSetRecord _ | JRestoreRecord => False | _ => True end) ->
  exists body, chunk (concat (map push_text ls)) body /\ forall S base member (s : S), run_push_text base member body s = rd_iter (jpush base member) ls s.
Proof.
  intros P. destruct (push_body_aux (S := unit) (fun _ _ => RStuck) (fun _ _ _ => RStuck) ls P) as (body & C & _).
  exists body. split; [exact C|]. intros. destruct (push_body_aux base member ls P) as (body' & C' & R). rewrite (chunk_unique _ _ _ C C'). apply R.
Qed.

(* ------------------------------------------------------------------ *)
(** * pull *)

Section Pull.
  Context {A : Type}.
  Variables (base : bytes -> A -> M A) (member : bytes -> bytes -> A -> M A).
  Notation run := (run_pull_nodes base member).
  Definition jpull (l : jline) (pa : option (option bytes) * A) : M (option (option bytes) * A) := fun st =>
    let (prev, a) := pa in
    match l with
    | JNote _ | JVoid => POk (prev, a) st
    | JBase q => bind (base q a) (fun a' => ret (prev, a')) st
    | JMember n _ => bind (member n n a) (fun a' => ret (prev, a')) st
    | JSetRecord q => POk (Some (match p_err st with Some e => es_record e | None => None end), a) (put_record (Some q) st)
    | JRestoreRecord => match prev with Some p => POk (prev, a) (put_record p st) | None => match p_err st with Some _ => PStuck | None => POk (prev, a) st end end
    end.
  Lemma bind_assoc' {X Y Z} (m : M X) (k : X -> M Y) (h : Y -> M Z) st : bind (bind m k) h st = bind m (fun x => bind (k x) h) st.
  Proof. unfold bind. destruct (m st); reflexivity. Qed.
  Lemma bind_ext' {X Y} (m : M X) (k h : X -> M Y) st : (forall x st', k x st' = h x st') -> bind m k st = bind m h st.
  Proof. intros H. unfold bind. destruct (m st); auto. Qed.

  Lemma put_record_none r st : p_err st = None -> put_record r st = st.
  Proof. destruct st as [hp er]. cbn. intros ->. reflexivity. Qed.

  Lemma run_pull_app a : forall b prev x st, run (a ++ b) prev x st = bind (run a prev x) (fun '(p, y) => run b p y) st.
  Proof.
    induction a as [|n a IH]; intros b prev x st; [reflexivity|]. cbn [app run_pull_nodes]. destruct n as [ts|h body].
    - destruct (jstatement ts) as [j|]; [|reflexivity]. cbn [run_pull_nodes]. unfold bind at 2. cbn [run_pull_nodes].
      unfold bind. destruct (pull_simple base member j prev x st) as [[p y] st'| | | |]; try reflexivity. rewrite IH. unfold bind. reflexivity.
    - unfold bind at 2. cbn [run_pull_nodes]. destruct (tokens_eqb h (pat "if (errors)")); [|reflexivity].
      destruct (p_err st) as [e|] eqn:E.
      + unfold bind. cbn [run_pull_nodes]. rewrite ?E. match goal with |- match ?m with _ => _ end = _ => destruct m as [[p y] st'| | | |]; try reflexivity end; rewrite ?IH, ?E; reflexivity.
      + rewrite IH. unfold bind. rewrite ?E. reflexivity.
  Qed.
  Lemma pull_line l : jline_proper l -> exists ns, chunk (pull_text l) ns /\ forall prev a st, run ns prev a st = jpull l (prev, a) st.
  Proof.
    intros P. destruct l as [s|q|q|n t| |]; cbn [jline_proper] in P.
    - exists []. split; [apply jnote_text, P|reflexivity].
    - destruct (pull_base_text q P) as (ts & C & B). exists [Simple ts]. split; [exact C|]. intros prev a st. cbn [run_pull_nodes]. rewrite B. cbn [jpull].
      unfold bind, pull_simple, bind. destruct (base q a st); reflexivity.
    - destruct (set_record_text q P) as (t1 & t2 & t3 & C & B1 & B2 & B3). eexists. split; [exact C|]. intros prev a st. cbn [run_pull_nodes]. rewrite B1. cbn [pull_simple bind].
      unfold bind at 1. cbn [pull_simple]. change (tokens_eqb h_errors (pat "if (errors)")) with true. cbv iota. cbn [jpull].
      destruct (p_err st) as [e|] eqn:E.
      + unfold bind. rewrite B2. cbn [pull_simple]. rewrite E, B3. cbn [pull_simple]. rewrite E. reflexivity.
      + rewrite put_record_none by exact E. reflexivity.
    - destruct (pull_member_text n t P) as (ts & C & B). exists [Simple ts]. split; [exact C|]. intros prev a st. cbn [run_pull_nodes]. rewrite B. cbn [jpull].
      unfold bind, pull_simple, bind. destruct (member n n a st); reflexivity.
    - destruct pull_void_text as (t1 & t2 & C & B1 & B2). eexists. split; [exact C|]. intros prev a st. cbn [run_pull_nodes]. rewrite B1, B2. reflexivity.
    - destruct restore_record_text as (t & C & B). eexists. split; [exact C|]. intros prev a st. cbn [run_pull_nodes]. change (tokens_eqb h_errors (pat "if (errors)")) with true. cbv iota. cbn [jpull].
      destruct (p_err st) as [e|] eqn:E.
      + unfold bind. rewrite B. cbn [pull_simple]. rewrite E. destruct prev; reflexivity.
      + destruct prev; [rewrite put_record_none by exact E|]; reflexivity.
  Qed.
  Lemma pull_body_aux ls : (forall l, In l ls -> jline_proper l) -> exists body, chunk (concat (map pull_text ls)) body
    /\ forall prev a st, run body prev a st = fold_m (fun pa l => jpull l pa) ls (prev, a) st.
  Proof.
    induction ls as [|l ls IH]; intros H; [exists []; split; [apply chunk_nil|reflexivity]|].
    destruct (pull_line l) as (ns & C & R); [apply H; left; reflexivity|]. destruct IH as (body & CB & RB); [intros; apply H; right; assumption|].
    exists (ns ++ body). split; [cbn [map concat]; apply chunk_app; assumption|]. intros prev a st. rewrite run_pull_app. cbn [fold_m]. unfold bind. rewrite R.
    destruct (jpull l (prev, a) st) as [[p y] st'| | | |]; try reflexivity. apply RB.
  Qed.
End Pull.
Lemma pull_body ls : (forall l, In l ls -> jline_proper l) -> exists body, chunk (concat (map pull_text ls)) body
  /\ forall A base member (a : A) st, run_pull_text base member body a st = bind (fold_m (fun pa l => jpull base member l pa) ls (None, a)) (fun '(_, a') => ret a') st.
Proof.
  intros P. destruct (pull_body_aux (A := unit) (fun _ _ _ => PStuck) (fun _ _ _ _ => PStuck) ls P) as (body & C & _).
  exists body. split; [exact C|]. intros. destruct (pull_body_aux base member ls P) as (body' & C' & R). rewrite (chunk_unique _ _ _ C C').
  unfold run_pull_text, bind at 1. rewrite R. unfold bind. reflexivity.
Qed.
