(** CxxRun.v -- what the bodies of generated binary functions do *)
From Coq Require Import String List NArith ZArith Bool Lia.
From Verif Require Import Base BaseFacts Types BinModel GenModel GenSem GenSpec GenFacts GenMarkers GenSelect GenText JsonModel CxxText CxxFacts CxxLines.
Import ListNotations.
Local Open Scope list_scope.
Local Open Scope N_scope.

(* ------------------------------------------------------------------ *)
(** * Blocks *)

Section Grp.
  Variable line_nodes : bline -> list node -> Prop.
  Inductive grp : list bline -> list node -> Prop :=
  | g_nil : grp [] []
  | g_line l ls n ns : is_if l = false -> line_nodes l n -> grp ls ns -> grp (l :: ls) (n ++ ns)
  | g_if a u body bn ls ns : (forall l, In l body -> is_if l = false) -> grp body bn -> grp ls ns ->
      grp (LIf a u :: body ++ LEndIf :: ls) (Block (h_cond a u) bn :: ns).

  Lemma blocks_inside ls : blocks true ls -> exists body rest, ls = body ++ LEndIf :: rest /\ (forall l, In l body -> is_if l = false) /\ blocks false rest.
  Proof.
    induction ls as [|l ls IH]; intros H; [discriminate H|].
    assert (Q: forall l', l = l' -> is_if l' = false -> blocks true ls -> exists body rest, l' :: ls = body ++ LEndIf :: rest /\ (forall l, In l body -> is_if l = false) /\ blocks false rest).
    { intros l' _ NI B. destruct (IH B) as (body & rest & -> & F & R). exists (l' :: body), rest. repeat split; auto. intros x [<-|Hx]; auto. }
    destruct l; cbn [blocks] in H; try (apply (Q _ eq_refl); [reflexivity|exact H]).
    - destruct H; discriminate.
    - exists [], ls. repeat split; [intros l []|apply H].
  Qed.
  Lemma blocks_grp ls : blocks false ls -> (forall l, In l ls -> is_if l = false -> exists n, line_nodes l n) -> exists ns, grp ls ns.
  Proof.
    assert (P: forall m ls, (List.length ls <= m)%nat -> blocks false ls -> (forall l, In l ls -> is_if l = false -> exists n, line_nodes l n) -> exists ns, grp ls ns).
    { clear ls. induction m as [|m IH]; intros ls L B N.
      - destruct ls; [exists []; constructor|cbn in L; lia].
      - destruct ls as [|l ls]; [exists []; constructor|]. cbn [List.length] in L.
        assert (Q: is_if l = false -> blocks false ls -> exists ns, grp (l :: ls) ns).
        { intros NI B'. destruct (IH ls ltac:(lia) B') as [ns G]; [intros; apply N; [right|]; assumption|]. destruct (N l (or_introl eq_refl) NI) as [n Hn].
          exists (n ++ ns). constructor; assumption. }
        destruct l; cbn [blocks] in B; try (apply Q; [reflexivity|exact B]).
        + destruct B as [_ B]. destruct (blocks_inside _ B) as (body & rest & -> & F & R).
          assert (BB: forall l, (forall x, In x l -> is_if x = false) -> blocks false l).
          { induction l as [|x l IHl]; intros Hl; [reflexivity|]. pose proof (Hl x (or_introl eq_refl)) as Hx. destruct x; try discriminate Hx; apply IHl; intros; apply Hl; right; assumption. }
          rewrite app_length in L. cbn [List.length] in L.
          destruct (IH body ltac:(lia) (BB _ F)) as [bn GB]; [intros x Hx; apply N; right; apply in_or_app; left; exact Hx|].
          destruct (IH rest ltac:(lia) R) as [ns GR]; [intros x Hx; apply N; right; apply in_or_app; right; right; exact Hx|].
          eexists. apply g_if; eassumption.
        + destruct B; discriminate. }
    intros. apply (P (List.length ls)); auto.
  Qed.

  Lemma grp_chunk text ls ns : (forall l n, line_nodes l n -> chunk (text l) n) -> (forall a u, text (LIf a u) = wtext (LIf a u)) -> text LEndIf = wtext LEndIf ->
    grp ls ns -> chunk (concat (map text ls)) ns.
  Proof.
    intros TL TI TE. induction 1 as [|l ls n ns NI LN _ IH|a u body bn ls ns F _ IHb _ IHr]; [apply chunk_nil| |].
    - cbn [map concat]. apply chunk_app; [apply TL, LN|exact IH].
    - cbn [map concat]. rewrite map_app, concat_app. cbn [map concat]. rewrite TI, TE.
      replace (wtext (LIf a u) ++ concat (map text body) ++ wtext LEndIf ++ concat (map text ls))
        with ((wtext (LIf a u) ++ concat (map text body) ++ wtext LEndIf) ++ concat (map text ls)) by (rewrite <- !app_assoc; reflexivity).
      apply (chunk_app _ _ [Block (h_cond a u) bn]); [|exact IHr]. apply chunk_block; [apply opens_cond|exact IHb|apply closes_brace_nl].
  Qed.
End Grp.

(* ------------------------------------------------------------------ *)
(** * Execution *)

Definition after (l : bline) (V : option (list token)) : option (list token) := match l with LVersion b => Some (ttoks b) | _ => V end.

Section Run.
  Context {S : Type}.
  Variables (vmax : list token -> N) (simple : bstmt -> option (list token) -> N -> S -> res (flow S)).
  Variables (on_base : bytes -> N -> S -> res S) (on_version : bytes -> N -> S -> res (N * S)) (on_member : bytes -> ty -> N -> S -> res S).
  Notation exec := (exec on_base on_version on_member).
  Notation run := (run_nodes vmax simple).

  Lemma run_app a : forall b V ver s, run (a ++ b) V ver s = (let! f := run a V ver s in match f with Continue V' ver' s' => run b V' ver' s' | Return v s' => ROk (Return v s') end).
  Proof.
    induction a as [|n a IH]; intros b V ver s; [reflexivity|]. cbn [app run_nodes]. rewrite rbind_assoc. apply rbind_ext. intros [V' ver' s'|v s'].
    - apply IH.
    - reflexivity.
  Qed.
  Lemma run_block h body V ver s : run_node vmax simple (Block h body) V ver s =
    match guard vmax h V ver with
    | Some true => let! f := run body V ver s in match f with Continue _ ver' s' => ROk (Continue V ver' s') | Return v s' => ROk (Return v s') end
    | Some false => ROk (Continue V ver s)
    | None => RStuck
    end.
  Proof. reflexivity. Qed.

  Lemma exec_noif body rest : (forall l, In l body -> is_if l = false) -> forall stk ver s,
    exec (body ++ rest) stk ver s = if active stk then let! (v, s') := exec body [] ver s in exec rest stk v s' else exec rest stk ver s.
  Proof.
    induction body as [|l body IH]; intros F stk ver s; [cbn [app exec rbind]; destruct (active stk); reflexivity|].
    assert (F': forall x, In x body -> is_if x = false) by (intros; apply F; right; assumption). specialize (IH F').
    pose proof (F l (or_introl eq_refl)) as Fl. cbn [app GenSem.exec]. change (active []) with true. cbv iota.
    destruct l; try discriminate Fl; try apply IH.
    - destruct (active stk) eqn:A; [|rewrite IH, A; reflexivity]. rewrite rbind_assoc. apply rbind_ext. intros s'. rewrite IH, A. reflexivity.
    - destruct (active stk) eqn:A; [|rewrite IH, A; reflexivity]. rewrite rbind_assoc. apply rbind_ext. intros [v s']. rewrite IH, A. reflexivity.
    - destruct (active stk) eqn:A; [|rewrite IH, A; reflexivity]. rewrite rbind_assoc. apply rbind_ext. intros s'. rewrite IH, A. reflexivity.
  Qed.

  (** the nodes of a line do what the line does *)
  Definition line_run (l : bline) (n : list node) : Prop := forall V ver s,
    run n V ver s = (let! (v, s') := exec [l] [] ver s in ROk (Continue (after l V) v s')).

  Definition bounds_fine (l : bline) : Prop := match l with LIf a u => (a =? 0) && (u =? 0) = false /\ a < 2 ^ 63 /\ u < 2 ^ 63 | _ => True end.

  Lemma grp_run (ln : bline -> list node -> Prop) ls ns : (forall l n, ln l n -> line_run l n) -> grp ln ls ns -> (forall l, In l ls -> bounds_fine l) ->
    forall V, exists V', forall ver s, run ns V ver s = (let! (v, s') := exec ls [] ver s in ROk (Continue V' v s')).
  Proof.
    intros LR. induction 1 as [|l ls n ns NI LN _ IH|a u body bn ls ns F _ IHb _ IHr]; intros BF V.
    - exists V. reflexivity.
    - assert (E: forall ver s, exec (l :: ls) [] ver s = (let! (v, s') := exec [l] [] ver s in exec ls [] v s')).
      { intros ver0 s0. change (l :: ls) with ([l] ++ ls). rewrite exec_noif; [reflexivity|]. intros x [<-|[]]. exact NI. }
      destruct (IH (fun x Hx => BF x (or_intror Hx)) (after l V)) as [V' Q]. exists V'. intros ver s.
      rewrite run_app, (LR _ _ LN), E, !rbind_assoc. apply rbind_ext. intros [v s']. cbn [rbind]. apply Q.
    - destruct (BF (LIf a u) (or_introl eq_refl)) as (NZ & HA & HU).
      destruct (IHb ltac:(intros x Hx; apply BF; right; apply in_or_app; left; exact Hx) V) as [V1 Q1].
      destruct (IHr ltac:(intros x Hx; apply BF; right; apply in_or_app; right; right; exact Hx) V) as [V2 Q2].
      exists V2. intros ver s. cbn [run_nodes]. rewrite run_block, guard_cond by assumption. cbn [GenSem.exec]. rewrite NZ, exec_noif by exact F.
      cbn [active forallb id]. rewrite andb_true_r. cbn [GenSem.exec]. unfold id. destruct (condition a u ver).
      + rewrite Q1, !rbind_assoc. apply rbind_ext. intros [v s']. cbn [rbind]. apply Q2.
      + cbn [rbind]. apply Q2.
  Qed.
End Run.

(* ------------------------------------------------------------------ *)
(** * Lines with proper names *)

Definition bline_proper (l : bline) : Prop :=
  match l with
  | LNote s => no_newline s
  | LBase q => qualified_name q
  | LVersion b => type_name b
  | LIf _ _ => bounds_fine l
  | LMember n _ => identifier n
  | LReturn => False
  | LEndIf | LPad | LVoid => True
  end.
Lemma proper_bounds l : bline_proper l -> bounds_fine l. Proof. destruct l; cbn; auto. Qed.

Section Write.
  Context {S : Type}.
  Variables (vmax : list token -> N) (base member : bytes -> N -> S -> res S) (varint : N -> S -> res S).
  Definition on_version_w (b : bytes) (ver : N) (s : S) : res (N * S) :=
    if vmax (ttoks b) =? 0 then ROk (ver, s)
    else let ver' := if ver =? 0 then vmax (ttoks b) else ver in let! s' := varint ver' s in ROk (ver', s').
  Notation runs := (line_run vmax (write_simple vmax base member varint) base on_version_w (fun n _ => member n)).

  Lemma simple_line l ts : forall st, bstatement ts = Some st ->
    (forall V ver s, write_simple vmax base member varint st V ver s
       = (let! (v, s') := exec base on_version_w (fun n _ => member n) [l] [] ver s in ROk (Continue (after l V) v s'))) -> runs l [Simple ts].
  Proof.
    intros st B H V ver s. cbn [run_nodes run_node]. rewrite B, H, rbind_assoc. apply rbind_ext. intros [v s']. reflexivity.
  Qed.
  Lemma writer_line l : bline_proper l -> is_if l = false -> exists n, chunk (wtext l) n /\ runs l n.
  Proof.
    intros P NI. destruct l as [s|q|b|a u| | |n t| |]; try discriminate NI; cbn [bline_proper] in P.
    - exists []. split; [apply silent_note, P|]. intros V ver s'. reflexivity.
    - destruct (w_base q P) as (ts & C & B). exists [Simple ts]. split; [exact C|]. apply (simple_line _ _ _ B). intros V ver s.
      cbn. rewrite rbind_assoc. reflexivity.
    - destruct (w_version b P) as (t1 & t2 & C & B1 & B2). exists [Simple t1; Block h_enabled [Simple t2]]. split; [exact C|]. intros V ver s.
      change [Simple t1; Block h_enabled [Simple t2]] with ([Simple t1] ++ [Block h_enabled [Simple t2]]). rewrite run_app.
      replace (run_nodes vmax _ [Simple t1] V ver s) with (ROk (Continue (Some (ttoks b)) ver s)) by (cbn [run_nodes run_node]; rewrite B1; reflexivity).
      cbn [rbind]. cbn [run_nodes]. rewrite run_block, guard_enabled. cbn [GenSem.exec active forallb].
      unfold enabled, on_version_w. destruct (vmax (ttoks b) =? 0); cbn [negb rbind]; [reflexivity|].
      cbn [run_nodes run_node]. rewrite B2. cbn [write_simple]. rewrite !rbind_assoc. apply rbind_ext. intros s'. reflexivity.
    - exists []. split; [apply silent_pad|]. intros V ver s'. reflexivity.
    - destruct (w_member n t P) as (ts & C & B). exists [Simple ts]. split; [exact C|]. apply (simple_line _ _ _ B). intros V ver s.
      cbn. rewrite rbind_assoc. reflexivity.
    - destruct w_void as (t1 & t2 & t3 & C & B1 & B2 & B3). eexists. split; [exact C|]. intros V ver s.
      cbn [run_nodes run_node]. rewrite B1, B2, B3. reflexivity.
    - destruct P.
  Qed.

  Lemma writer_body_aux ls : blocks false ls -> (forall l, In l ls -> bline_proper l) -> exists body, chunk (concat (map wtext ls)) body /\
    forall ver s, run_write vmax base member varint body ver s = exec base on_version_w (fun n _ => member n) ls [] ver s.
  Proof.
    intros B P. destruct (blocks_grp (fun l n => chunk (wtext l) n /\ runs l n) ls B) as [ns G].
    { intros l Hl NI. apply writer_line; auto. }
    exists ns. split.
    - eapply grp_chunk; [|reflexivity..|exact G]. intros l n H. apply H.
    - intros ver s. destruct (grp_run vmax _ base on_version_w (fun n _ => member n) _ ls ns (fun l n H => proj2 H) G (fun l Hl => proper_bounds l (P l Hl)) None) as [V' Q].
      unfold run_write. rewrite Q, rbind_assoc. transitivity (let! r := exec base on_version_w (fun n _ => member n) ls [] ver s in ROk r).
      + apply rbind_ext. intros [v s']. reflexivity.
      + apply rbind_ret.
  Qed.
End Write.

Lemma chunk_unique s a b : chunk s a -> chunk s b -> a = b.
Proof. intros A B. destruct (chunk_group _ _ A) as (ts & T1 & G1). destruct (chunk_group _ _ B) as (ts' & T2 & G2). congruence. Qed.
Lemma writer_body ls : blocks false ls -> (forall l, In l ls -> bline_proper l) -> exists body, chunk (concat (map wtext ls)) body /\
  forall S vmax base member varint ver (s : S), run_write vmax base member varint body ver s = exec base (on_version_w vmax varint) (fun n _ => member n) ls [] ver s.
Proof.
  intros B P. destruct (writer_body_aux (S := unit) (fun _ => 0) (fun _ _ _ => RStuck) (fun _ _ _ => RStuck) (fun _ _ => RStuck) ls B P) as (body & C & _).
  exists body. split; [exact C|]. intros. destruct (writer_body_aux vmax base member varint ls B P) as (body' & C' & R). rewrite (chunk_unique _ _ _ C C'). apply R.
Qed.

Section Read.
  Context {S : Type}.
  Variables (vmax : list token -> N) (base member : bytes -> N -> S -> res S) (varint : S -> res (N * S)) (cls : bytes).
  Hypothesis CLS : qualified_name cls.
  Definition on_version_r (b : bytes) (ver : N) (s : S) : res (N * S) :=
    if vmax (ttoks b) =? 0 then ROk (ver, s)
    else let! (v, s') := varint s in if v <=? vmax (ttoks b) then ROk (v, s') else RThrow (ExVersion v (vmax (ttoks b)) cls).
  Notation simple := (read_simple vmax base member varint).
  Notation runs := (line_run vmax simple base on_version_r (fun n _ => member n)).

  Lemma simple_line_r l ts : forall st, bstatement ts = Some st ->
    (forall V ver s, simple st V ver s
       = (let! (v, s') := exec base on_version_r (fun n _ => member n) [l] [] ver s in ROk (Continue (after l V) v s'))) -> runs l [Simple ts].
  Proof.
    intros st B H V ver s. cbn [run_nodes run_node]. rewrite B, H, rbind_assoc. apply rbind_ext. intros [v s']. reflexivity.
  Qed.
  Lemma reader_line l : bline_proper l -> is_if l = false -> exists n, chunk (rtext cls l) n /\ runs l n.
  Proof.
    intros P NI. destruct l as [s|q|b|a u| | |n t| |]; try discriminate NI; cbn [bline_proper] in P.
    - exists []. split; [apply silent_note, P|]. intros V ver s'. reflexivity.
    - destruct (r_base cls q P) as (ts & C & B). exists [Simple ts]. split; [exact C|]. apply (simple_line_r _ _ _ B). intros V ver s.
      cbn. rewrite rbind_assoc. reflexivity.
    - destruct (r_version cls b CLS P) as (t1 & t2 & C & B1 & B2). exists [Simple t1; Block h_enabled [Simple t2]]. split; [exact C|]. intros V ver s.
      change [Simple t1; Block h_enabled [Simple t2]] with ([Simple t1] ++ [Block h_enabled [Simple t2]]). rewrite run_app.
      replace (run_nodes vmax _ [Simple t1] V ver s) with (ROk (Continue (Some (ttoks b)) ver s)) by (cbn [run_nodes run_node]; rewrite B1; reflexivity).
      cbn [rbind]. cbn [run_nodes]. rewrite run_block, guard_enabled. cbn [GenSem.exec active forallb].
      unfold enabled, on_version_r. destruct (vmax (ttoks b) =? 0); cbn [negb rbind]; [reflexivity|].
      cbn [run_nodes run_node]. rewrite B2. cbn [read_simple]. rewrite !rbind_assoc. apply rbind_ext. intros [v s']. destruct (v <=? vmax (ttoks b)); reflexivity.
    - exists []. split; [apply silent_pad|]. intros V ver s'. reflexivity.
    - destruct (r_member cls n t P) as (ts & C & B). exists [Simple ts]. split; [exact C|]. apply (simple_line_r _ _ _ B). intros V ver s.
      cbn. rewrite rbind_assoc. reflexivity.
    - destruct (r_void cls) as (t1 & t2 & C & B1 & B2). eexists. split; [exact C|]. intros V ver s.
      cbn [run_nodes run_node]. rewrite B1, B2. reflexivity.
    - destruct P.
  Qed.

  Lemma reader_body_aux ls : blocks false ls -> (forall l, In l ls -> bline_proper l) -> exists body, chunk (concat (map (rtext cls) (ls ++ [LReturn]))) body /\
    forall ver s, run_read vmax base member varint body ver s = exec base on_version_r (fun n _ => member n) ls [] ver s.
  Proof.
    intros B P. destruct (blocks_grp (fun l n => chunk (rtext cls l) n /\ runs l n) ls B) as [ns G].
    { intros l Hl NI. apply reader_line; auto. }
    destruct return_text as (tr & CR & BR).
    exists (ns ++ [Simple tr]). split.
    - rewrite map_app, concat_app. apply chunk_app.
      + eapply grp_chunk; [|reflexivity..|exact G]. intros l n H. apply H.
      + cbn [map concat]. rewrite app_nil_r. exact CR.
    - intros ver s. destruct (grp_run vmax _ base on_version_r (fun n _ => member n) _ ls ns (fun l n H => proj2 H) G (fun l Hl => proper_bounds l (P l Hl)) None) as [V' Q].
      unfold run_read. rewrite run_app, Q, !rbind_assoc. transitivity (let! r := exec base on_version_r (fun n _ => member n) ls [] ver s in ROk r).
      + apply rbind_ext. intros [v s']. cbn [rbind run_nodes run_node]. rewrite BR. reflexivity.
      + apply rbind_ret.
  Qed.
End Read.
Lemma reader_body cls ls : qualified_name cls -> blocks false ls -> (forall l, In l ls -> bline_proper l) -> exists body, chunk (concat (map (rtext cls) (ls ++ [LReturn]))) body /\
  forall S vmax base member varint ver (s : S), run_read vmax base member varint body ver s = exec base (on_version_r vmax varint cls) (fun n _ => member n) ls [] ver s.
Proof.
  intros Q B P. destruct (reader_body_aux (S := unit) (fun _ => 0) (fun _ _ _ => RStuck) (fun _ _ _ => RStuck) (fun _ => RStuck) cls Q ls B P) as (body & C & _).
  exists body. split; [exact C|]. intros. destruct (reader_body_aux vmax base member varint cls Q ls B P) as (body' & C' & R). rewrite (chunk_unique _ _ _ C C'). apply R.
Qed.

(* ------------------------------------------------------------------ *)
(** * The lines of a class are proper *)

Definition class_proper (k : rclass) : Prop :=
  qualified_name (qname k) /\ (forall b, k_base k = Some b -> type_name (cb_printed b))
  /\ (forall n a c t, In (MField n a c t) (cr_decls (k_rec k)) -> identifier n)
  /\ (forall n v, In (MVar n (Some v)) (cr_decls (k_rec k)) -> v < 2 ^ 63).

Definition small (m : mtrack) : Prop := mt_as m < 2 ^ 63 /\ mt_until m < 2 ^ 63.
Lemma marker_small m n l : small m -> (forall v, l = Some v -> v < 2 ^ 63) -> small (marker m n l).
Proof.
  intros [A U] H. unfold small. rewrite marker_as, marker_until. unfold bounds. destruct l as [v|]; [|cbn; auto]. specialize (H v eq_refl).
  destruct (starts_with _ n); [|destruct (starts_with _ n)]; cbn [fst snd]; split; auto; destruct (_ <? _); auto; cbn; lia.
Qed.
Lemma condition_small m c m1 : write_condition m = (c, m1) -> small m -> small m1 /\ forall l, In l c -> bounds_fine l.
Proof.
  unfold write_condition. destruct (_ && _); intros E [A U]; inversion E; subst; clear E; [split; [split; assumption|intros l []]|].
  split; [split; assumption|]. intros l H. apply in_app_or in H. destruct H as [H|H].
  - unfold conclude in H. destruct (mt_within m); [destruct H as [<-|[]]; exact I|destruct H].
  - destruct (mt_as m =? 0) eqn:EA, (mt_until m =? 0) eqn:EU; cbn [negb orb In] in H; try destruct H as [<-|[]]; try destruct H; cbn [bounds_fine]; rewrite EA, EU; auto.
Qed.
Lemma padding_fine m l : In l (padding m) -> bounds_fine l.
Proof. unfold padding. destruct mt_within; [intros [<-|[]]; exact I|intros []]. Qed.
Lemma writer_small priv ds : (forall n v, In (MVar n (Some v)) ds -> v < 2 ^ 63) -> forall m ls m2, writer_members priv ds m = (ls, m2) -> small m ->
  forall l, In l ls -> bounds_fine l.
Proof.
  induction ds as [|d ds IH]; intros HV m ls m2; cbn [writer_members]; [intros E; inversion E; intros _ l []|].
  assert (HV': forall n v, In (MVar n (Some v)) ds -> v < 2 ^ 63) by (intros; eapply HV; right; eassumption).
  specialize (IH HV'). destruct d as [n l'|n acc const t|].
  - intros E SM. eapply IH; [exact E|]. apply marker_small; [exact SM|]. intros v ->. eapply HV. left; reflexivity.
  - destruct const; [apply IH|]. destruct (negb priv && negb (is_public acc)); [apply IH|].
    destruct (write_condition m) as [c m1] eqn:C. destruct (writer_members priv ds (set_written m1)) as [ls' m2'] eqn:W.
    intros E SM l; inversion E; subst; clear E. destruct (condition_small _ _ _ C SM) as [SM1 FC].
    rewrite !in_app_iff. intros [H|[H|[<-|H]]]; [apply FC, H|eapply padding_fine; eauto|exact I|]. eapply IH; [exact W| |exact H]. exact SM1.
  - apply IH.
Qed.
Lemma reader_small priv ds : (forall n v, In (MVar n (Some v)) ds -> v < 2 ^ 63) -> forall m ls m2, reader_members priv ds m = (ls, m2) -> small m ->
  forall l, In l ls -> bounds_fine l.
Proof.
  induction ds as [|d ds IH]; intros HV m ls m2; cbn [reader_members]; [intros E; inversion E; intros _ l []|].
  assert (HV': forall n v, In (MVar n (Some v)) ds -> v < 2 ^ 63) by (intros; eapply HV; right; eassumption).
  specialize (IH HV'). destruct d as [n l'|n acc const t|].
  - intros E SM. eapply IH; [exact E|]. apply marker_small; [exact SM|]. intros v ->. eapply HV. left; reflexivity.
  - destruct const; [apply IH|].
    destruct (write_condition m) as [c m1] eqn:C. destruct (priv || is_public acc).
    + destruct (reader_members priv ds (set_written m1)) as [ls' m2'] eqn:W.
      intros E SM l; inversion E; subst; clear E. destruct (condition_small _ _ _ C SM) as [SM1 FC].
      rewrite !in_app_iff. intros [H|[H|[<-|H]]]; [apply FC, H|eapply padding_fine; eauto|exact I|]. eapply IH; [exact W| |exact H]. exact SM1.
    + destruct (reader_members priv ds m1) as [ls' m2'] eqn:W.
      intros E SM l; inversion E; subst; clear E. destruct (condition_small _ _ _ C SM) as [SM1 FC].
      rewrite !in_app_iff. intros [H|[H|H]]; [apply FC, H|eapply padding_fine; eauto|]. eapply IH; [exact W|exact SM1|exact H].
  - apply IH.
Qed.
Lemma small0 : small mt0. Proof. split; reflexivity. Qed.

Lemma writer_lines_proper rbs k : class_proper k -> (forall b, In b rbs -> class_proper b) -> forall l, In l (writer_lines rbs k) -> bline_proper l.
Proof.
  intros (PQ & PB & PM & PV) PR l. unfold writer_lines. destruct (writer_members _ _ mt0) as [ms m] eqn:W.
  rewrite !in_app_iff. intros [H|[H|[H|[H|[H|[H|H]]]]]].
  - destruct H as [<-|[]]. reflexivity.
  - apply in_map_iff in H. destruct H as (b & <- & Hb). apply (PR _ Hb).
  - unfold version_lines in H. destruct (k_base k) as [b|]; [|destruct H]. destruct H as [<-|[<-|[]]]; [reflexivity|]. apply PB; reflexivity.
  - destruct H as [<-|[]]. reflexivity.
  - pose proof (writer_shape _ _ _ _ _ W _ H) as Sh. pose proof (writer_small _ _ PV _ _ _ W small0 _ H) as Sm.
    destruct l as [s|q|b|a u| | |n t| |]; cbn in Sh; try exact I; try exact Sm; try destruct Sh.
    apply (writer_members_in _ _ _ _ _ _ _ W) in H. destruct H as (acc & Hin & _). eapply PM; eauto.
  - unfold conclude in H. destruct (mt_within m); [destruct H as [<-|[]]; exact I|destruct H].
  - destruct (no_bases rbs && negb (mt_written m)); [destruct H as [<-|[]]; exact I|destruct H].
Qed.
Lemma reader_lines_proper rbs k : class_proper k -> (forall b, In b rbs -> class_proper b) ->
  exists ls, reader_lines rbs k = ls ++ [LReturn] /\ blocks false ls /\ forall l, In l ls -> bline_proper l.
Proof.
  intros (PQ & PB & PM & PV) PR. unfold reader_lines. destruct (reader_members _ _ mt0) as [ms m] eqn:W.
  exists ([LNote (bs "read base classes")] ++ map (fun b => LBase (qname b)) rbs ++ version_lines "read version" k
    ++ [LNote (bs "read members")] ++ ms ++ conclude m ++ (if no_bases rbs && negb (mt_written m) then [LVoid] else [])).
  split; [rewrite <- !app_assoc; reflexivity|]. split.
  - pose proof (reader_blocks rbs k) as B. unfold reader_lines in B. rewrite W in B.
    assert (Q: forall x b, blocks b (x ++ [LReturn]) -> blocks b x).
    { induction x as [|y x IH]; intros b; cbn [app blocks]; [auto|]. destruct y; try apply IH; intros [? ?]; split; auto. }
    apply Q. rewrite <- !app_assoc. exact B.
  - intros l. rewrite !in_app_iff. intros [H|[H|[H|[H|[H|[H|H]]]]]].
    + destruct H as [<-|[]]. reflexivity.
    + apply in_map_iff in H. destruct H as (b & <- & Hb). apply (PR _ Hb).
    + unfold version_lines in H. destruct (k_base k) as [b|]; [|destruct H]. destruct H as [<-|[<-|[]]]; [reflexivity|]. apply PB; reflexivity.
    + destruct H as [<-|[]]. reflexivity.
    + pose proof (reader_shape _ _ _ _ _ W _ H) as Sh. pose proof (reader_small _ _ PV _ _ _ W small0 _ H) as Sm.
      destruct l as [s|q|b|a u| | |n t| |]; cbn in Sh; try exact I; try exact Sm; try destruct Sh.
      apply (reader_members_in _ _ _ _ _ _ _ W) in H. destruct H as (acc & Hin & _). eapply PM; eauto.
    + unfold conclude in H. destruct (mt_within m); [destruct H as [<-|[]]; exact I|destruct H].
    + destruct (no_bases rbs && negb (mt_written m)); [destruct H as [<-|[]]; exact I|destruct H].
Qed.
