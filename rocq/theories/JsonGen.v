(** JsonGen.v -- executing the generated push/pull functions is what the JSON model does for the
    class, and the names of the members which are pushed *)
From Coq Require Import String List NArith ZArith Bool Lia Permutation Arith.
From Verif Require Import Base BaseFacts Bytes Types TypesFacts BinModel GenModel GenSem GenFacts GenSpec GenSelect GenText Float JsonModel JsonSpec JsonRel.
Import ListNotations.
Local Open Scope list_scope.
Local Open Scope N_scope.

(* ------------------------------------------------------------------ *)
(** * Execution of the generated statements *)

(** A generated push function (the text is [push_text] of each line, GenModel.v): [resolve] is C++ name lookup,
    [c] the class, [fs] the object, [ms] the members of the JSON object so far. *)
Section RunPush.
  Variables (G : genv) (J : jenv) (H : heap) (f : nat) (resolve : bytes -> option N) (c : N) (fs : list (fkey * val)).
  Fixpoint run_push (ls : list jline) (ms : list (bytes * json)) : res (list (bytes * json)) :=
    match ls with
    | [] => ROk ms
    | (JNote _ | JVoid) :: ls' => run_push ls' ms
    | JBase q :: ls' =>
        match resolve q with
        | Some b => let! ms' := push_cls G J H f b fs ms in run_push ls' ms'
        | None => RStuck
        end
    | JMember n t :: ls' =>
        match alookup fkey_eqb (c, n) fs with
        | Some v => let! j := push G J H f t v in run_push ls' (ms ++ [(n, j)])
        | None => RStuck
        end
    | (JSetRecord _ | JRestoreRecord) :: _ => RStuck
    end.
End RunPush.

(** A generated pull function; [prev] is the local variable previousRecord. *)
Section RunPull.
  Variables (G : genv) (J : jenv) (f : nat) (resolve : bytes -> option N) (c : N) (ms : list (bytes * json)).
  Fixpoint run_pull (ls : list jline) (prev : option bytes) (os : list (fkey * val)) (st : pst) : out (list (fkey * val)) :=
    match ls with
    | [] => POk os st
    | (JNote _ | JVoid) :: ls' => run_pull ls' prev os st
    | JBase q :: ls' =>
        match resolve q with
        | Some b => bind (pull_cls G J f b os ms) (run_pull ls' prev) st
        | None => PStuck
        end
    | JSetRecord q :: ls' =>
        run_pull ls' (match p_err st with Some e => es_record e | None => None end) os (put_record (Some q) st)
    | JMember n t :: ls' =>
        bind (pull_member (pull G J f) ms {| jf_name := n; jf_key := (c, n); jf_ty := t |} os) (run_pull ls' prev) st
    | JRestoreRecord :: ls' => run_pull ls' prev os (put_record prev st)
    end.
End RunPull.

(** [rc] has the functions which the JSON generator generates for [k] in the run [o] on [ds] *)
Record generated_json (o : gopts) (ds : list decl) (k : rclass) (rc : rtclass) : Prop := {
  gj_name : rc_name rc = qname k;
  gj_push : rc_push rc = push_prog (find_bases ds (relevant_classes o ds) k) k;
  gj_pull : rc_pull rc = pull_prog (find_bases ds (relevant_classes o ds) k) k }.

Lemma Some_inj {A} (a b : A) : Some a = Some b -> a = b. Proof. congruence. Qed.
(** the class program's members *)
Definition jm (c : N) (l : jline) : list jfield := match l with JMember n t => [{| jf_name := n; jf_key := (c, n); jf_ty := t |}] | _ => [] end.
Lemma jmembers_flat c ls : jmembers c ls = flat_map (jm c) ls. Proof. reflexivity. Qed.
Lemma jmembers_app c a b : jmembers c (a ++ b) = jmembers c a ++ jmembers c b.
Proof. rewrite !jmembers_flat. apply flat_map_app. Qed.
Lemma jmembers_bases c rbs : jmembers c (map (fun b => JBase (qname b)) rbs) = [].
Proof. induction rbs; [reflexivity|]. exact IHrbs. Qed.
Lemma jmembers_void c (b : bool) : jmembers c (if b then [JVoid] else []) = [].
Proof. destruct b; reflexivity. Qed.

Definition only_members (ls : list jline) : Prop := forall l, In l ls -> exists n t, l = JMember n t.
Lemma push_only priv ds : only_members (push_members priv ds).
Proof. intros l H. apply push_members_in in H. destruct H as (n & acc & c & t & -> & _). eauto. Qed.
Lemma pull_only priv ds : only_members (pull_members priv ds).
Proof. intros l H. apply pull_members_in in H. destruct H as (n & acc & t & -> & _). eauto. Qed.

Definition own_push (k : rclass) : list jfield := jmembers (cr_id (k_rec k)) (push_members (befriends (k_rec k) fn_push) (cr_decls (k_rec k))).
Definition own_pull (k : rclass) : list jfield := jmembers (cr_id (k_rec k)) (pull_members (befriends (k_rec k) fn_pull) (cr_decls (k_rec k))).
Lemma push_prog_fields rbs k : jp_fields (push_prog rbs k) = own_push k.
Proof.
  unfold push_prog, push_lines, own_push. cbn [jp_fields]. cbv zeta. rewrite !jmembers_app, jmembers_bases, jmembers_void.
  cbn [jmembers flat_map app]. rewrite app_nil_r. reflexivity.
Qed.
Lemma pull_prog_fields rbs k p : pull_prog rbs k = Some p -> p = {| jp_bases := map (fun b => cr_id (k_rec b)) rbs; jp_record := Some (qname k); jp_fields := own_pull k |}.
Proof.
  unfold pull_prog. destruct (cr_defctor (k_rec k)); [|discriminate]. intros E; apply Some_inj in E; subst p. f_equal.
  unfold pull_lines, own_pull. cbv zeta. rewrite !jmembers_app, jmembers_bases, jmembers_void. cbn [jmembers flat_map app]. rewrite app_nil_r. reflexivity.
Qed.

Section L.
  Variables (o : gopts) (ds : list decl) (G : genv) (J : jenv) (resolve : bytes -> option N).
  Hypothesis RES : forall k, In k (relevant_classes o ds) -> resolve (qname k) = Some (cr_id (k_rec k)).

  Lemma run_push_app H f c fs a b ms : run_push G J H f resolve c fs (a ++ b) ms = (let! ms1 := run_push G J H f resolve c fs a ms in run_push G J H f resolve c fs b ms1).
  Proof.
    revert ms; induction a as [|l a IH]; intros ms; [reflexivity|]. cbn [app run_push]. destruct l; try apply IH; try reflexivity.
    - destruct (resolve q); [|reflexivity]. rewrite rbind_assoc. apply rbind_ext. intros. apply IH.
    - destruct (alookup fkey_eqb (c, n) fs); [|reflexivity]. rewrite rbind_assoc. apply rbind_ext. intros. apply IH.
  Qed.
  Lemma run_push_bases H f c fs rbs ms : (forall b, In b rbs -> resolve (qname b) = Some (cr_id (k_rec b))) ->
    run_push G J H f resolve c fs (map (fun b => JBase (qname b)) rbs) ms
    = push_fold (fun b ms => push_cls G J H f b fs ms) (map (fun b => cr_id (k_rec b)) rbs) ms.
  Proof.
    revert ms; induction rbs as [|b rbs IH]; intros ms R; [reflexivity|]. cbn [map run_push push_fold]. rewrite (R b) by (left; reflexivity).
    apply rbind_ext. intros. apply IH. intros; apply R; right; assumption.
  Qed.
  Lemma run_push_members H f c fs ls ms : only_members ls ->
    run_push G J H f resolve c fs ls ms
    = push_fold (fun fd ms => match alookup fkey_eqb (jf_key fd) fs with
            | Some v => let! j := push G J H f (jf_ty fd) v in ROk (ms ++ [(jf_name fd, j)])
            | None => RStuck end) (jmembers c ls) ms.
  Proof.
    revert ms; induction ls as [|l ls IH]; intros ms O; [reflexivity|]. destruct (O l (or_introl eq_refl)) as (n & t & ->).
    cbn [run_push jmembers flat_map app push_fold jf_key jf_ty jf_name]. destruct (alookup fkey_eqb (c, n) fs); [|reflexivity].
    rewrite rbind_assoc. apply rbind_ext. intros j. cbn [rbind]. apply IH. intros l Hl. apply O. right; exact Hl.
  Qed.
  Lemma run_push_void H f c fs (b : bool) ms : run_push G J H f resolve c fs (if b then [JVoid] else []) ms = ROk ms.
  Proof. destruct b; reflexivity. Qed.

  Theorem run_push_is_model H f k rc fs ms :
    g_class G (cr_id (k_rec k)) = Some rc -> generated_json o ds k rc ->
    run_push G J H f resolve (cr_id (k_rec k)) fs (push_lines (find_bases ds (relevant_classes o ds) k) k) ms
    = push_cls G J H (S f) (cr_id (k_rec k)) fs ms.
  Proof.
    intros HC [_ GP _]. rewrite push_cls_S. unfold push_cls_body. rewrite HC, GP, push_prog_fields.
    set (rbs := find_bases ds (relevant_classes o ds) k).
    assert (RB: forall b, In b rbs -> resolve (qname b) = Some (cr_id (k_rec b))) by (intros b Hb; apply RES; apply filter_In in Hb; apply Hb).
    unfold push_lines. cbv zeta. cbn [app run_push]. rewrite run_push_app, (run_push_bases _ _ _ _ _ _ RB).
    change (jp_bases (push_prog rbs k)) with (map (fun b => cr_id (k_rec b)) rbs). apply rbind_ext. intros ms1.
    cbn [app run_push]. rewrite run_push_app, run_push_members by apply push_only. fold (own_push k).
    match goal with |- rbind ?m _ = ?m => destruct m; try reflexivity end. cbn [rbind]. apply run_push_void.
  Qed.

  Lemma bind_ext_st {A B} (m : M A) (k k' : A -> M B) st : (forall a st', k a st' = k' a st') -> bind m k st = bind m k' st.
  Proof. intros E. unfold bind. destruct (m st); auto. Qed.
  Lemma bind_assoc_st {A B C} (m : M A) (k : A -> M B) (l : B -> M C) st : bind (bind m k) l st = bind m (fun a => bind (k a) l) st.
  Proof. unfold bind. destruct (m st); auto. Qed.

  Lemma run_pull_bases f c ms rbs rest prev os st : (forall b, In b rbs -> resolve (qname b) = Some (cr_id (k_rec b))) ->
    run_pull G J f resolve c ms (map (fun b => JBase (qname b)) rbs ++ rest) prev os st
    = bind (fold_m (fun os b => pull_cls G J f b os ms) (map (fun b => cr_id (k_rec b)) rbs) os) (run_pull G J f resolve c ms rest prev) st.
  Proof.
    revert os st; induction rbs as [|b rbs IH]; intros os st R; [reflexivity|]. cbn [map app run_pull fold_m]. rewrite (R b) by (left; reflexivity).
    rewrite bind_assoc_st. apply bind_ext_st. intros. apply IH. intros; apply R; right; assumption.
  Qed.
  Lemma run_pull_members f c ms ls rest prev os st : only_members ls ->
    run_pull G J f resolve c ms (ls ++ rest) prev os st
    = bind (fold_m (fun os fd => pull_member (pull G J f) ms fd os) (jmembers c ls) os) (run_pull G J f resolve c ms rest prev) st.
  Proof.
    revert os st; induction ls as [|l ls IH]; intros os st O; [reflexivity|]. destruct (O l (or_introl eq_refl)) as (n & t & ->).
    cbn [run_pull jmembers flat_map app fold_m]. rewrite bind_assoc_st. apply bind_ext_st. intros. apply IH. intros l Hl. apply O. right; exact Hl.
  Qed.

  Theorem run_pull_is_model f k rc os ms st :
    g_class G (cr_id (k_rec k)) = Some rc -> generated_json o ds k rc -> cr_defctor (k_rec k) = true ->
    run_pull G J f resolve (cr_id (k_rec k)) ms (pull_lines (find_bases ds (relevant_classes o ds) k) k) None os st
    = pull_cls G J (S f) (cr_id (k_rec k)) os ms st.
  Proof.
    intros HC [_ _ GP] D. rewrite pull_cls_S. unfold pull_cls_body. rewrite HC.
    set (rbs := find_bases ds (relevant_classes o ds) k) in *.
    destruct (pull_prog rbs k) as [p|] eqn:PP; [|unfold pull_prog in PP; rewrite D in PP; discriminate].
    rewrite GP. rewrite (pull_prog_fields _ _ _ PP). cbn [jp_bases jp_record jp_fields]. cbv zeta.
    assert (RB: forall b, In b rbs -> resolve (qname b) = Some (cr_id (k_rec b))) by (intros b Hb; apply RES; apply filter_In in Hb; apply Hb).
    unfold pull_lines. cbv zeta. cbn [app run_pull]. rewrite (run_pull_bases _ _ _ _ _ _ _ _ RB). apply bind_ext_st. intros os1 st1.
    cbn [app run_pull]. rewrite run_pull_members by apply pull_only. fold (own_pull k). unfold bind, in_record.
    destruct (fold_m _ (own_pull k) os1 (put_record (Some (qname k)) st1)); try reflexivity.
    destruct (no_bases rbs && _); reflexivity.
  Qed.
End L.

(* ------------------------------------------------------------------ *)
(** * Names *)

(** the members of a class which are accessible to a function, in declaration order *)
Inductive own_names (friend : bool) : list mdecl -> list bytes -> Prop :=
| on_nil : own_names friend [] []
| on_take n acc const t ds ns : friend = true \/ acc = Public -> own_names friend ds ns -> own_names friend (MField n acc const t :: ds) (n :: ns)
| on_hidden n acc const t ds ns : friend = false -> acc <> Public -> own_names friend ds ns -> own_names friend (MField n acc const t :: ds) ns
| on_var n l ds ns : own_names friend ds ns -> own_names friend (MVar n l :: ds) ns
| on_other ds ns : own_names friend ds ns -> own_names friend (MOther :: ds) ns.

(** the names of all members of an object of class [k]: those of the base classes code is generated for (each with
    everything it has itself), then its own *)
Inductive all_names (o : gopts) (ds : list decl) : rclass -> list bytes -> Prop :=
| an_intro k own Ns :
    Forall2 (all_names o ds) (find_bases ds (relevant_classes o ds) k) Ns ->
    own_names (befriends (k_rec k) fn_push) (cr_decls (k_rec k)) own ->
    all_names o ds k (concat Ns ++ own).

Lemma own_names_push c friend ds : own_names friend ds (map jf_name (jmembers c (push_members friend ds))).
Proof.
  induction ds as [|d ds IH]; cbn; [constructor|]. destruct d as [n l|n acc const t|]; cbn [app]; [constructor; exact IH| |constructor; exact IH].
  destruct friend, acc; cbn [orb is_public]; cbn; constructor; auto; discriminate.
Qed.

Definition generated_env (o : gopts) (ds : list decl) (G : genv) : Prop :=
  forall k, In k (relevant_classes o ds) -> exists rc, g_class G (cr_id (k_rec k)) = Some rc /\ generated_json o ds k rc.

(** induction along base classes *)
Lemma class_ind o ds : one_definition ds -> wf_bases ds -> forall P : rclass -> Prop,
  (forall k, In k (relevant_classes o ds) -> (forall b, In b (find_bases ds (relevant_classes o ds) k) -> P b) -> P k) ->
  forall k, In k (relevant_classes o ds) -> P k.
Proof.
  intros OD WF P IHP k. remember (N.to_nat (cr_id (k_rec k))) as n eqn:En. revert k En.
  induction n as [n IH] using lt_wf_ind. intros k En Hk. apply IHP; [exact Hk|]. intros b Hb.
  apply find_bases_spec in Hb; auto. destruct Hb as (Hr & _ & Hd). pose proof (derives_lt _ WF _ _ Hd) as Lt.
  apply (IH (N.to_nat (cr_id (k_rec b)))); auto. lia.
Qed.

Lemma forall2_choice {A B} (P : A -> B -> Prop) l : (forall x, In x l -> exists y, P x y) -> exists ys, Forall2 P l ys.
Proof.
  induction l as [|x l IH]; intros H; [exists []; constructor|]. destruct (H x (or_introl eq_refl)) as [y Hy].
  destruct IH as [ys Hys]; [intros; apply H; right; assumption|]. exists (y :: ys). constructor; assumption.
Qed.
Lemma forall2_map_l {A B C} (g : A -> B) (P : B -> C -> Prop) l ys : Forall2 (fun x y => P (g x) y) l ys -> Forall2 P (map g l) ys.
Proof. induction 1; constructor; assumption. Qed.
Lemma forall2_in_l {A B} (P : A -> B -> Prop) l ys x : Forall2 P l ys -> In x l -> exists y, In y ys /\ P x y.
Proof. induction 1 as [|a b l ys Hab H IH]; [intros []|]. intros [->|Hx]; [exists b; split; [left; reflexivity|exact Hab]|]. destruct (IH Hx) as (y & ? & ?). exists y. split; [right; assumption|assumption]. Qed.

Lemma generated_names o ds G k : one_definition ds -> wf_bases ds -> generated_env o ds G -> In k (relevant_classes o ds) ->
  exists L, JsonSpec.members G pushed_by (cr_id (k_rec k)) L /\ all_names o ds k (map jf_name L).
Proof.
  intros OD WF GEN Hk. revert k Hk. apply (class_ind o ds OD WF). intros k Hk IH.
  destruct (GEN _ Hk) as (rc & HC & [_ GP _]).
  destruct (forall2_choice (fun b L => JsonSpec.members G pushed_by (cr_id (k_rec b)) L /\ all_names o ds b (map jf_name L)) _ IH) as [Ls HLs].
  exists (concat Ls ++ own_push k). split.
  - rewrite <- (push_prog_fields (find_bases ds (relevant_classes o ds) k) k), <- GP. apply members_intro with (rc := rc); [exact HC|reflexivity|].
    rewrite GP. cbn [jp_bases push_prog]. apply forall2_map_l. clear -HLs. induction HLs as [|x y ? ? [? _]]; constructor; assumption.
  - rewrite map_app, concat_map. constructor; [|apply own_names_push].
    clear -HLs. induction HLs as [|x y ? ? [_ ?]]; cbn [map]; constructor; assumption.
Qed.

(** what a class pulls is part of what it pushes, provided private members are pushed if they are pulled *)
Lemma own_pull_incl k : (befriends (k_rec k) fn_pull = true -> befriends (k_rec k) fn_push = true) -> incl (own_pull k) (own_push k).
Proof.
  intros F fd H. unfold own_pull, own_push in *. unfold jmembers in *. apply in_flat_map in H. destruct H as (l & Hl & Hfd).
  apply in_flat_map. exists l. split; [|exact Hfd]. apply pull_members_in in Hl. destruct Hl as (n & acc & t & -> & Hin & A).
  apply push_members_in. exists n, acc, false, t. split; [reflexivity|]. split; [exact Hin|]. destruct A as [A|A]; [left; auto|right; exact A].
Qed.

Lemma generated_pull_members o ds G k : one_definition ds -> wf_bases ds -> generated_env o ds G -> In k (relevant_classes o ds) ->
  (forall b, b = k \/ In b (find_bases ds (relevant_classes o ds) k) ->
     cr_defctor (k_rec b) = true /\ (befriends (k_rec b) fn_pull = true -> befriends (k_rec b) fn_push = true)) ->
  exists Lp Lq, JsonSpec.members G pushed_by (cr_id (k_rec k)) Lp /\ JsonSpec.members G rc_pull (cr_id (k_rec k)) Lq /\ incl Lq Lp.
Proof.
  intros OD WF GEN Hk. revert k Hk. apply (class_ind o ds OD WF (fun k => (forall b, b = k \/ In b (find_bases ds (relevant_classes o ds) k) -> _) -> exists Lp Lq, _)).
  intros k Hk IH HB. set (rbs := find_bases ds (relevant_classes o ds) k) in *.
  destruct (GEN _ Hk) as (rc & HC & [_ GP GQ]). fold rbs in GP, GQ.
  assert (Bases: exists Ls, Forall2 (fun b L => JsonSpec.members G pushed_by (cr_id (k_rec b)) (fst L) /\ JsonSpec.members G rc_pull (cr_id (k_rec b)) (snd L) /\ incl (snd L) (fst L)) rbs Ls).
  { apply forall2_choice. intros b Hb. destruct (IH b Hb) as (Lp & Lq & A & B & C); [|exists (Lp, Lq); auto].
    intros b' [->|Hb']; apply HB; right; [exact Hb|]. unfold rbs in Hb. apply find_bases_spec in Hb, Hb'; auto.
    destruct Hb as (_ & _ & Hd), Hb' as (Hr' & _ & Hd'). unfold rbs. apply find_bases_spec; auto. split; [exact Hr'|].
    pose proof (derives_trans _ _ _ _ Hd Hd') as Hdd. split; [|exact Hdd]. pose proof (derives_lt _ WF _ _ Hdd). lia. }
  destruct Bases as [Ls HLs]. destruct (HB k (or_introl eq_refl)) as [D F].
  destruct (pull_prog rbs k) as [p|] eqn:PP; [|unfold pull_prog in PP; rewrite D in PP; discriminate].
  pose proof (pull_prog_fields _ _ _ PP) as Ep.
  exists (concat (map fst Ls) ++ own_push k), (concat (map snd Ls) ++ own_pull k). split; [|split].
  - rewrite <- (push_prog_fields rbs k), <- GP. apply members_intro with (rc := rc); [exact HC|reflexivity|].
    rewrite GP. cbn [jp_bases push_prog]. apply forall2_map_l. clear -HLs. induction HLs as [|x y ? ? (? & _ & _)]; cbn [map]; constructor; assumption.
  - replace (own_pull k) with (jp_fields p) by (rewrite Ep; reflexivity). apply members_intro with (rc := rc); [exact HC|exact GQ|].
    rewrite Ep. cbn [jp_bases]. apply forall2_map_l. clear -HLs. induction HLs as [|x y ? ? (_ & ? & _)]; cbn [map]; constructor; assumption.
  - apply incl_app.
    + apply incl_appl. clear -HLs. induction HLs as [|x y ? ? (_ & _ & I)]; cbn [map concat]; [apply incl_refl|].
      apply incl_app; [apply incl_appl; exact I|apply incl_appr; assumption].
    + apply incl_appr. apply own_pull_incl. exact F.
Qed.

(* ------------------------------------------------------------------ *)
(** * Uniqueness of names *)

Lemma own_in friend ds ns n : own_names friend ds ns -> (In n ns <-> exists acc const t, In (MField n acc const t) ds /\ (friend = true \/ acc = Public)).
Proof.
  induction 1 as [|n' acc const t ds ns A H IH|n' acc const t ds ns F A H IH|n' l ds ns H IH|ds ns H IH]; cbn [In].
  - split; [intros []|intros (? & ? & ? & [] & _)].
  - rewrite IH. split.
    + intros [->|(a & c & t' & H1 & H2)]; [exists acc, const, t; auto|exists a, c, t'; auto].
    + intros (a & c & t' & [E|H1] & H2); [inversion E; auto|right; exists a, c, t'; auto].
  - rewrite IH. split.
    + intros (a & c & t' & H1 & H2). exists a, c, t'; auto.
    + intros (a & c & t' & [E|H1] & H2); [inversion E; subst; destruct H2 as [H2|H2]; [congruence|contradiction]|exists a, c, t'; auto].
  - rewrite IH. split; intros (a & c & t' & H1 & H2); exists a, c, t'; [auto|]. destruct H1 as [E|H1]; [discriminate|auto].
  - rewrite IH. split; intros (a & c & t' & H1 & H2); exists a, c, t'; [auto|]. destruct H1 as [E|H1]; [discriminate|auto].
Qed.

Lemma own_names_fun friend ds : forall l1 l2, own_names friend ds l1 -> own_names friend ds l2 -> l1 = l2.
Proof.
  induction ds as [|d ds IH]; intros l1 l2 H1 H2; inversion H1; subst; inversion H2; subst; try reflexivity; try (f_equal; apply IH; assumption); try (apply IH; assumption);
    exfalso; match goal with H : _ \/ _ |- _ => destruct H; congruence end.
Qed.

(** [x] occurs (at least) twice in [l] *)
Definition twice {A} (x : A) (l : list A) : Prop := exists a b c, l = a ++ x :: b ++ x :: c.
Lemma twice_not_nodup {A} (x : A) l : twice x l -> ~ NoDup l.
Proof. intros (a & b & c & ->) ND. apply NoDup_remove_2 in ND. apply ND. apply in_or_app; right. apply in_or_app; right. left; reflexivity. Qed.
Lemma twice_two {A} (x : A) a b : In x a -> In x b -> twice x (a ++ b).
Proof.
  intros Ha Hb. apply in_split in Ha, Hb. destruct Ha as (a1 & a2 & ->), Hb as (b1 & b2 & ->).
  exists a1, (a2 ++ b1), b2. rewrite <- !app_assoc. reflexivity.
Qed.
Lemma twice_app_l {A} (x : A) a b : twice x a -> twice x (a ++ b).
Proof. intros (p & q & r & ->). exists p, q, (r ++ b). rewrite <- app_assoc. cbn [app]. rewrite <- app_assoc. reflexivity. Qed.
Lemma twice_app_r {A} (x : A) a b : twice x b -> twice x (a ++ b).
Proof. intros (p & q & r & ->). exists (a ++ p), q, r. rewrite <- app_assoc. reflexivity. Qed.

Lemma all_names_own o ds k Ns n : all_names o ds k Ns ->
  (exists acc const t, In (MField n acc const t) (cr_decls (k_rec k)) /\ (befriends (k_rec k) fn_push = true \/ acc = Public)) -> In n Ns.
Proof. intros H E. inversion H; subst. apply in_or_app; right. eapply own_in; eauto. Qed.
Lemma all_names_base o ds k b Ns n : all_names o ds k Ns -> In b (find_bases ds (relevant_classes o ds) k) ->
  (forall Nb, all_names o ds b Nb -> In n Nb) -> In n Ns.
Proof.
  intros H Hb Q. inversion H as [k' own Nss HF HO]; subst. destruct (forall2_in_l _ _ _ _ HF Hb) as (Nb & I1 & I2).
  apply in_or_app; left. apply in_concat. exists Nb. split; [exact I1|]. apply Q, I2.
Qed.

(** with three levels of classes an accessible member of the topmost one occurs twice *)
Lemma three_levels o ds k p g Ns n : all_names o ds k Ns -> one_definition ds -> wf_bases ds ->
  In p (find_bases ds (relevant_classes o ds) k) -> In g (find_bases ds (relevant_classes o ds) p) ->
  (exists acc const t, In (MField n acc const t) (cr_decls (k_rec g)) /\ (befriends (k_rec g) fn_push = true \/ acc = Public)) ->
  ~ NoDup Ns.
Proof.
  intros H OD WF Hp Hg Hn. apply (twice_not_nodup n).
  assert (Hgk: In g (find_bases ds (relevant_classes o ds) k)).
  { apply find_bases_spec in Hp, Hg; auto. destruct Hp as (_ & _ & Dp), Hg as (Hr & _ & Dg). apply find_bases_spec; auto. split; [exact Hr|].
    pose proof (derives_trans _ _ _ _ Dp Dg) as D. split; [|exact D]. pose proof (derives_lt _ WF _ _ D). lia. }
  assert (Hne: p <> g).
  { intros ->. apply find_bases_spec in Hg; auto. destruct Hg as (_ & X & _). congruence. }
  inversion H as [k' own Nss HF HO]; subst. apply twice_app_l.
  assert (Ng: forall Nb, all_names o ds g Nb -> In n Nb) by (intros; eapply all_names_own; eauto).
  assert (Np: forall Nb, all_names o ds p Nb -> In n Nb) by (intros; eapply all_names_base; eauto).
  clear -HF Hp Hgk Hne Ng Np. induction HF as [|b Nb bs Nss Hb HF IH]; [destruct Hp|]. cbn [concat].
  destruct Hp as [->|Hp], Hgk as [->|Hgk].
  - contradiction.
  - apply twice_two; [apply Np, Hb|]. destruct (forall2_in_l _ _ _ _ HF Hgk) as (y & I1 & I2). apply in_concat. exists y. split; [exact I1|apply Ng, I2].
  - apply twice_two; [apply Ng, Hb|]. destruct (forall2_in_l _ _ _ _ HF Hp) as (y & I1 & I2). apply in_concat. exists y. split; [exact I1|apply Np, I2].
  - apply twice_app_r. auto.
Qed.

(** a member of a base class with the same name as an own one occurs twice *)
Lemma shadowed o ds k b Ns n : all_names o ds k Ns -> In b (find_bases ds (relevant_classes o ds) k) ->
  (exists acc const t, In (MField n acc const t) (cr_decls (k_rec b)) /\ (befriends (k_rec b) fn_push = true \/ acc = Public)) ->
  (exists acc const t, In (MField n acc const t) (cr_decls (k_rec k)) /\ (befriends (k_rec k) fn_push = true \/ acc = Public)) ->
  ~ NoDup Ns.
Proof.
  intros H Hb E1 E2. apply (twice_not_nodup n). inversion H as [k' own Nss HF HO]; subst. apply twice_two; [|eapply own_in; eauto].
  destruct (forall2_in_l _ _ _ _ HF Hb) as (y & I1 & I2). apply in_concat. exists y. split; [exact I1|]. eapply all_names_own; eauto.
Qed.

Lemma nodup_app {A} (a b : list A) : NoDup (a ++ b) <-> NoDup a /\ NoDup b /\ (forall x, In x a -> ~ In x b).
Proof.
  induction a as [|x a IH]; cbn [app].
  - split; [intros; repeat split; auto; constructor|tauto].
  - split.
    + intros ND; inversion ND as [|? ? N1 N2]; subst. apply IH in N2. destruct N2 as (A1 & A2 & A3). rewrite in_app_iff in N1.
      repeat split; [constructor; tauto|exact A2|]. intros y [<-|Hy]; [tauto|auto].
    + intros (A1 & A2 & A3); inversion A1; subst. constructor.
      * rewrite in_app_iff. intros [|]; [contradiction|]. eapply A3; [left; reflexivity|assumption].
      * apply IH. repeat split; auto. intros y Hy. apply A3. right; exact Hy.
Qed.

(** [m] is a member of [k] itself which is accessible to push *)
Definition has_member (k : rclass) (n : bytes) : Prop :=
  exists acc const t, In (MField n acc const t) (cr_decls (k_rec k)) /\ (befriends (k_rec k) fn_push = true \/ acc = Public).

(** in a hierarchy of at most two levels the names are distinct iff no two of the classes have a member of the same name *)
Lemma two_levels o ds k Ns : all_names o ds k Ns ->
  (forall b, In b (find_bases ds (relevant_classes o ds) k) -> find_bases ds (relevant_classes o ds) b = []) ->
  NoDup (find_bases ds (relevant_classes o ds) k) -> ~ In k (find_bases ds (relevant_classes o ds) k) ->
  (forall b own, b = k \/ In b (find_bases ds (relevant_classes o ds) k) -> own_names (befriends (k_rec b) fn_push) (cr_decls (k_rec b)) own -> NoDup own) ->
  (NoDup Ns <-> forall b b' n, b = k \/ In b (find_bases ds (relevant_classes o ds) k) -> b' = k \/ In b' (find_bases ds (relevant_classes o ds) k) ->
     has_member b n -> has_member b' n -> b = b').
Proof.
  intros H. inversion H as [k' own Nss HF HO]; subst. clear H. set (rbs := find_bases ds (relevant_classes o ds) k) in *. clearbody rbs.
  intros Flat ND NI Own.
  assert (B: Forall2 (fun b Nb => own_names (befriends (k_rec b) fn_push) (cr_decls (k_rec b)) Nb) rbs Nss).
  { assert (Q: forall b, In b rbs -> find_bases ds (relevant_classes o ds) b = []) by (intros; apply Flat; assumption). clear -HF Q.
    induction HF as [|b Nb bs Nss Hb HF IH]; constructor; [|apply IH; intros; apply Q; right; assumption].
    inversion Hb as [k' own' Nss' HF' HO']; subst. rewrite (Q b (or_introl eq_refl)) in HF'. inversion HF'; subst. exact HO'. }
  clear HF Flat.
  assert (OwnB: forall b Nb, In b rbs -> own_names (befriends (k_rec b) fn_push) (cr_decls (k_rec b)) Nb -> NoDup Nb) by (intros; eapply Own; eauto).
  assert (OwnK: NoDup own) by (eapply Own; eauto). clear Own.
  assert (InB: forall n, In n (concat Nss) <-> exists b, In b rbs /\ has_member b n).
  { intros n. clear -B. induction B as [|b Nb bs Nss Hb B IH]; cbn [concat]; [split; [intros []|intros (? & [] & _)]|]. rewrite in_app_iff, IH, (own_in _ _ _ _ Hb). split.
    - intros [Q|(b' & H1 & H2)]; [exists b; split; [left; reflexivity|exact Q]|exists b'; split; [right; exact H1|exact H2]].
    - intros (b' & [<-|H1] & H2); [left; exact H2|right; exists b'; auto]. }
  assert (BB: NoDup (concat Nss) <-> forall b b' n, In b rbs -> In b' rbs -> has_member b n -> has_member b' n -> b = b').
  { clear InB NI. revert ND OwnB. induction B as [|b Nb bs Nss Hb B IH]; intros ND OwnB; cbn [concat]; [split; [intros _ ? ? ? []|constructor]|].
    inversion ND as [|? ? Nin ND']; subst.
    assert (InB: forall n, In n (concat Nss) <-> exists b, In b bs /\ has_member b n).
    { intros n. clear -B. induction B as [|b Nb bs Nss Hb B IH]; cbn [concat]; [split; [intros []|intros (? & [] & _)]|]. rewrite in_app_iff, IH, (own_in _ _ _ _ Hb). split.
      - intros [Q|(b' & H1 & H2)]; [exists b; split; [left; reflexivity|exact Q]|exists b'; split; [right; exact H1|exact H2]].
      - intros (b' & [<-|H1] & H2); [left; exact H2|right; exists b'; auto]. }
    assert (OwnB': forall b Nb, In b bs -> own_names (befriends (k_rec b) fn_push) (cr_decls (k_rec b)) Nb -> NoDup Nb)
      by (intros x Nx Hx Ox; apply (OwnB x Nx); [right; exact Hx|exact Ox]).
    rewrite nodup_app, (IH ND' OwnB'). split.
    - intros (_ & Q & D) x y n [<-|Hx] [<-|Hy] Mx My; auto.
      + exfalso. apply (D n); [eapply own_in; eauto|apply InB; eauto].
      + exfalso. apply (D n); [eapply own_in; eauto|apply InB; eauto].
      + eapply Q; eauto.
    - intros Q. split; [eapply OwnB; [left; reflexivity|exact Hb]|]. split; [intros; eapply Q; eauto; right; assumption|].
      intros n Hn Hc. apply InB in Hc. destruct Hc as (y & Hy & My). apply (own_in _ _ _ _ Hb) in Hn.
      apply Nin. rewrite (Q b y n); [exact Hy|left; reflexivity|right; exact Hy|exact Hn|exact My]. }
  rewrite nodup_app, BB. split.
  - intros (Q & _ & D) x y n [->|Hx] [->|Hy] Mx My; auto.
    + exfalso. apply (D n); [apply InB; eauto|eapply own_in; eauto].
    + exfalso. apply (D n); [apply InB; eauto|eapply own_in; eauto].
    + eapply Q; eauto.
  - intros Q. split; [intros; eapply Q; eauto|]. split; [exact OwnK|]. intros n Hn Hc. apply InB in Hn. destruct Hn as (y & Hy & My).
    apply (own_in _ _ _ _ HO) in Hc. apply NI. rewrite <- (Q y k n); auto.
Qed.
