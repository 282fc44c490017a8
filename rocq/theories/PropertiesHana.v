(** PropertiesHana.v -- property C59: Boost.Hana and the code generator are interchangeable *)
From Coq Require Import List NArith ZArith Bool Lia.
From Verif Require Import Base Types BinModel FuelFacts JsonModel JsonRel JsonSpec HanaSpec HanaFacts.
Import ListNotations.
Local Open Scope nat_scope.

Lemma le_r_done {A} (r r' : res A) x : le_r r r' -> r = x -> x <> RFuel -> r' = x.
Proof. intros [E|E] Ex N; congruence. Qed.
Lemma sim_done {A} (m m' : M A) st o : sim m m' -> m st = o -> o <> PFuel -> same_out o (m' st).
Proof. intros S E N. destruct (S st st (same_pst_refl st)) as [F|F]; [congruence|]. rewrite E in F. exact F. Qed.

(** C59: the same JSON document (or the same failure) *)
Theorem C59_same_document : forall G cls J H t v r, finitely_many_classes G -> with_hana G cls -> r <> RFuel ->
  ((exists f, push G J H f t v = r) <-> (exists f, push (with_classes G cls) J H f t v = r)).
Proof.
  intros G cls J H t v r FC HW N. destruct (program_bounded G cls FC HW) as (K & HK). split; intros (f & E).
  - exists f. eapply le_r_done; [apply (push_hana G cls J H HW f)|exact E|exact N].
  - exists (S K * f). eapply le_r_done; [apply (push_hana_back G cls J H HW K HK f)|exact E|exact N].
Qed.
Print Assumptions C59_same_document.
Theorem C59_same_toJson : forall G cls J H t v r, finitely_many_classes G -> with_hana G cls -> r <> RFuel ->
  ((exists f, toJsonDocument G J H f t v = r) <-> (exists f, toJsonDocument (with_classes G cls) J H f t v = r)).
Proof.
  intros G cls J H t v r FC HW N. unfold toJsonDocument. destruct t; try apply C59_same_document; try assumption; try reflexivity.
  destruct (json_kind k); [apply C59_same_document; assumption|reflexivity].
Qed.
Print Assumptions C59_same_toJson.

(** C59: pulling any document into any variable has the same effect, apart from the record names of the errors *)
Theorem C59_same_pulled : forall G cls J t old j st, finitely_many_classes G -> with_hana G cls ->
  (forall f o, pull G J f t old j st = o -> o <> PFuel -> exists f' o', pull (with_classes G cls) J f' t old j st = o' /\ same_out o o')
  /\ (forall f o', pull (with_classes G cls) J f t old j st = o' -> o' <> PFuel -> exists f' o, pull G J f' t old j st = o /\ same_out o' o).
Proof.
  intros G cls J t old j st FC HW. destruct (program_bounded G cls FC HW) as (K & HK). split; intros f o E N.
  - exists f. eexists. split; [reflexivity|]. eapply sim_done; [apply (pull_hana G cls J HW f)|exact E|exact N].
  - exists (S K * f). eexists. split; [reflexivity|]. eapply sim_done; [apply (pull_hana_back G cls J HW K HK f)|exact E|exact N].
Qed.
Print Assumptions C59_same_pulled.
Theorem C59_same_fromJson : forall G cls J t j st, finitely_many_classes G -> with_hana G cls ->
  (forall f o, fromJson G J f t j st = o -> o <> PFuel -> exists f' o', fromJson (with_classes G cls) J f' t j st = o' /\ same_out o o')
  /\ (forall f o', fromJson (with_classes G cls) J f t j st = o' -> o' <> PFuel -> exists f' o, fromJson G J f' t j st = o /\ same_out o' o).
Proof.
  intros G cls J t j st FC HW. destruct (program_bounded G cls FC HW) as (K & HK). split; intros f o E N.
  - exists f. eexists. split; [reflexivity|]. eapply sim_done; [|exact E|exact N].
    rewrite <- (with_own G) at 1. apply fromJson_sim; intros; rewrite with_own; [symmetry; apply hana_vinit; exact HW|symmetry; apply hana_dinit; exact HW|].
    apply (pull_hana G cls J HW f).
  - exists (S K * f). eexists. split; [reflexivity|]. eapply sim_done; [|exact E|exact N].
    rewrite <- (with_own G) at 2. apply fromJson_sim; intros; rewrite with_own; [apply hana_vinit; exact HW|apply hana_dinit; exact HW|].
    apply (pull_hana_back G cls J HW K HK f).
Qed.
Print Assumptions C59_same_fromJson.

(** C59: what is lost: if no class has a generated pull function, errors (also the one thrown) carry the record name which was
    current before, never the name of a class, and the current record never changes *)
Theorem C59_no_class_in_errors : forall G J, (forall c rc p, g_class G c = Some rc -> rc_pull rc = Some p -> jp_record p = None) ->
  forall f t old j h e,
  (forall v st', pull G J f t old j {| p_heap := h; p_err := Some e |} = POk v st' ->
     exists e' l, p_err st' = Some e' /\ es_record e' = es_record e /\ es_errs e' = es_errs e ++ l /\ forall x, In x l -> e_record x = es_record e)
  /\ (forall x st', pull G J f t old j {| p_heap := h; p_err := Some e |} = PThrow x st' ->
     e_record x = es_record e /\
     exists e' l, p_err st' = Some e' /\ es_record e' = es_record e /\ es_errs e' = es_errs e ++ l /\ forall y, In y l -> e_record y = es_record e).
Proof.
  intros G J HN f t old j h e. pose proof (proj1 (pull_keeps G J HN f) t old j h e) as K. split; intros x st' E; rewrite E in K.
  - destruct K as (e' & E1 & E2 & _ & l & E3 & E4). exists e', l. repeat split; assumption.
  - destruct K as (X & e' & E1 & E2 & _ & l & E3 & E4). split; [exact X|]. exists e', l. repeat split; assumption.
Qed.
Print Assumptions C59_no_class_in_errors.

(** C59: the same binary data for any version argument and any set of objects already written *)
Theorem C59_same_binary : forall G cls H ver t v W r, finitely_many_classes G -> with_hana G cls -> r <> RFuel ->
  ((exists f, write G H f ver t v W = r) <-> (exists f, write (with_classes G cls) H f ver t v W = r)).
Proof.
  intros G cls H ver t v W r FC HW N. destruct (program_bounded G cls FC HW) as (K & HK). split; intros (f & E).
  - exists f. eapply le_r_done; [apply (write_hana G cls H HW f)|exact E|exact N].
  - exists (S K * f). eapply le_r_done; [apply (write_hana_back G cls H HW K HK f)|exact E|exact N].
Qed.
Print Assumptions C59_same_binary.
Theorem C59_same_toBinary : forall G cls H c fs ver r, finitely_many_classes G -> with_hana G cls -> r <> RFuel ->
  ((exists f, toBinary G H f c fs ver = r) <-> (exists f, toBinary (with_classes G cls) H f c fs ver = r)).
Proof.
  intros G cls H c fs ver r FC HW N. destruct (program_bounded G cls FC HW) as (K & HK). unfold toBinary. split; intros (f & E).
  - exists f. destruct (proj2 (write_hana G cls H HW f) ver c fs []) as [F|F]; [rewrite F in E; cbn in E; congruence|]. rewrite F. exact E.
  - exists (S K * f). destruct (proj2 (write_hana_back G cls H HW K HK f) ver c fs []) as [F|F]; [rewrite F in E; cbn in E; congruence|]. rewrite F. exact E.
Qed.
Print Assumptions C59_same_toBinary.

(** C59: reading any bytes into any variable gives the same value, leaves the same rest and the same shared objects, or throws the
    same exception *)
Theorem C59_same_read : forall G cls ver t old s st r, finitely_many_classes G -> with_hana G cls -> r <> RFuel ->
  ((exists f, read G f ver t old s st = r) <-> (exists f, read (with_classes G cls) f ver t old s st = r)).
Proof.
  intros G cls ver t old s st r FC HW N. destruct (program_bounded G cls FC HW) as (K & HK). split; intros (f & E).
  - exists f. eapply le_r_done; [apply (read_hana G cls HW f)|exact E|exact N].
  - exists (S K * f). eapply le_r_done; [apply (read_hana_back G cls HW K HK f)|exact E|exact N].
Qed.
Print Assumptions C59_same_read.
Theorem C59_same_restored : forall G cls c os s h r, finitely_many_classes G -> with_hana G cls -> r <> RFuel ->
  ((exists f, but_version (restoreFromBinary G f c os s h) = r) <-> (exists f, but_version (restoreFromBinary (with_classes G cls) f c os s h) = r)).
Proof.
  intros G cls c os s h r FC HW N. destruct (program_bounded G cls FC HW) as (K & HK). unfold restoreFromBinary. split; intros (f & E).
  - exists f. eapply le_r_done; [apply (proj2 (read_hana G cls HW f))|exact E|exact N].
  - exists (S K * f). eapply le_r_done; [apply (proj2 (read_hana_back G cls HW K HK f))|exact E|exact N].
Qed.
Print Assumptions C59_same_restored.
(** C59: the version returned for a class adapted with Boost.Hana is 0 *)
Theorem C59_hana_version : forall G cls c rc' L f os s h os' v s' st', cls c = Some rc' -> rc_rd rc' = Some (hana_binary L) ->
  restoreFromBinary (with_classes G cls) f c os s h = ROk (os', v, s', st') -> v = 0%N.
Proof. intros G cls c rc' L f os s h os' v s' st' E1 E2. apply (hana_version G cls f 0%N c os s {| r_heap := h; r_ptr := [] |} rc' L os' v s' st' E1 E2). Qed.
Print Assumptions C59_hana_version.
