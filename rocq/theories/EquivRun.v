(** EquivRun.v -- two successful runs of deserialising JSON which correspond to each other except for the order in which things happen *)
From Coq Require Import List NArith ZArith Bool Permutation Lia.
From Verif Require Import Base BaseFacts Types TypesFacts BinModel BinSafeSpec Float JsonModel JsonRel JsonErr SerSpec JTreeSpec AddrSpec AddrFacts EquivSpec.
Import ListNotations.
Local Open Scope list_scope.

(** both runs throw the same kinds of errors and have the same context of errors, except for array indexes *)
Definition calm (st st' : pst) : Prop :=
  match p_err st, p_err st' with
  | None, None => True
  | Some e, Some e' => es_throw e = es_throw e' /\ es_record e = es_record e' /\ es_member e = es_member e'
  | _, _ => False
  end.
Lemma calm_sym a b : calm a b -> calm b a.
Proof. unfold calm. destruct (p_err a), (p_err b); auto. intros (A & B & C). repeat split; congruence. Qed.
Lemma calm_trans a b c : calm a b -> calm b c -> calm a c.
Proof. unfold calm. destruct (p_err a), (p_err b), (p_err c); try contradiction; auto. intros (A & B & C) (A' & B' & C'). repeat split; congruence. Qed.
Lemma calm_left a b : calm a b -> calm a a. Proof. intros H. eapply calm_trans; [exact H|apply calm_sym; exact H]. Qed.
Lemma calm_right a b : calm a b -> calm b b. Proof. intros H. eapply calm_trans; [apply calm_sym; exact H|exact H]. Qed.

Lemma in_keys h a : In a (map fst h) <-> exists c, hget h a = Some c.
Proof.
  split; [|intros [c E]; eapply hget_key; exact E]. unfold hget. induction h as [|[b c] h IH]; intros I; [destruct I|]. cbn [alookup]. destruct (N.eqb_spec a b) as [-> |N]; [eexists; reflexivity|].
  destruct I as [E|I]; [cbn in E; congruence|]. apply IH; exact I.
Qed.
Lemma hext_keys h h' a : hext h h' -> In a (map fst h) -> In a (map fst h').
Proof. intros X I. apply in_keys in I as [c E]. apply in_keys. exists c. apply X, E. Qed.

(** the errors which have been reported in between are the same except for their order and array indexes *)
Definition same_errors (st st2 st' st2' : pst) : Prop :=
  exists new new', reported st2 = reported st ++ new /\ reported st2' = reported st' ++ new' /\ Permutation (map unindexed new) (map unindexed new').
Lemma same_errors_refl a b : same_errors a a b b. Proof. exists [], []. rewrite !app_nil_r. auto. Qed.
Lemma same_errors_trans a b c a' b' c' : same_errors a b a' b' -> same_errors b c b' c' -> same_errors a c a' c'.
Proof.
  intros (n & n' & E & E' & P) (m & m' & F & F' & Q). exists (n ++ m), (n' ++ m'). rewrite F, E, F', E', !map_app. split; [symmetry; apply app_assoc|]. split; [symmetry; apply app_assoc|]. apply Permutation_app; assumption.
Qed.

Section Run.
  Variable G : genv.
  Variable ud : bool.

  Record oready (ro : renaming) (st st' : pst) : Prop := {
    or_one : one_to_one ro;
    or_alike : heaps_alike ro (p_heap st) (p_heap st');
    or_calm : calm st st';
    or_typed : heap_typed G ud (p_heap st) }.
  Record ostep (ro : renaming) (st st' : pst) (ro2 : renaming) (st2 st2' : pst) : Prop := {
    os_grown : grown ro (p_heap st) (p_heap st') ro2 (p_heap st2) (p_heap st2');
    os_fresh : forall a b, ro2 a b -> ro a b \/ (~ In a (map fst (p_heap st)) /\ ~ In b (map fst (p_heap st')));
    os_ext : hext (p_heap st) (p_heap st2);
    os_ext' : hext (p_heap st') (p_heap st2');
    os_calm : calm st st2;
    os_calm' : calm st' st2';
    os_typed : heap_typed G ud (p_heap st2);
    os_errors : same_errors st st2 st' st2' }.

  Lemma ostep_ready ro st st' ro2 st2 st2' : oready ro st st' -> ostep ro st st' ro2 st2 st2' -> oready ro2 st2 st2'.
  Proof.
    intros R S. constructor; [exact (gr_one _ _ _ _ _ _ (os_grown _ _ _ _ _ _ S))|exact (gr_alike _ _ _ _ _ _ (os_grown _ _ _ _ _ _ S))| |exact (os_typed _ _ _ _ _ _ S)].
    eapply calm_trans; [apply calm_sym; exact (os_calm _ _ _ _ _ _ S)|]. eapply calm_trans; [exact (or_calm _ _ _ R)|exact (os_calm' _ _ _ _ _ _ S)].
  Qed.
  Lemma ostep_refl ro st st' : oready ro st st' -> ostep ro st st' ro st st'.
  Proof.
    intros [O H C T]. constructor; [apply grown_refl; assumption|auto|apply hext_refl|apply hext_refl|eapply calm_left; exact C|eapply calm_right; exact C|exact T|apply same_errors_refl].
  Qed.
  Lemma ostep_trans r1 s1 s1' r2 s2 s2' r3 s3 s3' : ostep r1 s1 s1' r2 s2 s2' -> ostep r2 s2 s2' r3 s3 s3' -> ostep r1 s1 s1' r3 s3 s3'.
  Proof.
    intros A B. constructor.
    - eapply grown_trans; [exact (os_grown _ _ _ _ _ _ A)|exact (os_grown _ _ _ _ _ _ B)].
    - intros a b X. destruct (os_fresh _ _ _ _ _ _ B a b X) as [Y|[Y1 Y2]]; [exact (os_fresh _ _ _ _ _ _ A a b Y)|]. right. split.
      + intros I. apply Y1. eapply hext_keys; [exact (os_ext _ _ _ _ _ _ A)|exact I].
      + intros I. apply Y2. eapply hext_keys; [exact (os_ext' _ _ _ _ _ _ A)|exact I].
    - eapply hext_trans; [exact (os_ext _ _ _ _ _ _ A)|exact (os_ext _ _ _ _ _ _ B)].
    - eapply hext_trans; [exact (os_ext' _ _ _ _ _ _ A)|exact (os_ext' _ _ _ _ _ _ B)].
    - eapply calm_trans; [exact (os_calm _ _ _ _ _ _ A)|exact (os_calm _ _ _ _ _ _ B)].
    - eapply calm_trans; [exact (os_calm' _ _ _ _ _ _ A)|exact (os_calm' _ _ _ _ _ _ B)].
    - exact (os_typed _ _ _ _ _ _ B).
    - eapply same_errors_trans; [exact (os_errors _ _ _ _ _ _ A)|exact (os_errors _ _ _ _ _ _ B)].
  Qed.
  Lemma ostep_extends r1 s1 s1' r2 s2 s2' : ostep r1 s1 s1' r2 s2 s2' -> extends r1 r2.
  Proof. intros A. apply (gr_extends _ _ _ _ _ _ (os_grown _ _ _ _ _ _ A)). Qed.
  (** only the errors change *)
  Lemma ostep_errors ro st st' st2 st2' : oready ro st st' -> p_heap st2 = p_heap st -> p_heap st2' = p_heap st' -> calm st st2 -> calm st' st2' -> same_errors st st2 st' st2' -> ostep ro st st' ro st2 st2'.
  Proof.
    intros [O H C T] E E' C1 C2 S. constructor; rewrite ?E, ?E'; auto; try apply hext_refl. apply grown_refl; assumption.
  Qed.

  (** if the first run succeeds, so does the second one, with a result which corresponds *)
  Definition osim {A A'} (V : renaming -> heap -> A -> A' -> Prop) (ro : renaming) (st st' : pst) (r : out A) (r' : out A') : Prop :=
    forall a st1, r = POk a st1 -> exists a' st1' ro2, r' = POk a' st1' /\ ostep ro st st' ro2 st1 st1' /\ V ro2 (p_heap st1) a a'.
  Lemma osim_bind {A A' B B'} (V : renaming -> heap -> A -> A' -> Prop) (V2 : renaming -> heap -> B -> B' -> Prop) ro st st' (m : M A) (m' : M A') (k : A -> M B) (k' : A' -> M B') :
    oready ro st st' -> osim V ro st st' (m st) (m' st') ->
    (forall ro2 a a' st2 st2', m st = POk a st2 -> ostep ro st st' ro2 st2 st2' -> oready ro2 st2 st2' -> V ro2 (p_heap st2) a a' -> osim V2 ro2 st2 st2' (k a st2) (k' a' st2')) ->
    osim V2 ro st st' (bind m k st) (bind m' k' st').
  Proof.
    intros R S H b st3 E. unfold bind in *. destruct (m st) as [a st2| | | |] eqn:Em; try discriminate E.
    destruct (S a st2 eq_refl) as (a' & st2' & ro2 & E' & S2 & Va). rewrite E'.
    destruct (H ro2 a a' st2 st2' eq_refl S2 (ostep_ready _ _ _ _ _ _ R S2) Va b st3 E) as (b' & st3' & ro3 & E3 & S3 & Vb).
    exists b', st3', ro3. split; [exact E3|]. split; [eapply ostep_trans; eassumption|exact Vb].
  Qed.
  Lemma osim_ret {A A'} (V : renaming -> heap -> A -> A' -> Prop) ro st st' a a' : oready ro st st' -> V ro (p_heap st) a a' -> osim V ro st st' (ret a st) (ret a' st').
  Proof. intros R X b st1 [= <- <-]. exists a', st', ro. split; [reflexivity|]. split; [apply ostep_refl; exact R|exact X]. Qed.
  Lemma osim_no {A A'} (V : renaming -> heap -> A -> A' -> Prop) ro st st' r r' : (forall a s, r <> POk a s) -> @osim A A' V ro st st' r r'.
  Proof. intros N a s E. destruct (N a s E). Qed.
  Lemma osim_imp {A A'} (V V2 : renaming -> heap -> A -> A' -> Prop) ro st st' r r' : osim V ro st st' r r' ->
    (forall ro2 a a' st2 st2', r = POk a st2 -> ostep ro st st' ro2 st2 st2' -> V ro2 (p_heap st2) a a' -> V2 ro2 (p_heap st2) a a') -> osim V2 ro st st' r r'.
  Proof. intros S H a st1 E. destruct (S a st1 E) as (a' & st1' & ro2 & E' & S2 & Va). exists a', st1', ro2. split; [exact E'|]. split; [exact S2|eapply H; eassumption]. Qed.

  Definition agree {A} (ro : renaming) (h : heap) (a b : A) : Prop := a = b.
  Lemma osim_emplace ro e e' k x y h h' : oready ro {| p_heap := h; p_err := Some e |} {| p_heap := h'; p_err := Some e' |} ->
    osim agree ro {| p_heap := h; p_err := Some e |} {| p_heap := h'; p_err := Some e' |} (emplace_error e k x y h) (emplace_error e' k x y h').
  Proof.
    intros R. pose proof (or_calm _ _ _ R) as C. cbn in C. destruct C as (C1 & C3 & C4). unfold emplace_error. rewrite <- C1. destruct (N.land (es_throw e) (throw_flag k) =? 0)%N; [|apply osim_no; intros; discriminate].
    intros a st1 [= <- <-]. do 3 eexists. split; [reflexivity|]. split; [|reflexivity]. apply ostep_errors; [exact R|reflexivity|reflexivity| | |].
    - cbn. repeat split; congruence.
    - cbn. repeat split; congruence.
    - do 2 eexists. split; [reflexivity|]. split; [reflexivity|]. cbn. unfold unindexed. cbn. rewrite C3, C4. apply Permutation_refl.
  Qed.
  Lemma osim_report ro st st' k x y : oready ro st st' -> osim agree ro st st' (report k x y st) (report k x y st').
  Proof.
    intros R. pose proof (or_calm _ _ _ R) as C. unfold report. unfold calm in C. destruct st as [h [e|]], st' as [h' [e'|]]; cbn [p_err p_heap] in *; try contradiction.
    - apply osim_emplace; exact R.
    - exact (osim_ret agree ro _ _ tt tt R eq_refl).
  Qed.
  Lemma osim_unchecked ro st st' k x y : oready ro st st' -> osim agree ro st st' (report_unchecked k x y st) (report_unchecked k x y st').
  Proof.
    intros R. pose proof (or_calm _ _ _ R) as C. unfold report_unchecked. unfold calm in C. destruct st as [h [e|]], st' as [h' [e'|]]; cbn [p_err p_heap] in *; try contradiction.
    - apply osim_emplace; exact R.
    - apply osim_no. intros a s; discriminate.
  Qed.
  Lemma put_same (F : est -> est) ro st st' : oready ro st st' ->
    (forall e, es_throw (F e) = es_throw e /\ es_record (F e) = es_record e /\ es_member (F e) = es_member e /\ es_errs (F e) = es_errs e) ->
    ostep ro st st' ro {| p_heap := p_heap st; p_err := option_map F (p_err st) |} {| p_heap := p_heap st'; p_err := option_map F (p_err st') |}.
  Proof.
    intros R HF. pose proof (or_calm _ _ _ R) as C. apply ostep_errors; try assumption; try reflexivity.
    - apply calm_left in C. unfold calm in *. cbn. destruct (p_err st) as [e|]; [|exact I]. cbn. destruct (HF e) as (-> & -> & -> & _). exact C.
    - apply calm_right in C. unfold calm in *. cbn. destruct (p_err st') as [e|]; [|exact I]. cbn. destruct (HF e) as (-> & -> & -> & _). exact C.
    - exists [], []. rewrite !app_nil_r. unfold reported. cbn. destruct (p_err st) as [e|], (p_err st') as [e'|]; cbn; repeat split; try apply HF; apply Permutation_refl.
  Qed.
  Lemma osim_index ro st st' i i' : oready ro st st' -> osim agree ro st st' (set_index i st) (set_index i' st').
  Proof.
    intros R a st1 [= <- <-]. do 3 eexists. split; [reflexivity|]. split; [|reflexivity]. pose proof (or_calm _ _ _ R) as C. apply ostep_errors; try assumption; try reflexivity.
    - apply calm_left in C. unfold calm in *. cbn. destruct (p_err st) as [e|]; exact C.
    - apply calm_right in C. unfold calm in *. cbn. destruct (p_err st') as [e|]; exact C.
    - exists [], []. rewrite !app_nil_r. unfold reported. cbn. destruct (p_err st) as [e|], (p_err st') as [e'|]; cbn; repeat split; apply Permutation_refl.
  Qed.
  Definition alk (ro : renaming) (h : heap) := alike ro.
  Lemma osim_mismatch ro st st' t j j' old old' : type_of j = type_of j' -> oready ro st st' -> alike ro old old' -> osim alk ro st st' (mismatch t j old st) (mismatch t j' old' st').
  Proof.
    intros T R A. unfold mismatch. rewrite <- T. eapply (osim_bind agree); [exact R|apply osim_report; exact R|]. intros ro2 [] [] st2 st2' _ S R2 _. apply osim_ret; [exact R2|].
    eapply alike_more; [exact (ostep_extends _ _ _ _ _ _ S)|exact A].
  Qed.
  Lemma reported_member n st : reported (put_member n st) = reported st. Proof. unfold reported. cbn. destruct (p_err st); reflexivity. Qed.
  Lemma reported_record n st : reported (put_record n st) = reported st. Proof. unfold reported. cbn. destruct (p_err st); reflexivity. Qed.
  Lemma osim_member {A A'} (V : renaming -> heap -> A -> A' -> Prop) ro st st' n (m : M A) (m' : M A') : oready ro st st' ->
    (forall st1 st1', p_heap st1 = p_heap st -> oready ro st1 st1' -> osim V ro st1 st1' (m st1) (m' st1')) -> osim V ro st st' (in_member n m st) (in_member n m' st').
  Proof.
    intros R S a st2 E. unfold in_member in *. cbv zeta in *. pose proof (or_calm _ _ _ R) as C.
    assert (R1 : oready ro (put_member (Some n) st) (put_member (Some n) st')).
    { destruct R as [O H _ T]. constructor; try assumption. unfold calm in *. cbn. destruct (p_err st), (p_err st'); try contradiction; cbn; [|exact I]. destruct C as (C1 & C3 & _). auto. }
    destruct (m (put_member (Some n) st)) as [a1 st1| | | |] eqn:Em; try discriminate E. injection E as -> <-.
    destruct (S (put_member (Some n) st) (put_member (Some n) st') eq_refl R1 a st1 Em) as (a' & st1' & ro2 & E' & S2 & Va). rewrite E'. do 3 eexists. split; [reflexivity|]. split; [|exact Va].
    destruct S2 as [X1 X2 X3 X4 X5 X6 X7 X8]. constructor; try assumption.
    - unfold calm in *. cbn in *. destruct (p_err st), (p_err st1), (p_err st'); try contradiction; cbn in *; try exact I. destruct X5 as (? & ? & ?), C as (? & ? & ?). repeat split; congruence.
    - unfold calm in *. cbn in *. destruct (p_err st'), (p_err st1'), (p_err st); try contradiction; cbn in *; try exact I. destruct X6 as (? & ? & ?), C as (? & ? & ?). repeat split; congruence.
    - destruct X8 as (nw & nw' & Y1 & Y2 & Y3). rewrite reported_member in Y1, Y2. exists nw, nw'. rewrite !reported_member. auto.
  Qed.
  Lemma osim_record {A A'} (V : renaming -> heap -> A -> A' -> Prop) ro st st' n (m : M A) (m' : M A') : oready ro st st' ->
    (forall st1 st1', p_heap st1 = p_heap st -> oready ro st1 st1' -> osim V ro st1 st1' (m st1) (m' st1')) -> osim V ro st st' (in_record n m st) (in_record n m' st').
  Proof.
    intros R S a st2 E. unfold in_record in *. cbv zeta in *. pose proof (or_calm _ _ _ R) as C.
    assert (R1 : oready ro (put_record (Some n) st) (put_record (Some n) st')).
    { destruct R as [O H _ T]. constructor; try assumption. unfold calm in *. cbn. destruct (p_err st), (p_err st'); try contradiction; cbn; [|exact I]. destruct C as (C1 & _ & C3). auto. }
    destruct (m (put_record (Some n) st)) as [a1 st1| | | |] eqn:Em; try discriminate E. injection E as -> <-.
    destruct (S (put_record (Some n) st) (put_record (Some n) st') eq_refl R1 a st1 Em) as (a' & st1' & ro2 & E' & S2 & Va). rewrite E'. do 3 eexists. split; [reflexivity|]. split; [|exact Va].
    destruct S2 as [X1 X2 X3 X4 X5 X6 X7 X8]. constructor; try assumption.
    - unfold calm in *. cbn in *. destruct (p_err st), (p_err st1), (p_err st'); try contradiction; cbn in *; try exact I. destruct X5 as (? & ? & ?), C as (? & ? & ?). repeat split; congruence.
    - unfold calm in *. cbn in *. destruct (p_err st'), (p_err st1'), (p_err st); try contradiction; cbn in *; try exact I. destruct X6 as (? & ? & ?), C as (? & ? & ?). repeat split; congruence.
    - destruct X8 as (nw & nw' & Y1 & Y2 & Y3). rewrite reported_record in Y1, Y2. exists nw, nw'. rewrite !reported_record. auto.
  Qed.
  Section Loops.
    Context {A A' : Type} (V : renaming -> heap -> A -> A' -> Prop).
    Hypothesis HV : forall ro ro2 h h2 a a', extends ro ro2 -> hext h h2 -> V ro h a a' -> V ro2 h2 a a'.
    Lemma osim_items (R0 : json -> json -> Prop) (f : A -> json -> M A) (f' : A' -> json -> M A') js js' : Forall2 R0 js js' ->
      (forall ro st st' a a' j j', In j js -> R0 j j' -> oready ro st st' -> V ro (p_heap st) a a' -> osim V ro st st' (f a j st) (f' a' j' st')) ->
      forall i i' ro st st' a a', oready ro st st' -> V ro (p_heap st) a a' -> osim V ro st st' (pull_items f i js a st) (pull_items f' i' js' a' st').
    Proof.
      intros F. induction F as [|j j' js js' X F IH]; intros H i i' ro st st' a a' R Va; cbn [pull_items].
      - eapply (osim_bind agree); [exact R|apply osim_index; exact R|]. intros ro2 [] [] st2 st2' _ S R2 _. apply osim_ret; [exact R2|]. eapply HV; [exact (ostep_extends _ _ _ _ _ _ S)|exact (os_ext _ _ _ _ _ _ S)|exact Va].
      - eapply (osim_bind agree); [exact R|apply osim_index; exact R|]. intros ro2 [] [] st2 st2' _ S R2 _. eapply (osim_bind V); [exact R2| |].
        + apply (H _ _ _ _ _ _ _ (or_introl eq_refl) X); [exact R2|]. eapply HV; [exact (ostep_extends _ _ _ _ _ _ S)|exact (os_ext _ _ _ _ _ _ S)|exact Va].
        + intros ro3 b b' st3 st3' _ S3 R3 Vb. apply IH; [|exact R3|exact Vb]. intros; apply H; try assumption. right; assumption.
    Qed.
    Lemma osim_fold {B} (R0 : B -> B -> Prop) (f : A -> B -> M A) (f' : A' -> B -> M A') l l' : Forall2 R0 l l' ->
      (forall ro st st' a a' x x', In x l -> R0 x x' -> oready ro st st' -> V ro (p_heap st) a a' -> osim V ro st st' (f a x st) (f' a' x' st')) ->
      forall ro st st' a a', oready ro st st' -> V ro (p_heap st) a a' -> osim V ro st st' (fold_m f l a st) (fold_m f' l' a' st').
    Proof.
      intros F. induction F as [|x x' l l' X F IH]; intros H ro st st' a a' R Va; cbn [fold_m]; [apply osim_ret; assumption|].
      eapply (osim_bind V); [exact R|apply (H _ _ _ _ _ _ _ (or_introl eq_refl) X); [exact R|exact Va]|]. intros ro2 b b' st2 st2' _ S R2 Vb. apply IH; [|exact R2|exact Vb].
      intros; apply H; try assumption. right; assumption.
    Qed.
  End Loops.
End Run.
