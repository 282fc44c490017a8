(** BinFacts.v -- further facts about binary (de)serialisation: shared pointers, back
    references, variants, non-fresh targets, versions *)
From Coq Require Import List NArith ZArith Bool Lia Permutation.
From Verif Require Import Base BaseFacts Bytes BytesFacts Types TypesFacts BinModel FuelFacts BinSpec BinSafeSpec BinRoundTrip.
Import ListNotations.

(** ** the table of written objects *)
Definition grows (W W' : list N) : Prop :=
  exists news, W' = news ++ W /\ NoDup news /\ forall a, In a news -> ~ In a W.
Lemma grows_refl W : grows W W.
Proof. exists []. split; [reflexivity|]. split; [constructor|intros a []]. Qed.
Lemma grows_trans a b c : grows a b -> grows b c -> grows a c.
Proof.
  intros (n1 & -> & D1 & F1) (n2 & -> & D2 & F2). exists (n2 ++ n1). split; [apply app_assoc|]. split.
  - clear -D1 D2 F2. induction n2 as [|x n2 IH]; [exact D1|]. cbn. apply NoDup_cons_iff in D2. destruct D2 as [N2 D2].
    constructor; [|apply IH; [exact D2|intros y Hy; apply F2; right; exact Hy]].
    intros Hc. apply in_app_or in Hc. destruct Hc as [Hc|Hc]; [contradiction|].
    apply (F2 x (or_introl eq_refl)). apply in_or_app. left; exact Hc.
  - intros x Hx. apply in_app_or in Hx. destruct Hx as [Hx|Hx]; [|apply F1; exact Hx].
    intros Hc. apply (F2 x Hx). apply in_or_app. right; exact Hc.
Qed.

Lemma grows_iter {A} (w : A -> list N -> res (bytes * list N)) l :
  (forall x W bs W', w x W = ROk (bs, W') -> grows W W') ->
  forall W bs W', wr_iter w l W = ROk (bs, W') -> grows W W'.
Proof.
  intros Hw. induction l as [|x l IH]; intros W bs W' E; cbn in E; [inversion E; apply grows_refl|].
  apply rbind_ok in E. destruct E as [[b1 W1] [E1 E]]. apply rbind_ok in E. destruct E as [[b2 W2] [E2 E]].
  inversion E; subst. eapply grows_trans; [eapply Hw; exact E1|eapply IH; exact E2].
Qed.

Lemma write_grows G H f :
  (forall ver t v W bs W', write G H f ver t v W = ROk (bs, W') -> grows W W')
  /\ (forall ver c fs W bs W', write_cls G H f ver c fs W = ROk (bs, W') -> grows W W').
Proof.
  induction f as [|f [IH1 IH2]]; [split; intros; discriminate|]. split.
  - intros ver t v W bs W' E. rewrite write_S in E. destruct t, v; cbn [write_body] in E; try discriminate;
      try (inversion E; subst; apply grows_refl);
      try (destruct (bin_kind k); inversion E; subst; apply grows_refl).
    + apply rbind_ok in E. destruct E as [p [_ E]]. inversion E; apply grows_refl.
    + apply rbind_ok in E. destruct E as [p [_ E]]. apply rbind_ok in E. destruct E as [[b W1] [E1 E]]. inversion E; subst.
      eapply grows_iter; [|exact E1]. intros x W0 b0 W0' E0. eapply IH1; exact E0.
    + apply rbind_ok in E. destruct E as [p [_ E]]. apply rbind_ok in E. destruct E as [[b W1] [E1 E]]. inversion E; subst.
      eapply grows_iter; [|exact E1]. intros x W0 b0 W0' E0. eapply IH1; exact E0.
    + apply rbind_ok in E. destruct E as [p [_ E]]. apply rbind_ok in E. destruct E as [[b W1] [E1 E]]. inversion E; subst.
      eapply grows_iter; [|exact E1]. intros x W0 b0 W0' E0. eapply IH1; exact E0.
    + apply rbind_ok in E. destruct E as [[b1 W1] [E1 E]]. apply rbind_ok in E. destruct E as [[b2 W2] [E2 E]]. inversion E; subst.
      eapply grows_trans; eapply IH1; eauto.
    + destruct o; [|inversion E; apply grows_refl]. apply rbind_ok in E. destruct E as [[b1 W1] [E1 E]]. inversion E; subst. eapply IH1; eauto.
    + destruct o; [|inversion E; apply grows_refl]. apply rbind_ok in E. destruct E as [[b1 W1] [E1 E]]. inversion E; subst. eapply IH1; eauto.
    + destruct o as [a|]; [|inversion E; apply grows_refl].
      destruct (existsb (N.eqb a) W) eqn:EW; apply rbind_ok in E; destruct E as [hd [_ E]]; [inversion E; apply grows_refl|].
      destruct (hget H a) as [[t2 x]|]; [|discriminate]. destruct (ty_eqb t t2); [|discriminate].
      apply rbind_ok in E. destruct E as [[b W1] [E1 E]]. inversion E; subst.
      eapply grows_trans; [|eapply IH1; exact E1]. exists [a]. split; [reflexivity|]. split; [constructor; [intros []|constructor]|].
      intros b0 [<-|[]] Hc. assert (existsb (N.eqb a) W = true) by (apply existsb_exists; exists a; split; [exact Hc|apply N.eqb_refl]). congruence.
    + destruct (nth_error ts i) as [t0|]; [|discriminate].
      destruct t0; try (inversion E; subst; apply grows_refl);
       (apply rbind_ok in E; destruct E as [[b1 W1] [E1 E]]; inversion E; subst; eapply IH1; eauto).
    + eapply IH2; exact E.
    + destruct o as [v'|]; [destruct v'; try discriminate E |]; apply rbind_ok in E; destruct E as [p [_ E]]; inversion E; apply grows_refl.
  - intros ver c fs W bs W' E. rewrite write_cls_S in E. unfold write_cls_body in E.
    destruct (g_class G c) as [rc|]; [|discriminate].
    apply rbind_ok in E. destruct E as [[bb W1] [E1 E]]. apply rbind_ok in E. destruct E as [bv [_ E]].
    apply rbind_ok in E. destruct E as [[bm W2] [E2 E]]. inversion E; subst.
    eapply grows_trans.
    + eapply grows_iter; [|exact E1]. intros x W0 b0 W0' E0. eapply IH2; exact E0.
    + eapply grows_iter; [|exact E2]. intros fd W0 b0 W0' E0. cbv beta in E0.
      destruct (visible _ fd); [|inversion E0; apply grows_refl].
      destruct (alookup fkey_eqb (bf_key fd) fs); [|discriminate]. eapply IH1; exact E0.
Qed.

(** a further occurrence of an object adds only the mode byte and the ID *)
Lemma write_again G H f ver t a W : In a W ->
  write G H (S f) ver (TShared t) (VShared (Some a)) W = (let! hd := wr_ptr_head 2 a in ROk (hd, W)).
Proof.
  intros Hin. rewrite write_S. cbn [write_body].
  replace (existsb (N.eqb a) W) with true; [reflexivity|].
  symmetry. apply existsb_exists. exists a. split; [exact Hin|apply N.eqb_refl].
Qed.

Lemma write_first G H f ver t a x W : ~ In a W -> hget H a = Some (t, x) ->
  write G H (S f) ver (TShared t) (VShared (Some a)) W =
  (let! hd := wr_ptr_head 1 a in let! (bx, W1) := write G H f 0 t x (a :: W) in ROk (hd ++ bx, W1)).
Proof.
  intros Hn Ha. rewrite write_S. cbn [write_body].
  replace (existsb (N.eqb a) W) with false.
  - rewrite Ha, ty_eqb_refl. reflexivity.
  - symmetry. destruct (existsb (N.eqb a) W) eqn:E; [|reflexivity]. apply existsb_exists in E.
    destruct E as (b & Hb & Eb). apply N.eqb_eq in Eb. subst. contradiction.
Qed.

Lemma write_once_occurs G H f ver t v W bs W' : write G H f ver t v W = ROk (bs, W') ->
  forall a, In a W' -> ~ In a W -> exists n1 n2, W' = n1 ++ a :: n2 /\ ~ In a n1 /\ ~ In a n2.
Proof.
  intros E a Ha Hn. destruct (write_grows G H f) as [Gr _]. destruct (Gr _ _ _ _ _ _ E) as (news & -> & ND & HF).
  apply in_app_or in Ha. destruct Ha as [Ha|Ha]; [|contradiction].
  apply in_split in Ha. destruct Ha as (l1 & l2 & ->). apply NoDup_remove_2 in ND.
  exists l1, (l2 ++ W). rewrite <- app_assoc. cbn. split; [reflexivity|]. split.
  - intros Hc. apply ND, in_or_app. left; exact Hc.
  - intros Hc. apply in_app_or in Hc. destruct Hc as [Hc|Hc]; [apply ND, in_or_app; right; exact Hc|contradiction].
Qed.

(** ** back references *)
Lemma read_backref G f ver t old mode id s r st : (mode < 256)%N ->
  (mode <> 0)%N -> N.land mode 3 <> 1%N ->
  (if negb (N.land mode 4 =? 0)%N then rd_be 8 s else rd_varint s) = ROk (id, r) ->
  (forall a, alookup N.eqb id (r_ptr st) <> Some (a, t)) ->
  read G (S f) ver (TShared t) old (mkb mode :: s) st = RThrow ExConv.
Proof.
  intros Hm H0 H1 E Hn. rewrite read_S. cbn [read_body rd_byte rbind].
  rewrite bval_small by exact Hm. apply N.eqb_neq in H0. rewrite H0. rewrite E. cbn [rbind].
  apply N.eqb_neq in H1. rewrite H1. destruct (alookup N.eqb id (r_ptr st)) as [[a t']|] eqn:El; [|reflexivity].
  destruct (ty_eqb t' t) eqn:Et; [|reflexivity]. apply ty_eqb_eq in Et. subst t'. destruct (Hn a). reflexivity.
Qed.

(** ** variants *)
Lemma read_variant_range G f ver ts old n s st : (n < 256)%N -> (N.of_nat (length ts) <= n)%N ->
  read G (S f) ver (TVariant ts) old (mkb n :: s) st = RThrow ExConv.
Proof.
  intros Hn Hl. rewrite read_S. cbn [read_body rd_byte rbind]. rewrite bval_small by exact Hn.
  destruct (nth_error ts (N.to_nat n)) as [t0|] eqn:E; [|reflexivity].
  assert (N.to_nat n < length ts) by (apply nth_error_Some; congruence). lia.
Qed.

Lemma read_variant_index G f ver ts old n s st v r st' : (n < 256)%N ->
  read G (S f) ver (TVariant ts) old (mkb n :: s) st = ROk (v, r, st') ->
  exists t x, v = VVar (N.to_nat n) x /\ nth_error ts (N.to_nat n) = Some t.
Proof.
  intros Hn E. rewrite read_S in E. cbn [read_body rd_byte rbind] in E. rewrite bval_small in E by exact Hn.
  destruct (nth_error ts (N.to_nat n)) as [t0|] eqn:En; [|discriminate].
  destruct t0; try (apply rbind_ok in E; destruct E as [[[x r2] st2] [E1 E2]]; inversion E2; subst; eauto).
  inversion E; subst. eauto.
Qed.

Lemma write_variant_bytes G H f ver ts i t x W bs W' : length ts < 256 -> nth_error ts i = Some t ->
  write G H (S f) ver (TVariant ts) (VVar i x) W = ROk (bs, W') ->
  exists body, bs = mkb (N.of_nat i) :: body /\ bval (mkb (N.of_nat i)) = N.of_nat i /\
    (t = TMono -> body = []) /\ (t <> TMono -> write G H f 0 t x W = ROk (body, W')).
Proof.
  intros Hl En E. assert (i < length ts) by (apply nth_error_Some; congruence).
  rewrite write_S in E. cbn [write_body] in E. rewrite En in E.
  assert (Hm: t = TMono \/ t <> TMono) by (destruct t; auto; right; discriminate).
  destruct Hm as [->|Hm].
  - inversion E; subst. exists []. repeat split; auto; [apply bval_small; lia|contradiction].
  - assert (E2: (let! (bx, W1) := write G H f 0 t x W in ROk (mkb (N.of_nat i) :: bx, W1)) = ROk (bs, W')) by (destruct t; try exact E; contradiction).
    apply rbind_ok in E2. destruct E2 as [[b W1] [E1 E2]]. inversion E2; subst. exists b.
    repeat split; auto; [apply bval_small; lia|contradiction].
Qed.

Lemma write_valueless G H f ver ts W : write G H (S f) ver (TVariant ts) VValueless W = RThrow ExBadVariant.
Proof. reflexivity. Qed.

(** ** non-fresh targets *)
(** types whose previous value is irrelevant *)
Definition replaced (t : ty) : bool :=
  match t with TPair _ _ | TSeq _ | TSet _ _ _ | TMap _ _ _ _ | TStruct _ => false | _ => true end.

Lemma read_replaced G f ver t old old' s st : replaced t = true ->
  read G f ver t old s st = read G f ver t old' s st.
Proof. intros R. destruct f as [|f]; [reflexivity|]. rewrite !read_S. destruct t; try discriminate R; reflexivity. Qed.

(** contents after emplacing the items one after another *)
Definition emplace_all (G : genv) (ismap ord multi : bool) (kt : ty) (xs l : list val) : list val :=
  fold_left (fun l x => fst (emplace G ismap ord multi kt x l)) xs l.

Lemma loop_items G f et o (ins : val -> list val -> list val) n : forall l s st,
  loopnat n (fun '(l, s, st) => let! (x, s', st') := read G f 0 et o s st in ROk (ins x l, s', st')) (l, s, st)
  = (let! (xs, s2, st2) := read_values G f (repeat (0%N, et, o) n) s st in ROk (fold_left (fun l x => ins x l) xs l, s2, st2)).
Proof.
  induction n as [|n IH]; intros l s st; cbn [loopnat repeat read_values]; [reflexivity|].
  rewrite !rbind_assoc. apply rbind_ext. intros [[x s1] st1]. cbn [rbind]. rewrite IH. rewrite rbind_assoc.
  apply rbind_ext. intros [[xs s2] st2]. reflexivity.
Qed.

Lemma read_set_merge G f ver ord multi t olds s st :
  read G (S f) ver (TSet ord multi t) (VList olds) s st =
  (let! (n, s1) := rd_varint s in
   let! (xs, s2, st2) := read_values G f (repeat (0%N, t, dinit G t) (N.to_nat n)) s1 st in
   ROk (VList (emplace_all G false ord multi t xs olds), s2, st2)).
Proof.
  rewrite read_S. cbn [read_body]. apply rbind_ext. intros [n s1]. rewrite loopN_loopnat.
  etransitivity; [eapply f_equal2 with (f := @rbind _ _); [apply (loop_items G f t (dinit G t) (fun x l => fst (emplace G false ord multi t x l)))|reflexivity]|].
  rewrite rbind_assoc. apply rbind_ext. intros [[xs s2] st2]. reflexivity.
Qed.

Lemma read_map_merge G f ver ord multi kt vt olds s st :
  read G (S f) ver (TMap ord multi kt vt) (VList olds) s st =
  (let! (n, s1) := rd_varint s in
   let! (xs, s2, st2) := read_values G f (repeat (0%N, TPair kt vt, VPair (vinit G kt) (vinit G vt)) (N.to_nat n)) s1 st in
   ROk (VList (emplace_all G true ord multi kt xs olds), s2, st2)).
Proof.
  rewrite read_S. cbn [read_body]. apply rbind_ext. intros [n s1]. rewrite loopN_loopnat.
  etransitivity; [eapply f_equal2 with (f := @rbind _ _); [apply (loop_items G f (TPair kt vt) (VPair (vinit G kt) (vinit G vt)) (fun x l => fst (emplace G true ord multi kt x l)))|reflexivity]|].
  rewrite rbind_assoc. apply rbind_ext. intros [[xs s2] st2]. reflexivity.
Qed.

Lemma read_seq_length G f ver t olds s st v r st' :
  read G (S f) ver (TSeq t) (VList olds) s st = ROk (v, r, st') ->
  exists n r0 l, rd_varint s = ROk (n, r0) /\ v = VList l /\ N.of_nat (length l) = n.
Proof.
  rewrite read_S. cbn [read_body]. intros E. apply rbind_ok in E. destruct E as [[n s1] [E1 E]].
  apply rbind_ok in E. destruct E as [[[[o acc] s2] st2] [E2 E]]. inversion E; subst. clear E.
  exists n, s1, (rev acc). split; [exact E1|]. split; [reflexivity|]. rewrite rev_length.
  rewrite loopN_loopnat in E2.
  assert (L: forall m os acc0 s0 st0 o1 acc1 s3 st3,
    loopnat m (fun '(os, acc, s, st) =>
                  let o := match os with o :: _ => o | [] => vinit G t end in
                  let! (x, s', st') := read G f 0 t o s st in
                  ROk (tl os, x :: acc, s', st')) (os, acc0, s0, st0) = ROk (o1, acc1, s3, st3) ->
    length acc1 = m + length acc0).
  { induction m as [|m IH]; intros os acc0 s0 st0 o1 acc1 s3 st3 Em; cbn [loopnat] in Em.
    - inversion Em; reflexivity.
    - apply rbind_ok in Em. destruct Em as [[[[o2 acc2] s4] st4] [Em1 Em2]]. cbv zeta in Em1.
      apply rbind_ok in Em1. destruct Em1 as [[[x s5] st5] [Em1 Em3]]. inversion Em3; subst.
      apply IH in Em2. cbn [length] in Em2. lia. }
  apply L in E2. cbn [length] in E2. lia.
Qed.

(** ** emplace: nothing is lost, the previous element wins *)
Lemma emplace_keeps G ismap ord multi kt x l y : place_ok G -> In y l -> In y (fst (emplace G ismap ord multi kt x l)).
Proof.
  intros HP Hin. destruct (emplace_cases G ismap ord multi kt x l HP) as [[_ Hp]|[_ [E _]]].
  - apply (Permutation_in _ Hp). right; exact Hin.
  - rewrite E; exact Hin.
Qed.

Lemma emplace_all_keeps G ismap ord multi kt xs : place_ok G -> forall l y, In y l -> In y (emplace_all G ismap ord multi kt xs l).
Proof.
  intros HP. induction xs as [|x xs IH]; intros l y Hy; [exact Hy|]. cbn. apply IH. apply emplace_keeps; assumption.
Qed.

Lemma emplace_all_only G ismap ord multi kt xs : place_ok G -> forall l y, In y (emplace_all G ismap ord multi kt xs l) -> In y l \/ In y xs.
Proof.
  intros HP. induction xs as [|x xs IH]; intros l y Hy; [left; exact Hy|]. cbn in Hy. apply IH in Hy.
  destruct Hy as [Hy|Hy]; [|right; right; exact Hy]. apply emplace_in in Hy; [|exact HP].
  destruct Hy as [->|Hy]; [right; left; reflexivity|left; exact Hy].
Qed.

(** equivalence of keys as the container sees it *)
Definition key_equiv (G : genv) (ord : bool) (kt : ty) (a b : val) : Prop :=
  if ord then g_lt G kt a b = false /\ g_lt G kt b a = false else g_eq G kt a b = true.

Lemma ins_uniq_equiv {A} (lt : A -> A -> bool) x l l' : ins_uniq lt x l = (l', false) -> exists y, In y l /\ lt y x = false /\ lt x y = false.
Proof.
  revert l'; induction l as [|y l IH]; intros l'; cbn; [discriminate|].
  destruct (lt y x) eqn:E1.
  - destruct (ins_uniq lt x l) as [r b] eqn:E. intros E2; inversion E2; subst.
    destruct (IH r eq_refl) as (z & Hz & Hq). exists z. split; [right; exact Hz|exact Hq].
  - destruct (lt x y) eqn:E2; intros E; inversion E; subst. exists y. auto.
Qed.

Lemma emplace_rejected G ismap ord multi kt x l : snd (emplace G ismap ord multi kt x l) = false ->
  multi = false /\ fst (emplace G ismap ord multi kt x l) = l /\
  exists y, In y l /\ key_equiv G ord kt (keyof ismap y) (keyof ismap x).
Proof.
  unfold emplace, key_equiv. destruct ord, multi; cbn [snd fst]; try discriminate.
  - destruct (ins_uniq (fun a b => g_lt G kt (keyof ismap a) (keyof ismap b)) x l) as [l' b] eqn:E. cbn. intros ->.
    split; [reflexivity|]. split; [exact (ins_uniq_false _ _ _ _ E)|].
    destruct (ins_uniq_equiv _ _ _ _ E) as (y & Hy & H1 & H2). exists y. auto.
  - destruct (existsb (fun y => g_eq G kt (keyof ismap y) (keyof ismap x)) l) eqn:E; cbn; [|discriminate]. intros _.
    split; [reflexivity|]. split; [reflexivity|]. apply existsb_exists in E. exact E.
Qed.

Lemma emplace_present G ismap ord multi kt x l : place_ok G ->
  In x (fst (emplace G ismap ord multi kt x l)) \/
  (multi = false /\ fst (emplace G ismap ord multi kt x l) = l /\ exists y, In y l /\ key_equiv G ord kt (keyof ismap y) (keyof ismap x)).
Proof.
  intros HP. destruct (emplace_cases G ismap ord multi kt x l HP) as [[_ Hp]|[Es _]].
  - left. apply (Permutation_in _ Hp). left; reflexivity.
  - right. apply emplace_rejected. exact Es.
Qed.

(** after merging, every stored item is there or an equivalent element was there before it *)
Lemma emplace_all_present G ismap ord multi kt xs : place_ok G -> forall l x, In x xs ->
  In x (emplace_all G ismap ord multi kt xs l) \/
  (multi = false /\ exists y, In y (emplace_all G ismap ord multi kt xs l) /\ key_equiv G ord kt (keyof ismap y) (keyof ismap x)).
Proof.
  intros HP. induction xs as [|z xs IH]; intros l x Hx; [destruct Hx|]. cbn [emplace_all fold_left].
  change (fold_left _ xs ?m) with (emplace_all G ismap ord multi kt xs m).
  destruct Hx as [->|Hx]; [|apply IH; exact Hx].
  destruct (emplace_present G ismap ord multi kt x l HP) as [Hi|(Hm & El & y & Hy & Hk)].
  - left. apply emplace_all_keeps; assumption.
  - right. split; [exact Hm|]. exists y. split; [|exact Hk]. apply emplace_all_keeps; [exact HP|]. rewrite El; exact Hy.
Qed.

(** ** versions *)
Definition class_type (t : ty) : bool := match t with TStruct _ => true | _ => false end.

Lemma write_version_irrelevant G H f v1 v2 t v W : class_type t = false -> write G H f v1 t v W = write G H f v2 t v W.
Proof. intros C. destruct f as [|f]; [reflexivity|]. rewrite !write_S. destruct t, v; try discriminate C; reflexivity. Qed.
Lemma read_version_irrelevant G f v1 v2 t old s st : class_type t = false -> read G f v1 t old s st = read G f v2 t old s st.
Proof. intros C. destruct f as [|f]; [reflexivity|]. rewrite !read_S. destruct t; try discriminate C; reflexivity. Qed.

(** outcome of reading the bases, as used in the statements about versions *)
Definition read_bases (G : genv) (f : nat) (ver : N) (bs : list N) (os : list (fkey * val)) (s : bytes) (st : rstate) :=
  rd_iter (S:=list (fkey * val) * bytes * rstate) (fun b '(os, s, st) =>
     let! (os', _, s', st') := read_cls G f ver b os s st in ROk (os', s', st')) bs (os, s, st).
Definition read_members (G : genv) (f : nat) (ver : N) (fds : list bfield) (os : list (fkey * val)) (s : bytes) (st : rstate) :=
  rd_iter (S:=list (fkey * val) * bytes * rstate) (fun fd '(os, s, st) =>
     match alookup fkey_eqb (bf_key fd) os with
     | Some o => let! (x, s', st') := read G f ver (bf_ty fd) o s st in ROk (aupdate fkey_eqb (bf_key fd) x os, s', st')
     | None => RStuck
     end) fds (os, s, st).
Definition write_bases (G : genv) (H : heap) (f : nat) (ver : N) (bs : list N) (fs : list (fkey * val)) (W : list N) :=
  wr_iter (fun b => write_cls G H f ver b fs) bs W.
Definition write_members (G : genv) (H : heap) (f : nat) (ver : N) (fds : list bfield) (fs : list (fkey * val)) (W : list N) :=
  wr_iter (fun fd W => match alookup fkey_eqb (bf_key fd) fs with Some v => write G H f ver (bf_ty fd) v W | None => RStuck end) fds W.

Lemma write_cls_spec G H f ver c rc fs W : g_class G c = Some rc ->
  write_cls G H (S f) ver c fs W =
  (let p := rc_wr rc in
   let! (bb, W1) := write_bases G H f ver (bp_bases p) fs W in
   if (bp_vmax p =? 0)%N then
     let! (bm, W2) := write_members G H f ver (filter (visible ver) (bp_fields p)) fs W1 in ROk (bb ++ bm, W2)
   else
     let e := if (ver =? 0)%N then bp_vmax p else ver in
     let! bv := wr_varint e in
     let! (bm, W2) := write_members G H f e (filter (visible e) (bp_fields p)) fs W1 in ROk (bb ++ bv ++ bm, W2)).
Proof.
  intros Hc. rewrite write_cls_S. unfold write_cls_body. rewrite Hc. cbv zeta. unfold write_bases, write_members.
  apply rbind_ext. intros [bb W1]. destruct (bp_vmax (rc_wr rc) =? 0)%N; cbn [negb andb rbind].
  - rewrite wr_iter_filter. reflexivity.
  - apply rbind_ext. intros bv. rewrite wr_iter_filter. reflexivity.
Qed.

Lemma rd_iter_ext' {A S} (r r' : A -> S -> res S) l : (forall x s, r x s = r' x s) -> forall s, rd_iter r l s = rd_iter r' l s.
Proof. intros Hr. induction l as [|x l IH]; intros s; cbn; [reflexivity|]. rewrite Hr. apply rbind_ext. intros s1. apply IH. Qed.

Lemma read_cls_spec G f ver c rc p os s st : g_class G c = Some rc -> rc_rd rc = Some p ->
  read_cls G (S f) ver c os s st =
  (let! (os1, s1, st1) := read_bases G f ver (bp_bases p) os s st in
   if (bp_vmax p =? 0)%N then
     let! (os2, s2, st2) := read_members G f ver (filter (visible ver) (bp_fields p)) os1 s1 st1 in
     ROk (os2, if bp_ret0 p then 0%N else ver, s2, st2)
   else
     let! (v, s2) := rd_varint s1 in
     if (v <=? bp_vmax p)%N then
       let! (os3, s3, st3) := read_members G f v (filter (visible v) (bp_fields p)) os1 s2 st1 in
       ROk (os3, if bp_ret0 p then 0%N else v, s3, st3)
     else RThrow (ExVersion v (bp_vmax p) (rc_name rc))).
Proof.
  intros Hc Hrd. rewrite read_cls_S. unfold read_cls_body. rewrite Hc, Hrd. unfold read_bases.
  apply rbind_ext. intros [[os1 s1] st1]. unfold read_members.
  assert (M: forall v (x : list (fkey * val) * bytes * rstate),
     rd_iter (fun fd '(os, s, st) => if visible v fd then
                match alookup fkey_eqb (bf_key fd) os with
                | Some o => let! (x, s', st') := read G f v (bf_ty fd) o s st in ROk (aupdate fkey_eqb (bf_key fd) x os, s', st')
                | None => RStuck end else ROk (os, s, st)) (bp_fields p) x
     = rd_iter (fun fd '(os, s, st) =>
                match alookup fkey_eqb (bf_key fd) os with
                | Some o => let! (x, s', st') := read G f v (bf_ty fd) o s st in ROk (aupdate fkey_eqb (bf_key fd) x os, s', st')
                | None => RStuck end) (filter (visible v) (bp_fields p)) x).
  { intros v x. rewrite <- (rd_iter_filter (visible v)). apply rd_iter_ext'. intros fd [[os0 s0] st0]. reflexivity. }
  destruct (bp_vmax p =? 0)%N; cbn [rbind].
  - rewrite <- M. reflexivity.
  - rewrite rbind_assoc. apply rbind_ext. intros [v s2]. destruct (v <=? bp_vmax p)%N; cbn [rbind]; [|reflexivity].
    rewrite <- M. reflexivity.
Qed.

(** members which are not accessed keep their value *)
Inductive class_touches (G : genv) : N -> fkey -> Prop :=
| ct_own c rc p fd : g_class G c = Some rc -> rc_rd rc = Some p -> In fd (bp_fields p) -> class_touches G c (bf_key fd)
| ct_base c rc p b k : g_class G c = Some rc -> rc_rd rc = Some p -> In b (bp_bases p) -> class_touches G b k -> class_touches G c k.

Lemma read_members_other G f v fds k : (forall fd, In fd fds -> bf_key fd <> k) -> forall os s st os' s' st',
  read_members G f v fds os s st = ROk (os', s', st') -> alookup fkey_eqb k os' = alookup fkey_eqb k os.
Proof.
  unfold read_members. induction fds as [|fd fds IH]; intros Hk os s st os' s' st' E; cbn [rd_iter] in E; [inversion E; reflexivity|].
  apply rbind_ok in E. destruct E as [[[os1 s1] st1] [E1 E]].
  destruct (alookup fkey_eqb (bf_key fd) os); [|discriminate].
  apply rbind_ok in E1. destruct E1 as [[[x s2] st2] [_ E1]]. inversion E1; subst.
  apply IH in E; [|intros g Hg; apply Hk; right; exact Hg]. rewrite E.
  apply alookup_aupdate_other; [apply fkey_eqb_eq|]. intros ->. apply (Hk fd (or_introl eq_refl)). reflexivity.
Qed.

Lemma read_cls_untouched G f : forall ver c os s st os' v r st' k,
  read_cls G f ver c os s st = ROk (os', v, r, st') -> ~ class_touches G c k -> alookup fkey_eqb k os' = alookup fkey_eqb k os.
Proof.
  induction f as [|f IH]; intros ver c os s st os' v r st' k E Hn; [discriminate|].
  destruct (g_class G c) as [rc|] eqn:Hc; [|rewrite read_cls_S in E; unfold read_cls_body in E; rewrite Hc in E; discriminate].
  destruct (rc_rd rc) as [p|] eqn:Hrd; [|rewrite read_cls_S in E; unfold read_cls_body in E; rewrite Hc, Hrd in E; discriminate].
  rewrite (read_cls_spec G f ver c rc p) in E by assumption.
  apply rbind_ok in E. destruct E as [[[os1 s1] st1] [E1 E]].
  assert (B: alookup fkey_eqb k os1 = alookup fkey_eqb k os).
  { assert (HB: forall b, In b (bp_bases p) -> ~ class_touches G b k) by (intros b Hb Ht; apply Hn; eapply ct_base; eauto).
    clear E Hn. unfold read_bases in E1. revert os s st E1. induction (bp_bases p) as [|b bs IHb]; intros os s st E1; cbn [rd_iter] in E1; [inversion E1; reflexivity|].
    apply rbind_ok in E1. destruct E1 as [[[os2 s2] st2] [E2 E3]]. apply rbind_ok in E2. destruct E2 as [[[[os3 v3] s3] st3] [E2 E4]].
    inversion E4; subst. apply IHb in E3; [|intros b' Hb'; apply HB; right; exact Hb']. rewrite E3.
    eapply IH; [exact E2|]. apply HB. left; reflexivity. }
  rewrite <- B.
  assert (O: forall fd v0, In fd (filter (visible v0) (bp_fields p)) -> bf_key fd <> k).
  { intros fd v0 Hf <-. apply filter_In in Hf. apply Hn. eapply ct_own; eauto. apply Hf. }
  destruct (bp_vmax p =? 0)%N.
  - apply rbind_ok in E. destruct E as [[[os2 s2] st2] [E2 E]]. inversion E; subst.
    eapply read_members_other; [|exact E2]. intros fd Hf. eapply O; exact Hf.
  - apply rbind_ok in E. destruct E as [[w s2] [E2 E]]. destruct (w <=? bp_vmax p)%N; [|discriminate].
    apply rbind_ok in E. destruct E as [[[os3 s3] st3] [E3 E]]. inversion E; subst.
    eapply read_members_other; [|exact E3]. intros fd Hf. eapply O; exact Hf.
Qed.

(** a member outside of the stored version's range keeps its value *)
Lemma read_cls_invisible G f ver c rc p os s st os' v r st' k :
  g_class G c = Some rc -> rc_rd rc = Some p -> bp_vmax p <> 0%N -> bp_ret0 p = false ->
  read_cls G (S f) ver c os s st = ROk (os', v, r, st') ->
  (forall b, In b (bp_bases p) -> ~ class_touches G b k) ->
  (forall fd, In fd (bp_fields p) -> bf_key fd = k -> visible v fd = false) ->
  alookup fkey_eqb k os' = alookup fkey_eqb k os.
Proof.
  intros Hc Hrd Hv Hr0 E HB Hk.
  rewrite (read_cls_spec G f ver c rc p) in E by assumption.
  apply rbind_ok in E. destruct E as [[[os1 s1] st1] [E1 E]].
  assert (B: alookup fkey_eqb k os1 = alookup fkey_eqb k os).
  { clear E. unfold read_bases in E1. revert os s st E1. induction (bp_bases p) as [|b bs IHb]; intros os s st E1; cbn [rd_iter] in E1; [inversion E1; reflexivity|].
    apply rbind_ok in E1. destruct E1 as [[[os2 s2] st2] [E2 E3]]. apply rbind_ok in E2. destruct E2 as [[[[os3 v3] s3] st3] [E2 E4]].
    inversion E4; subst. apply IHb in E3; [|intros b' Hb'; apply HB; right; exact Hb']. rewrite E3.
    eapply read_cls_untouched; [exact E2|]. apply HB. left; reflexivity. }
  rewrite <- B. apply N.eqb_neq in Hv. rewrite Hv in E.
  apply rbind_ok in E. destruct E as [[w s2] [E2 E]]. destruct (w <=? bp_vmax p)%N; [|discriminate].
  apply rbind_ok in E. destruct E as [[[os3 s3] st3] [E3 E]]. rewrite Hr0 in E. inversion E; subst.
  eapply read_members_other; [|exact E3]. intros fd Hf Ek. apply filter_In in Hf. destruct Hf as [Hf Hvis].
  rewrite (Hk fd Hf Ek) in Hvis. discriminate.
Qed.

Lemma visible_spec ver fd : visible ver fd = true <->
  ((bf_asof fd = 0 \/ bf_asof fd <= ver) /\ (bf_until fd = 0 \/ ver <= bf_until fd))%N.
Proof. unfold visible. rewrite andb_true_iff, !orb_true_iff, !N.eqb_eq, !N.leb_le. reflexivity. Qed.

(** class bodies: the accessed members are restored, the others keep their value *)
Theorem class_round_trip G H ex f wv rv c L fs os bs W' :
  alloc_ok G -> place_ok G -> heap_good G H ->
  visits G wv rv c L -> repeatable G L ->
  (forall x, In x L -> exists o v, alookup fkey_eqb (vi_key x) os = Some o /\ alookup fkey_eqb (vi_key x) fs = Some v
      /\ good G H ex (vi_w x) (vi_r x) (vi_ty x) o v) ->
  write_cls G H f wv c fs [] = ROk (bs, W') ->
  forall h0 rest, exists os' h' ptrs ro,
    read_cls G f rv c os (bs ++ rest) {| r_heap := h0; r_ptr := [] |} = ROk (os', restored_version G wv rv c, rest, {| r_heap := h'; r_ptr := ptrs |})
    /\ graph_iso G H h0 h' ro
    /\ (forall x, In x L -> exists v v', alookup fkey_eqb (vi_key x) fs = Some v /\ alookup fkey_eqb (vi_key x) os' = Some v'
          /\ same_value G ro (vi_ty x) v v')
    /\ (forall k, ~ In k (map vi_key L) -> alookup fkey_eqb k os' = alookup fkey_eqb k os).
Proof.
  intros HA HP HG V ND P E h0 rest.
  destruct (P_all G H HA HP HG f) as [_ PC].
  destruct (PC ex wv rv c L fs os [] bs W' V ND P E [] {| r_heap := h0; r_ptr := [] |} rest (sync_init H h0))
    as (os' & [h' ptrs] & ro & R & S & Q).
  exists os', h', ptrs, ro. split; [exact R|]. split; [apply (step_graph G H h0 ro W' _ S)|]. split.
  - intros x Hx. destruct (po_in _ _ _ _ _ _ _ Q x Hx) as (v & v' & E1 & E2 & E3 & _). eauto.
  - intros k Hk. apply (po_out _ _ _ _ _ _ _ Q k Hk).
Qed.
