(** BinStream.v -- the deserializer only looks at the bytes it consumes: reading from a
    truncated stream either hits the end of the stream or behaves identically *)
From Coq Require Import List NArith ZArith Bool Lia.
From Verif Require Import Base BaseFacts Bytes BytesFacts Types BinModel FuelFacts.
Import ListNotations.

Definition rmap {A B} (f : A -> B) (m : res A) : res B :=
  match m with ROk a => ROk (f a) | RThrow e => RThrow e | RUB => RUB | RFuel => RFuel | RStuck => RStuck end.

(** [m]: outcome for the stream [s]; [m']: outcome for [s ++ x]; [ext] appends [x] to the rest *)
Definition trunc {A} (ext : A -> A) (m m' : res A) : Prop := m = RThrow ExIo \/ m' = rmap ext m.

Lemma trunc_bind {A B} (ea : A -> A) (eb : B -> B) m m' (k : A -> res B) :
  trunc ea m m' -> (forall a, trunc eb (k a) (k (ea a))) -> trunc eb (rbind m k) (rbind m' k).
Proof.
  intros [-> | ->] Hk; [left; reflexivity|]. destruct m; cbn; try (right; reflexivity). apply Hk.
Qed.

Lemma trunc_refl_throw {A} (ext : A -> A) e : trunc ext (RThrow e) (RThrow e).
Proof. right; reflexivity. Qed.
Lemma trunc_stuck {A} (ext : A -> A) : trunc ext RStuck RStuck. Proof. right; reflexivity. Qed.
Lemma trunc_fuel {A} (ext : A -> A) : trunc ext RFuel RFuel. Proof. right; reflexivity. Qed.

Lemma trunc_rd_iter {A S} (ext : S -> S) (r : A -> S -> res S) l :
  (forall a s, trunc ext (r a s) (r a (ext s))) -> forall s, trunc ext (rd_iter r l s) (rd_iter r l (ext s)).
Proof.
  intros Hr. induction l as [|a l IH]; intros s; cbn [rd_iter]; [right; reflexivity|].
  eapply trunc_bind; [apply Hr|]. intros s1. apply IH.
Qed.

Lemma trunc_loopN {S} (ext : S -> S) n (r : S -> res S) :
  (forall s, trunc ext (r s) (r (ext s))) -> forall s, trunc ext (loopN n r s) (loopN n r (ext s)).
Proof.
  intros Hr. intros s. rewrite !loopN_loopnat. generalize (N.to_nat n) as m. intros m. revert s.
  induction m as [|m IH]; intros s; cbn [loopnat]; [right; reflexivity|].
  eapply trunc_bind; [apply Hr|]. intros s1. apply IH.
Qed.

Section Ext.
  Variable x : bytes.
  Definition e2 {A} (p : A * bytes) : A * bytes := (fst p, snd p ++ x).
  Definition e3 {A B} (p : A * bytes * B) : A * bytes * B := let '(a, s, b) := p in (a, s ++ x, b).

  Lemma rd_bytes_trunc n s : trunc e2 (rd_bytes n s) (rd_bytes n (s ++ x)).
  Proof.
    destruct (rd_bytes n s) as [[t r]|e| | |] eqn:E.
    - right. cbn. apply rd_bytes_ext. exact E.
    - apply rd_bytes_throw in E. left. destruct E as [-> _]. reflexivity.
    - unfold rd_bytes in E. destruct (takeN n s); discriminate.
    - unfold rd_bytes in E. destruct (takeN n s); discriminate.
    - unfold rd_bytes in E. destruct (takeN n s); discriminate.
  Qed.

  Lemma rd_byte_trunc s : trunc e2 (rd_byte s) (rd_byte (s ++ x)).
  Proof. destruct s as [|b s]; cbn; [left; reflexivity|right; reflexivity]. Qed.

  Lemma rd_be_trunc k s : trunc e2 (rd_be k s) (rd_be k (s ++ x)).
  Proof. unfold rd_be. eapply trunc_bind; [apply rd_bytes_trunc|]. intros [t r]. right; reflexivity. Qed.

  Lemma rd_int_trunc k s : trunc e2 (rd_int k s) (rd_int k (s ++ x)).
  Proof. unfold rd_int. eapply trunc_bind; [apply rd_be_trunc|]. intros [t r]. right; reflexivity. Qed.

  Lemma rd_varint_trunc s : trunc e2 (rd_varint s) (rd_varint (s ++ x)).
  Proof.
    destruct s as [|b s]; [left; reflexivity|]. unfold rd_varint. cbn [app].
    destruct (prefix_len 8 1 128 (bval b)) as [[k m]|]; [|right; reflexivity].
    change (b :: s ++ x) with ((b :: s) ++ x).
    eapply trunc_bind; [apply rd_bytes_trunc|]. intros [t r]. destruct t; right; reflexivity.
  Qed.

  Lemma rd_string_trunc s : trunc e2 (rd_string s) (rd_string (s ++ x)).
  Proof. unfold rd_string. eapply trunc_bind; [apply rd_varint_trunc|]. intros [n r]. apply rd_bytes_trunc. Qed.

  Definition es1 {A B} (p : A * bytes * B) := @e3 A B p.
  Definition e4 {A B C} (p : A * B * bytes * C) : A * B * bytes * C := let '(a, b, s, c) := p in (a, b, s ++ x, c).

  Variable G : genv.

  Definition T_val f := forall ver t old s st, trunc e3 (read G f ver t old s st) (read G f ver t old (s ++ x) st).
  Definition T_cls f := forall ver c os s st, trunc e4 (read_cls G f ver c os s st) (read_cls G f ver c os (s ++ x) st).

  Lemma T_val_step f : T_val f -> T_cls f -> T_val (S f).
  Proof.
    intros TV TC ver t old s st. rewrite !read_S.
    destruct t; cbn [read_body]; try (right; reflexivity).
    - eapply trunc_bind; [apply rd_byte_trunc|]. intros [n r]. right; reflexivity.
    - destruct (bin_kind k); [|right; reflexivity]. eapply trunc_bind; [apply rd_int_trunc|]. intros [n r]. right; reflexivity.
    - eapply trunc_bind; [apply rd_be_trunc|]. intros [n r]. right; reflexivity.
    - eapply trunc_bind; [apply rd_be_trunc|]. intros [n r]. right; reflexivity.
    - destruct (bin_kind k); [|right; reflexivity]. eapply trunc_bind; [apply rd_int_trunc|]. intros [n r]. right; reflexivity.
    - eapply trunc_bind; [apply rd_string_trunc|]. intros [n r]. right; reflexivity.
    - destruct old; try (right; reflexivity).
      eapply trunc_bind; [apply rd_varint_trunc|]. intros [n r]. cbn [e2 fst snd].
      eapply (trunc_bind e4).
      2: { intros [[[o acc] r2] st2]. right; reflexivity. }
      match goal with |- trunc _ (loopN n ?f _) _ => apply (trunc_loopN e4 n f) with (s := (l, [], r, st)) end.
      intros [[[os acc] s0] st0]. cbn [e4]. cbv zeta.
      eapply trunc_bind; [apply TV|]. intros [[y r2] st2]. right; reflexivity.
    - destruct old; try (right; reflexivity).
      eapply trunc_bind; [apply rd_varint_trunc|]. intros [n r]. cbn [e2 fst snd].
      eapply (trunc_bind e3).
      2: { intros [[o r2] st2]. right; reflexivity. }
      match goal with |- trunc _ (loopN n ?f _) _ => apply (trunc_loopN e3 n f) with (s := (l, r, st)) end.
      intros [[os s0] st0]. cbn [e3].
      eapply trunc_bind; [apply TV|]. intros [[y r2] st2]. right; reflexivity.
    - destruct old; try (right; reflexivity).
      eapply trunc_bind; [apply rd_varint_trunc|]. intros [n r]. cbn [e2 fst snd].
      eapply (trunc_bind e3).
      2: { intros [[o r2] st2]. right; reflexivity. }
      match goal with |- trunc _ (loopN n ?f _) _ => apply (trunc_loopN e3 n f) with (s := (l, r, st)) end.
      intros [[os s0] st0]. cbn [e3].
      eapply trunc_bind; [apply TV|]. intros [[y r2] st2]. right; reflexivity.
    - destruct old; try (right; reflexivity).
      eapply trunc_bind; [apply TV|]. intros [[y r2] st2]. cbn [e3].
      eapply trunc_bind; [apply TV|]. intros [[y2 r3] st3]. right; reflexivity.
    - eapply trunc_bind; [apply rd_byte_trunc|]. intros [n r]. cbn [e2 fst snd].
      destruct (n =? 0)%N; [right; reflexivity|].
      eapply trunc_bind; [apply TV|]. intros [[y r2] st2]. right; reflexivity.
    - eapply trunc_bind; [apply rd_byte_trunc|]. intros [n r]. cbn [e2 fst snd].
      destruct (n =? 0)%N; [right; reflexivity|].
      eapply trunc_bind; [apply TV|]. intros [[y r2] st2]. right; reflexivity.
    - eapply trunc_bind; [apply rd_byte_trunc|]. intros [n r]. cbn [e2 fst snd].
      destruct (n =? 0)%N; [right; reflexivity|].
      eapply (trunc_bind e2).
      { destruct (negb (N.land n 4 =? 0)%N); [apply rd_be_trunc|apply rd_varint_trunc]. }
      intros [id r2]. cbn [e2 fst snd]. destruct (N.land n 3 =? 1)%N.
      + eapply trunc_bind; [apply TV|]. intros [[y r3] st2]. right; reflexivity.
      + destruct (alookup N.eqb id (r_ptr st)) as [[a t2]|]; [|right; reflexivity].
        destruct (ty_eqb t2 t); right; reflexivity.
    - eapply trunc_bind; [apply rd_byte_trunc|]. intros [n r]. cbn [e2 fst snd].
      destruct (nth_error ts (N.to_nat n)) as [t0|]; [|right; reflexivity].
      destruct t0; try (right; reflexivity); (eapply trunc_bind; [apply TV|]; intros [[y r2] st2]; right; reflexivity).
    - destruct old; try (right; reflexivity).
      eapply trunc_bind; [apply TC|]. intros [[[y v] r2] st2]. right; reflexivity.
    - eapply trunc_bind; [apply rd_int_trunc|]. intros [n r]. right; reflexivity.
    - eapply trunc_bind; [apply rd_int_trunc|]. intros [n r]. right; reflexivity.
  Qed.

  Lemma T_cls_step f : T_val f -> T_cls f -> T_cls (S f).
  Proof.
    intros TV TC ver c os s st. rewrite !read_cls_S. unfold read_cls_body.
    destruct (g_class G c) as [rc|]; [|right; reflexivity].
    destruct (rc_rd rc) as [p|]; [|right; reflexivity].
    eapply (trunc_bind e3).
    { match goal with |- trunc _ (rd_iter ?f ?l _) _ => apply (trunc_rd_iter e3 f l) with (s := (os, s, st)) end.
      intros b [[os0 s0] st0]. cbn [e3]. eapply trunc_bind; [apply TC|]. intros [[[y v] r2] st2]. right; reflexivity. }
    intros [[os1 s1] st1]. cbn [e3].
    eapply (trunc_bind e2).
    { destruct (bp_vmax p =? 0)%N; [right; reflexivity|].
      eapply trunc_bind; [apply rd_varint_trunc|]. intros [v r]. cbn [e2 fst snd].
      destruct (v <=? bp_vmax p)%N; right; reflexivity. }
    intros [ver' s2]. cbn [e2 fst snd].
    eapply (trunc_bind e3).
    { match goal with |- trunc _ (rd_iter ?f ?l _) _ => apply (trunc_rd_iter e3 f l) with (s := (os1, s2, st1)) end.
      intros fd [[os0 s0] st0]. cbn [e3]. destruct (visible ver' fd); [|right; reflexivity].
      destruct (alookup fkey_eqb (bf_key fd) os0); [|right; reflexivity].
      eapply trunc_bind; [apply TV|]. intros [[y r2] st2]. right; reflexivity. }
    intros [[os3 s3] st3]. right; reflexivity.
  Qed.

  Lemma read_trunc f : T_val f /\ T_cls f.
  Proof.
    induction f as [|f [TV TC]].
    - split; intros; [intros ver t old s st|intros ver c os s st]; right; reflexivity.
    - split; [apply T_val_step|apply T_cls_step]; assumption.
  Qed.
End Ext.

(** reading a longer stream leaves the additional bytes alone *)
Lemma read_ext G f ver t old s st v r st' x : read G f ver t old s st = ROk (v, r, st') ->
  read G f ver t old (s ++ x) st = ROk (v, r ++ x, st').
Proof.
  intros E. destruct (read_trunc x G f) as [T _]. destruct (T ver t old s st) as [E2|E2]; rewrite E in E2; [discriminate|exact E2].
Qed.
Lemma read_cls_ext G f ver c os s st v w r st' x : read_cls G f ver c os s st = ROk (v, w, r, st') ->
  read_cls G f ver c os (s ++ x) st = ROk (v, w, r ++ x, st').
Proof.
  intros E. destruct (read_trunc x G f) as [_ T]. destruct (T ver c os s st) as [E2|E2]; rewrite E in E2; [discriminate|exact E2].
Qed.

(** if reading [p] consumes everything then every strict prefix of [p] hits the end *)
Lemma read_strict_prefix G f ver t old q x st v st' : x <> [] ->
  read G f ver t old (q ++ x) st = ROk (v, [], st') -> read G f ver t old q st = RThrow ExIo.
Proof.
  intros Hx E. destruct (read_trunc x G f) as [T _]. destruct (T ver t old q st) as [E2|E2]; [exact E2|].
  rewrite E in E2. destruct (read G f ver t old q st) as [[[v2 r2] st2]| | | |]; cbn in E2; try discriminate.
  inversion E2 as [[Ev Er Es]]. symmetry in Er. apply app_eq_nil in Er. destruct Er as [_ Er]. contradiction.
Qed.
Lemma read_cls_strict_prefix G f ver c os q x st v w st' : x <> [] ->
  read_cls G f ver c os (q ++ x) st = ROk (v, w, [], st') -> read_cls G f ver c os q st = RThrow ExIo.
Proof.
  intros Hx E. destruct (read_trunc x G f) as [_ T]. destruct (T ver c os q st) as [E2|E2]; [exact E2|].
  rewrite E in E2. destruct (read_cls G f ver c os q st) as [[[[v2 w2] r2] st2]| | | |]; cbn in E2; try discriminate.
  inversion E2 as [[Ev Ew Er Es]]. symmetry in Er. apply app_eq_nil in Er. destruct Er as [_ Er]. contradiction.
Qed.
