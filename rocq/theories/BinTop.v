(** BinTop.v -- the statements of PropertiesBin.v, proved from the facts *)
From Coq Require Import List NArith ZArith Bool Lia Permutation.
From Verif Require Import Base BaseFacts Bytes BytesFacts Types TypesFacts BinModel FuelFacts BinSpec BinSafeSpec
  BinRoundTrip BinTotal BinStream BinSafe BinFacts ContFacts BinTerm.
Import ListNotations.
Local Open Scope N_scope.

Lemma varint_round_trip v s :
  (v < 2 ^ 56 -> exists bs, wr_varint v = ROk bs /\ rd_varint (bs ++ s) = ROk (v, s)
     /\ (1 <= length bs <= 8)%nat /\ v < 2 ^ (7 * N.of_nat (length bs))
     /\ (forall k, (1 <= k)%nat -> v < 2 ^ (7 * N.of_nat k) -> (length bs <= k)%nat))
  /\ (2 ^ 56 <= v -> wr_varint v = RThrow ExConv).
Proof.
  split; [|apply wr_varint_big]. intros Hv. destruct (wr_varint_ok v Hv) as [bs E]. exists bs.
  split; [exact E|]. split; [apply rd_wr_varint; exact E|].
  destruct (wr_varint_length v bs E) as (L & B & M). split; [exact L|]. split; [exact B|].
  intros k Hk Hvk. destruct (Nat.le_gt_cases (length bs) k) as [Hle|Hgt]; [exact Hle|].
  assert (2 ^ (7 * N.of_nat (length bs - 1)) <= v) by (apply M; lia).
  assert (2 ^ (7 * N.of_nat k) <= 2 ^ (7 * N.of_nat (length bs - 1))) by (apply N.pow_le_mono_r; lia). lia.
Qed.

Lemma varint_arbitrary s :
  (exists v r p, rd_varint s = ROk (v, r) /\ s = p ++ r /\ (1 <= length p <= 8)%nat /\ v < 2 ^ 56)
  \/ ((exists s', s = Byte.x00 :: s') /\ rd_varint s = RThrow ExConv)
  \/ ((length s < 8)%nat /\ rd_varint s = RThrow ExIo).
Proof.
  destruct (rd_varint_cases s) as [(v & r & E)|[(s' & -> & E)|[E L]]].
  - left. destruct (rd_varint_ok _ _ _ E) as (p & -> & Lp & _). exists v, r, p.
    split; [exact E|]. split; [reflexivity|]. split; [exact Lp|]. eapply rd_varint_lt; exact E.
  - right; left. split; [eauto|exact E].
  - right; right. split; assumption.
Qed.

Lemma scalars_be G H f ver rv W s st old :
  (forall b, exists n, write G H (S f) ver TBool (VBool b) W = ROk ([mkb n], W) /\ n = (if b then 1 else 0)
      /\ read G (S f) rv TBool old ([mkb n] ++ s) st = ROk (VBool b, s, st))
  /\ (forall k z, bin_kind k = true -> in_range k z = true -> exists bs,
      write G H (S f) ver (TInt k) (VInt z) W = ROk (bs, W) /\ write G H (S f) ver (TEnum k) (VInt z) W = ROk (bs, W)
      /\ length bs = ksize k /\ Z.of_N (be_val bs) = (z mod 2 ^ (8 * Z.of_nat (ksize k)))%Z
      /\ read G (S f) rv (TInt k) old (bs ++ s) st = ROk (VInt z, s, st)
      /\ read G (S f) rv (TEnum k) old (bs ++ s) st = ROk (VInt z, s, st))
  /\ (forall n, n < 2 ^ 32 -> exists bs, write G H (S f) ver TF32 (VF32 n) W = ROk (bs, W) /\ length bs = 4%nat /\ be_val bs = n
      /\ read G (S f) rv TF32 old (bs ++ s) st = ROk (VF32 n, s, st))
  /\ (forall n, n < 2 ^ 64 -> exists bs, write G H (S f) ver TF64 (VF64 n) W = ROk (bs, W) /\ length bs = 8%nat /\ be_val bs = n
      /\ read G (S f) rv TF64 old (bs ++ s) st = ROk (VF64 n, s, st)).
Proof.
  split; [|split; [|split]].
  - intros b. eexists. split; [reflexivity|]. split; [reflexivity|]. destruct b; reflexivity.
  - intros k z Hk Hz. exists (wr_int k z). rewrite !write_S, !read_S. cbn [write_body read_body]. rewrite Hk, rd_wr_int by exact Hz.
    split; [reflexivity|]. split; [reflexivity|]. split; [apply enc_int_length|]. split; [|split; reflexivity].
    unfold wr_int, enc_int. rewrite be_val_be_small.
    + rewrite Z2N.id; [reflexivity|]. apply Z.mod_pos_bound. apply Z.pow_pos_nonneg; lia.
    + apply N2Z.inj_lt. rewrite pow8k. assert (0 < 2 ^ (8 * Z.of_nat (ksize k)))%Z by (apply Z.pow_pos_nonneg; lia).
      pose proof (Z.mod_pos_bound z _ H0). rewrite Z2N.id by lia. lia.
  - intros n Hn. exists (be 4 n). rewrite !write_S, !read_S. cbn [write_body read_body].
    rewrite (rd_be_be 4) by exact Hn. split; [reflexivity|]. split; [apply be_length|]. split; [apply be_val_be_small; exact Hn|reflexivity].
  - intros n Hn. exists (be 8 n). rewrite !write_S, !read_S. cbn [write_body read_body].
    rewrite (rd_be_be 8) by exact Hn. split; [reflexivity|]. split; [apply be_length|]. split; [apply be_val_be_small; exact Hn|reflexivity].
Qed.

Lemma binary_round_trip G H ex wv rv t old v :
  alloc_ok G -> place_ok G -> heap_good G H -> good G H ex wv rv t old v ->
  exists F, forall fuel, (F <= fuel)%nat -> exists bs W,
    write G H fuel wv t v [] = ROk (bs, W)
    /\ forall h0 rest, exists v' h' ptrs ro,
         read G fuel rv t old (bs ++ rest) {| r_heap := h0; r_ptr := [] |}
           = ROk (v', rest, {| r_heap := h'; r_ptr := ptrs |})
         /\ same_value G ro t v v' /\ graph_iso G H h0 h' ro.
Proof.
  intros HA HP HG Hg. destruct (write_total G H HG ex wv rv t old v [] Hg) as (F & bs & W' & E).
  exists F. intros fuel HF. exists bs, W'.
  assert (E': write G H fuel wv t v [] = ROk (bs, W')) by (eapply wr_ok_more; eauto). split; [exact E'|].
  intros h0 rest. destruct (P_all G H HA HP HG fuel) as [PV _].
  destruct (PV _ _ _ _ _ _ _ _ _ Hg E' [] {| r_heap := h0; r_ptr := [] |} rest (sync_init H h0)) as (v' & [h' ptrs] & ro & R & S & Q & _).
  exists v', h', ptrs, ro. split; [exact R|]. split; [exact Q|]. apply (step_graph G H h0 ro W' _ S).
Qed.

(** values without shared pointers and hash containers are restored identically *)
Lemma binary_round_trip_exact G H wv rv t old v :
  alloc_ok G -> place_ok G -> heap_good G H -> good G H true wv rv t old v ->
  exists F, forall fuel, (F <= fuel)%nat -> exists bs W,
    write G H fuel wv t v [] = ROk (bs, W)
    /\ forall h0 rest, exists h' ptrs,
         read G fuel rv t old (bs ++ rest) {| r_heap := h0; r_ptr := [] |}
           = ROk (v, rest, {| r_heap := h'; r_ptr := ptrs |}).
Proof.
  intros HA HP HG Hg. destruct (write_total G H HG true wv rv t old v [] Hg) as (F & bs & W' & E).
  exists F. intros fuel HF. exists bs, W'.
  assert (E': write G H fuel wv t v [] = ROk (bs, W')) by (eapply wr_ok_more; eauto). split; [exact E'|].
  intros h0 rest. destruct (P_all G H HA HP HG fuel) as [PV _].
  destruct (PV _ _ _ _ _ _ _ _ _ Hg E' [] {| r_heap := h0; r_ptr := [] |} rest (sync_init H h0)) as (v' & [h' ptrs] & ro & R & S & Q & X).
  rewrite (X eq_refl) in R. exists h', ptrs. exact R.
Qed.

Lemma binary_sequence G H (l : list (bool * N * N * ty * val * val)) fuel bs W :
  alloc_ok G -> place_ok G -> heap_good G H ->
  (forall ex wv rv t old v, In (ex, wv, rv, t, old, v) l -> good G H ex wv rv t old v) ->
  write_values G H fuel (map (fun '(ex, wv, rv, t, old, v) => (wv, t, v)) l) [] = ROk (bs, W) ->
  forall h0 rest, exists vs h' ptrs ro,
    read_values G fuel (map (fun '(ex, wv, rv, t, old, v) => (rv, t, old)) l) (bs ++ rest) {| r_heap := h0; r_ptr := [] |}
      = ROk (vs, rest, {| r_heap := h'; r_ptr := ptrs |})
    /\ Forall2 (fun '(ex, wv, rv, t, old, v) v' => same_value G ro t v v') l vs
    /\ graph_iso G H h0 h' ro.
Proof.
  intros HA HP HG Hg E h0 rest.
  assert (E': wr_iter (fun '(ex, wv, rv, t, old, v) W => write G H fuel wv t v W) l [] = ROk (bs, W)).
  { rewrite <- E. unfold write_values. generalize (@nil N) as W0. clear. induction l as [|[[[[[ex wv] rv] t] old] v] l IH]; intros W0; cbn; [reflexivity|].
    destruct (write G H fuel wv t v W0) as [[b1 W1]| | | |]; cbn; try reflexivity. rewrite IH. reflexivity. }
  destruct (seq_values_rt G H HA HP HG fuel l [] bs W Hg E' [] {| r_heap := h0; r_ptr := [] |} rest (sync_init H h0))
    as (vs & [h' ptrs] & ro & R & S & Q).
  exists vs, h', ptrs, ro. split; [exact R|]. split; [exact Q|]. apply (step_graph G H h0 ro W _ S).
Qed.

Lemma iter_values_total G H (HG : heap_good G H) l :
  (forall wv t v, In (wv, t, v) l -> exists ex rv old, good G H ex wv rv t old v) ->
  forall W, exists F bs W', write_values G H F l W = ROk (bs, W').
Proof.
  intros Hg W.
  destruct (iter_total H (fun F '(ver, t, v) W => write G H F ver t v W) (unwritten H W)) with (l := l) (W := W) as (F & bs & W' & E & _).
  - intros f f' [[ver t] v] W0 r Hle E. eapply wr_ok_more; eauto.
  - intros [[wv t] v] Hx W0 HW0. destruct (Hg wv t v Hx) as (ex & rv & old & Hgd).
    apply (write_total_n G H HG (unwritten H W) ex wv rv t old v Hgd W0 HW0).
  - lia.
  - exists F, bs, W'. apply (E F). lia.
Qed.

Lemma arbitrary_bytes_safe G ud : alloc_ok G -> place_ok G -> env_ok G ud -> by_value_ok G ->
  forall ver t old s st, readable G t -> has_type G ud (r_heap st) t old -> state_ok G ud st ->
  exists F, forall fuel, (F <= fuel)%nat ->
    (exists v r st', read G fuel ver t old s st = ROk (v, r, st')
       /\ has_type G ud (r_heap st') t v /\ heap_typed G ud (r_heap st')
       /\ heap_extends (r_heap st) (r_heap st') /\ (exists p, s = p ++ r))
    \/ (exists e, read G fuel ver t old s st = RThrow e /\ e <> ExBadVariant).
Proof.
  intros HA HP HE [rk HR] ver t old s st R O Hst.
  destruct (term_all G rk HR (length s) t) as [F E]. exists F. intros fuel HF.
  pose proof (E fuel ver old s st HF (le_n _)) as N.
  destruct (safe_all G ud HA HP HE fuel) as [SV _]. pose proof (SV ver t old s st R (or_intror O) Hst) as P.
  destruct (read G fuel ver t old s st) as [[[v r] st']|e| | |]; cbn in N, P; try contradiction.
  - left. exists v, r, st'. destruct P as [Hv Gs]. split; [reflexivity|]. split; [exact Hv|].
    split; [apply (gs_ok _ _ _ _ _ _ Gs)|]. split; [apply Gs|]. apply (gs_suf _ _ _ _ _ _ Gs).
  - right. exists e. split; [reflexivity|]. intros ->. exact P.
Qed.

Lemma truncated_input G H ex wv rv t old v fuel bs W :
  alloc_ok G -> place_ok G -> heap_good G H -> good G H ex wv rv t old v ->
  write G H fuel wv t v [] = ROk (bs, W) ->
  forall q x h0, bs = q ++ x -> x <> [] ->
  read G fuel rv t old q {| r_heap := h0; r_ptr := [] |} = RThrow ExIo.
Proof.
  intros HA HP HG Hg E q x h0 -> Hx. destruct (P_all G H HA HP HG fuel) as [PV _].
  destruct (PV _ _ _ _ _ _ _ _ _ Hg E [] {| r_heap := h0; r_ptr := [] |} [] (sync_init H h0)) as (v' & st' & ro & R & _).
  rewrite app_nil_r in R. eapply read_strict_prefix; eauto.
Qed.

(** also with any other amount of fuel the outcome is the same or the model's recursion limit *)
Lemma pointer_head_lossless mode a s : (mode = 1 \/ mode = 2) -> a < 2 ^ 64 ->
  exists hd, wr_ptr_head mode a = ROk hd
    /\ (a < 2 ^ 55 -> exists p, wr_varint a = ROk p /\ hd = mkb mode :: p)
    /\ (2 ^ 55 <= a -> hd = mkb (mode + 4) :: be 8 a)
    /\ exists m s1, rd_byte (hd ++ s) = ROk (m, s1) /\ N.land m 3 = mode
       /\ (if negb (N.land m 4 =? 0) then rd_be 8 s1 else rd_varint s1) = ROk (a, s).
Proof.
  intros Hm Ha. destruct (head_total mode a Ha) as [hd E]. exists hd. split; [exact E|]. split; [|split].
  - intros Hs. unfold wr_ptr_head, bigId in E. change 0x80000000000000 with (2 ^ 55) in E.
    destruct (N.leb_spec (2 ^ 55) a); [lia|]. apply rbind_ok in E. destruct E as [p [E1 E2]]. inversion E2. eauto.
  - intros Hb. unfold wr_ptr_head, bigId in E. change 0x80000000000000 with (2 ^ 55) in E.
    destruct (N.leb_spec (2 ^ 55) a); [|lia]. inversion E. destruct Hm as [-> | ->]; reflexivity.
  - destruct (ptr_head_rt mode a hd s Hm Ha E) as (m & s1 & R1 & _ & R3 & R4). eauto.
Qed.

(** ** statements assembled for PropertiesBin.v *)
Lemma binary_sequence_total G H (l : list (bool * N * N * ty * val * val)) :
  alloc_ok G -> place_ok G -> heap_good G H ->
  (forall ex wv rv t old v, In (ex, wv, rv, t, old, v) l -> good G H ex wv rv t old v) ->
  exists F, forall fuel, (F <= fuel)%nat -> exists bs W,
    write_values G H fuel (map (fun '(ex, wv, rv, t, old, v) => (wv, t, v)) l) [] = ROk (bs, W)
    /\ forall h0 rest, exists vs h' ptrs ro,
       read_values G fuel (map (fun '(ex, wv, rv, t, old, v) => (rv, t, old)) l) (bs ++ rest) {| r_heap := h0; r_ptr := [] |}
         = ROk (vs, rest, {| r_heap := h'; r_ptr := ptrs |})
       /\ Forall2 (fun '(ex, wv, rv, t, old, v) v' => same_value G ro t v v') l vs
       /\ graph_iso G H h0 h' ro.
Proof.
  intros HA HP HG Hg.
  destruct (iter_values_total G H HG (map (fun '(ex, wv, rv, t, old, v) => (wv, t, v)) l)) with (W := @nil N) as (F & bs & W & E).
  { intros wv t v Hin. apply in_map_iff in Hin. destruct Hin as [[[[[[ex wv0] rv] t0] old] v0] [E Hin]]. inversion E; subst.
    exists ex, rv, old. apply Hg. exact Hin. }
  exists F. intros fuel HF. exists bs, W.
  assert (E': write_values G H fuel (map (fun '(ex, wv, rv, t, old, v) => (wv, t, v)) l) [] = ROk (bs, W)).
  { unfold write_values in *.
    pose proof (le_wr_iter (fun '(ver, t, v) W => write G H F ver t v W) (fun '(ver, t, v) W => write G H fuel ver t v W)
      (map (fun '(ex, wv, rv, t, old, v) => (wv, t, v)) l)
      (fun x W => match x with (ver, t, v) => proj1 (write_mono G H F fuel HF) ver t v W end) []) as L.
    apply le_res_ok in L; [|rewrite E; discriminate]. rewrite L. exact E. }
  split; [exact E'|]. intros h0 rest. eapply binary_sequence; eauto.
Qed.

Lemma shared_written_once G H :
  (forall f ver t a W, In a W ->
     write G H (S f) ver (TShared t) (VShared (Some a)) W = (let! hd := wr_ptr_head 2 a in ROk (hd, W)))
  /\ (forall f ver t a x W, ~ In a W -> hget H a = Some (t, x) ->
     write G H (S f) ver (TShared t) (VShared (Some a)) W =
     (let! hd := wr_ptr_head 1 a in let! (bx, W1) := write G H f 0 t x (a :: W) in ROk (hd ++ bx, W1)))
  /\ (forall f ver t a W bs W', write G H f ver (TShared t) (VShared (Some a)) W = ROk (bs, W') -> In a W')
  /\ (forall f ver t v W bs W', write G H f ver t v W = ROk (bs, W') ->
     exists news, W' = news ++ W /\ NoDup news /\ forall a, In a news -> ~ In a W).
Proof.
  split; [intros; apply write_again; assumption|]. split; [intros; eapply write_first; eassumption|]. split.
  - intros f ver t a W bs W' E. destruct f as [|f]; [discriminate|].
    destruct (existsb (N.eqb a) W) eqn:EW.
    + assert (In a W) by (apply (existsb_in a W); exact EW). rewrite (write_again G H f ver t a W H0) in E.
      apply rbind_ok in E. destruct E as [hd [_ E]]. inversion E; subst. exact H0.
    + rewrite write_S in E. cbn [write_body] in E. rewrite EW in E. apply rbind_ok in E. destruct E as [hd [_ E]].
      destruct (hget H a) as [[t2 x]|]; [|discriminate]. destruct (ty_eqb t t2); [|discriminate].
      apply rbind_ok in E. destruct E as [[b W1] [E1 E]]. inversion E; subst.
      destruct (proj1 (write_grows G H f) _ _ _ _ _ _ E1) as (news & -> & _). apply in_or_app. right; left; reflexivity.
  - intros f ver t v W bs W' E. exact (proj1 (write_grows G H f) _ _ _ _ _ _ E).
Qed.

Lemma variant_binary G H :
  (forall f ver ts i t x W bs W', (length ts < 256)%nat -> nth_error ts i = Some t ->
     write G H (S f) ver (TVariant ts) (VVar i x) W = ROk (bs, W') ->
     exists body, bs = mkb (N.of_nat i) :: body /\ bval (mkb (N.of_nat i)) = N.of_nat i /\
       (t = TMono -> body = []) /\ (t <> TMono -> write G H f 0 t x W = ROk (body, W')))
  /\ (forall f ver ts old b s st, (length ts <= N.to_nat (bval b))%nat ->
     read G (S f) ver (TVariant ts) old (b :: s) st = RThrow ExConv)
  /\ (forall f ver ts old b s st v r st', read G (S f) ver (TVariant ts) old (b :: s) st = ROk (v, r, st') ->
     exists t x, v = VVar (N.to_nat (bval b)) x /\ nth_error ts (N.to_nat (bval b)) = Some t)
  /\ (forall f ver ts W, write G H (S f) ver (TVariant ts) VValueless W = RThrow ExBadVariant).
Proof.
  assert (B: forall b, mkb (bval b) = b) by apply mkb_bval.
  assert (L: forall b, bval b < 256) by apply bval_lt.
  split; [intros; eapply write_variant_bytes; eassumption|]. split; [|split].
  - intros f ver ts old b s st Hl. rewrite <- (B b). apply read_variant_range; [apply L|]. lia.
  - intros f ver ts old b s st v r st' E. rewrite <- (B b) in E. apply read_variant_index in E; [exact E|apply L].
  - intros. apply write_valueless.
Qed.

(** C13, second half: whatever input is accepted, none of its proper prefixes up to the consumed position is *)
Lemma accepted_prefix_rejected G fuel ver t old s v r st st' :
  read G fuel ver t old s st = ROk (v, r, st') ->
  forall q x, s = q ++ x ++ r -> x <> [] -> read G fuel ver t old q st = RThrow ExIo.
Proof.
  intros E q x -> Hx. destruct (proj1 (read_trunc (x ++ r) G fuel) ver t old q st) as [R|R]; [exact R|].
  rewrite E in R. destruct (read G fuel ver t old q st) as [[[v1 r1] st1]|e| | |]; cbn in R; try discriminate.
  inversion R as [[E1 E2 E3]]. apply (f_equal (@length _)) in E2. rewrite !app_length in E2.
  destruct x; [congruence|cbn in E2; lia].
Qed.

(** number of values a successful sequence of reads returns *)
Lemma read_values_length G f l : forall s st xs r st', read_values G f l s st = ROk (xs, r, st') -> length xs = length l.
Proof.
  induction l as [|[[ver t] old] l IH]; intros s st xs r st' E; cbn [read_values] in E; [inversion E; reflexivity|].
  apply rbind_ok in E. destruct E as [[[v s1] st1] [_ E]]. apply rbind_ok in E. destruct E as [[[vs s2] st2] [E1 E]].
  inversion E; subst. cbn. f_equal. eapply IH; exact E1.
Qed.

Lemma non_fresh G : place_ok G ->
  (forall f ver t old old' s st, replaced t = true -> read G f ver t old s st = read G f ver t old' s st)
  /\ (forall f ver t olds s st v r st', read G (S f) ver (TSeq t) (VList olds) s st = ROk (v, r, st') ->
       exists n r0 l, rd_varint s = ROk (n, r0) /\ v = VList l /\ N.of_nat (length l) = n)
  /\ (forall f ver ord multi t olds s st v r st', read G (S f) ver (TSet ord multi t) (VList olds) s st = ROk (v, r, st') ->
       exists n s1 xs l, rd_varint s = ROk (n, s1) /\ N.of_nat (length xs) = n
         /\ read_values G f (repeat (0, t, dinit G t) (N.to_nat n)) s1 st = ROk (xs, r, st')
         /\ v = VList l /\ merged G false ord multi t olds xs l)
  /\ (forall f ver ord multi kt vt olds s st v r st', read G (S f) ver (TMap ord multi kt vt) (VList olds) s st = ROk (v, r, st') ->
       exists n s1 xs l, rd_varint s = ROk (n, s1) /\ N.of_nat (length xs) = n
         /\ read_values G f (repeat (0, TPair kt vt, VPair (vinit G kt) (vinit G vt)) (N.to_nat n)) s1 st = ROk (xs, r, st')
         /\ v = VList l /\ merged G true ord multi kt olds xs l).
Proof.
  intros HP. split; [intros; apply read_replaced; assumption|]. split; [intros; eapply read_seq_length; eassumption|]. split.
  - intros f ver ord multi t olds s st v r st' E. rewrite read_set_merge in E.
    apply rbind_ok in E. destruct E as [[n s1] [E1 E]]. apply rbind_ok in E. destruct E as [[[xs s2] st2] [E2 E]]. inversion E; subst.
    exists n, s1, xs, (emplace_all G false ord multi t xs olds). split; [exact E1|].
    split; [apply read_values_length in E2; rewrite repeat_length in E2; lia|]. split; [exact E2|]. split; [reflexivity|].
    apply emplace_all_merged; exact HP.
  - intros f ver ord multi kt vt olds s st v r st' E. rewrite read_map_merge in E.
    apply rbind_ok in E. destruct E as [[n s1] [E1 E]]. apply rbind_ok in E. destruct E as [[[xs s2] st2] [E2 E]]. inversion E; subst.
    exists n, s1, xs, (emplace_all G true ord multi kt xs olds). split; [exact E1|].
    split; [apply read_values_length in E2; rewrite repeat_length in E2; lia|]. split; [exact E2|]. split; [reflexivity|].
    apply emplace_all_merged; exact HP.
Qed.

(** C16 *)
Lemma version_refused G f ver c rc p os s st os1 s1 st1 : g_class G c = Some rc -> rc_rd rc = Some p -> bp_vmax p <> 0 ->
  read_bases G f ver (bp_bases p) os s st = ROk (os1, s1, st1) ->
  forall v s2, rd_varint s1 = ROk (v, s2) ->
  (bp_vmax p < v -> read_cls G (S f) ver c os s st = RThrow (ExVersion v (bp_vmax p) (rc_name rc)))
  /\ (v <= bp_vmax p -> read_cls G (S f) ver c os s st =
        (let! (os3, s3, st3) := read_members G f v (filter (visible v) (bp_fields p)) os1 s2 st1 in
         ROk (os3, if bp_ret0 p then 0 else v, s3, st3))).
Proof.
  intros Hc Hrd Hv EB v s2 EV. apply N.eqb_neq in Hv.
  rewrite (read_cls_spec G f ver c rc p os s st Hc Hrd), EB. cbn [rbind]. rewrite Hv, EV. cbn [rbind].
  split; intros Hle.
  - apply N.leb_gt in Hle. rewrite Hle. reflexivity.
  - apply N.leb_le in Hle. rewrite Hle. reflexivity.
Qed.

(** C17 *)
Lemma default_version G H f ver c rc fs W bs W' : g_class G c = Some rc -> bp_vmax (rc_wr rc) <> 0 ->
  write_cls G H (S f) ver c fs W = ROk (bs, W') ->
  exists e bb bv bm W1, e = (if ver =? 0 then bp_vmax (rc_wr rc) else ver)
    /\ write_bases G H f ver (bp_bases (rc_wr rc)) fs W = ROk (bb, W1)
    /\ wr_varint e = ROk bv
    /\ write_members G H f e (filter (visible e) (bp_fields (rc_wr rc))) fs W1 = ROk (bm, W')
    /\ bs = bb ++ bv ++ bm.
Proof.
  intros Hc Hv E. apply N.eqb_neq in Hv. rewrite (write_cls_spec G H f ver c rc fs W Hc) in E. cbv zeta in E. rewrite Hv in E.
  apply rbind_ok in E. destruct E as [[bb W1] [E1 E]]. apply rbind_ok in E. destruct E as [bv [E2 E]].
  apply rbind_ok in E. destruct E as [[bm W2] [E3 E]]. inversion E; subst. exists (if ver =? 0 then bp_vmax (rc_wr rc) else ver), bb, bv, bm, W1. auto.
Qed.

Lemma default_is_max G H f c rc fs W : g_class G c = Some rc -> bp_bases (rc_wr rc) = [] ->
  bp_vmax (rc_wr rc) <> 0 -> write_cls G H f 0 c fs W = write_cls G H f (bp_vmax (rc_wr rc)) c fs W.
Proof.
  intros Hc Hb Hv. destruct f as [|f]; [reflexivity|]. rewrite !(write_cls_spec G H f _ c rc fs W Hc). cbv zeta.
  rewrite Hb. cbn [write_bases wr_iter rbind]. apply N.eqb_neq in Hv. rewrite Hv. reflexivity.
Qed.

(** C18: everything which is not a class is written/read the same for every version, and
    a class is handed the version as it is *)
Lemma wr_iter_values G H f t : forall l W,
  wr_iter (write G H f 0 t) l W = write_values G H f (map (fun x => (0, t, x)) l) W.
Proof.
  unfold write_values. induction l as [|x l IH]; intros W; cbn [map wr_iter]; [reflexivity|].
  apply rbind_ext. intros [b1 W1]. rewrite IH. reflexivity.
Qed.
Lemma wr_iter_pairs G H f kt vt : forall l W,
  wr_iter (write G H (S f) 0 (TPair kt vt)) (map (fun '(k, v) => VPair k v) l) W
  = write_values G H f (concat (map (fun '(k, v) => [(0, kt, k); (0, vt, v)]) l)) W.
Proof.
  induction l as [|[k v] l IH]; intros W; [reflexivity|]. unfold write_values in *. cbn [map concat app wr_iter].
  rewrite write_S. cbn [write_body].
  destruct (write G H f 0 kt k W) as [[b1 W1]| | | |]; cbn [rbind]; try reflexivity.
  destruct (write G H f 0 vt v W1) as [[b2 W2]| | | |]; cbn [rbind]; try reflexivity.
  rewrite IH. destruct (wr_iter _ _ W2) as [[b3 W3]| | | |]; cbn [rbind]; try reflexivity. rewrite app_assoc. reflexivity.
Qed.

Lemma version_reach G H f :
  (forall v1 v2 t v W, class_type t = false -> write G H f v1 t v W = write G H f v2 t v W)
  /\ (forall v1 v2 t old s st, class_type t = false -> read G f v1 t old s st = read G f v2 t old s st)
  /\ (forall ver c fs W, write G H (S f) ver (TStruct c) (VObj fs) W = write_cls G H f ver c fs W)
  /\ (forall ver t l W, write G H (S f) ver (TSeq t) (VList l) W =
        (let! p := wr_varint (N.of_nat (length l)) in
         let! (bs, W') := write_values G H f (map (fun x => (0, t, x)) l) W in ROk (p ++ bs, W')))
  /\ (forall ver ord multi t l W, write G H (S f) ver (TSet ord multi t) (VList l) W =
        (let! p := wr_varint (N.of_nat (length l)) in
         let! (bs, W') := write_values G H f (map (fun x => (0, t, x)) l) W in ROk (p ++ bs, W')))
  /\ (forall ver ord multi kt vt l W, write G H (S (S f)) ver (TMap ord multi kt vt) (VList (map (fun '(k, v) => VPair k v) l)) W =
        (let! p := wr_varint (N.of_nat (length l)) in
         let! (bs, W') := write_values G H f (concat (map (fun '(k, v) => [(0, kt, k); (0, vt, v)]) l)) W in ROk (p ++ bs, W')))
  /\ (forall ver ta tb a b W, write G H (S f) ver (TPair ta tb) (VPair a b) W = write_values G H f [(0, ta, a); (0, tb, b)] W)
  /\ (forall ver t x W, write G H (S f) ver (TOptional t) (VOpt (Some x)) W =
        (let! (bs, W') := write G H f 0 t x W in ROk (mkb 1 :: bs, W')))
  /\ (forall ver t x W, write G H (S f) ver (TUnique t) (VOpt (Some x)) W =
        (let! (bs, W') := write G H f 0 t x W in ROk (mkb 1 :: bs, W')))
  /\ (forall ver t a x W, ~ In a W -> hget H a = Some (t, x) -> write G H (S f) ver (TShared t) (VShared (Some a)) W =
        (let! hd := wr_ptr_head 1 a in let! (bs, W') := write G H f 0 t x (a :: W) in ROk (hd ++ bs, W')))
  /\ (forall ver ts i t x W, nth_error ts i = Some t -> t <> TMono -> write G H (S f) ver (TVariant ts) (VVar i x) W =
        (let! (bs, W') := write G H f 0 t x W in ROk (mkb (N.of_nat i) :: bs, W'))).
Proof.
  split; [intros; apply write_version_irrelevant; assumption|].
  split; [intros; apply read_version_irrelevant; assumption|].
  split; [reflexivity|].
  split; [intros; rewrite write_S; cbn [write_body]; rewrite wr_iter_values; reflexivity|].
  split; [intros; rewrite write_S; cbn [write_body]; rewrite wr_iter_values; reflexivity|].
  split; [intros; rewrite write_S; cbn [write_body]; rewrite wr_iter_pairs, map_length; reflexivity|].
  split.
  { intros. rewrite write_S. cbn [write_body]. unfold write_values. cbn [wr_iter].
    destruct (write G H f 0 ta a W) as [[b1 W1]| | | |]; cbn [rbind]; try reflexivity.
    destruct (write G H f 0 tb b W1) as [[b2 W2]| | | |]; cbn [rbind]; try reflexivity. rewrite app_nil_r. reflexivity. }
  split; [reflexivity|]. split; [reflexivity|].
  split; [intros; apply write_first; assumption|].
  intros ver ts i t x W Hi Ht. rewrite write_S. cbn [write_body]. rewrite Hi. destruct t; congruence || reflexivity.
Qed.

(** ** the member functions of BinarySerializable *)
Lemma to_from_binary G H ex ver c os fs :
  alloc_ok G -> place_ok G -> heap_good G H -> good G H ex ver 0 (TStruct c) (VObj os) (VObj fs) ->
  exists F, forall fuel, (F <= fuel)%nat -> exists bs,
    toBinary G H fuel c fs ver = ROk bs
    /\ forall h0 rest, exists fs' h' ptrs ro,
         restoreFromBinary G fuel c os (bs ++ rest) h0
           = ROk (fs', restored_version G ver 0 c, rest, {| r_heap := h'; r_ptr := ptrs |})
         /\ same_value G ro (TStruct c) (VObj fs) (VObj fs') /\ graph_iso G H h0 h' ro
         /\ (ex = true -> fs' = fs).
Proof.
  intros HA HP HG Hg. destruct (write_total G H HG ex ver 0 _ _ _ [] Hg) as (F & bs & W' & E).
  exists F. intros fuel HF. exists bs.
  assert (E': write G H (S fuel) ver (TStruct c) (VObj fs) [] = ROk (bs, W')) by (eapply wr_ok_more; [|exact E]; lia).
  change (write_cls G H fuel ver c fs [] = ROk (bs, W')) in E'. unfold toBinary. rewrite E'. split; [reflexivity|].
  intros h0 rest. unfold restoreFromBinary.
  destruct (P_all G H HA HP HG fuel) as [_ PC].
  destruct (struct_rt G H fuel PC ex ver 0 c os fs [] bs W' Hg E' [] {| r_heap := h0; r_ptr := [] |} rest (sync_init H h0))
    as (os' & [h' ptrs] & ro & R & S & Q & X).
  exists os', h', ptrs, ro. split; [exact R|]. split; [exact Q|]. split; [apply (step_graph G H h0 ro W' _ S)|exact X].
Qed.

Lemma from_binary G H ex ver c rc fs :
  alloc_ok G -> place_ok G -> heap_good G H -> g_class G c = Some rc ->
  good G H ex ver 0 (TStruct c) (VObj (rc_dinit rc)) (VObj fs) ->
  exists F, forall fuel, (F <= fuel)%nat -> exists bs,
    toBinary G H fuel c fs ver = ROk bs
    /\ forall h0 rest, exists fs' h' ptrs ro,
         fromBinary G fuel c (bs ++ rest) h0 = ROk (fs', rest, {| r_heap := h'; r_ptr := ptrs |})
         /\ same_value G ro (TStruct c) (VObj fs) (VObj fs') /\ graph_iso G H h0 h' ro
         /\ (ex = true -> fs' = fs).
Proof.
  intros HA HP HG Hc Hg. destruct (to_from_binary G H ex ver c _ fs HA HP HG Hg) as [F HF]. exists F. intros fuel Hle.
  destruct (HF fuel Hle) as (bs & E & R). exists bs. split; [exact E|]. intros h0 rest.
  destruct (R h0 rest) as (fs' & h' & ptrs & ro & R1 & R2). exists fs', h', ptrs, ro. split; [|exact R2].
  unfold fromBinary. rewrite Hc, R1. reflexivity.
Qed.

(** ** a shared object which occurred before, in terms of the written bytes *)
Lemma write_values_app G H fuel l2 : forall l1 W, write_values G H fuel (l1 ++ l2) W =
  (let! (b1, W1) := write_values G H fuel l1 W in let! (b2, W2) := write_values G H fuel l2 W1 in ROk (b1 ++ b2, W2)).
Proof.
  induction l1 as [|[[ver t] v] l1 IH]; intros W; unfold write_values in *; cbn [app wr_iter rbind].
  - destruct (wr_iter _ l2 W) as [[b W1]| | | |]; reflexivity.
  - destruct (write G H fuel ver t v W) as [[b W1]| | | |]; cbn [rbind]; try reflexivity. rewrite IH.
    destruct (wr_iter _ l1 W1) as [[b1 W2]| | | |]; cbn [rbind]; try reflexivity.
    destruct (wr_iter _ l2 W2) as [[b2 W3]| | | |]; cbn [rbind]; try reflexivity. rewrite app_assoc. reflexivity.
Qed.
Lemma write_values_grows G H fuel l W bs W' : write_values G H fuel l W = ROk (bs, W') -> grows W W'.
Proof. apply grows_iter. intros [[ver t] v] W0 b W1 E. eapply (proj1 (write_grows G H fuel)); exact E. Qed.

Lemma second_occurrence G H fuel l bs W ver0 ver t0 t a :
  write_values G H fuel l [] = ROk (bs, W) -> In (ver0, TShared t0, VShared (Some a)) l -> a < 2 ^ 64 ->
  exists hd, (length hd <= 9)%nat
    /\ (a < 2 ^ 55 -> exists p, wr_varint a = ROk p /\ hd = mkb 2 :: p)
    /\ (2 ^ 55 <= a -> hd = mkb 6 :: be 8 a)
    /\ write_values G H fuel (l ++ [(ver, TShared t, VShared (Some a))]) [] = ROk (bs ++ hd, W).
Proof.
  intros E Hin Ha.
  assert (HW: In a W).
  { apply in_split in Hin. destruct Hin as (l1 & l2 & ->). rewrite write_values_app in E.
    apply rbind_ok in E. destruct E as [[b1 W1] [E1 E]]. apply rbind_ok in E. destruct E as [[b2 W2] [E2 E]]. inversion E; subst; clear E.
    unfold write_values in E2. cbn [wr_iter] in E2. apply rbind_ok in E2. destruct E2 as [[b3 W3] [E3 E2]].
    apply rbind_ok in E2. destruct E2 as [[b4 W4] [E4 E2]]. inversion E2; subst; clear E2.
    pose proof (proj1 (proj2 (proj2 (shared_written_once G H))) _ _ _ _ _ _ _ E3) as H3.
    destruct (write_values_grows _ _ _ _ _ _ _ E4) as (news & -> & _). apply in_or_app. right. exact H3. }
  destruct (pointer_head_lossless 2 a [] (or_intror eq_refl) Ha) as (hd & Eh & Hs & Hb & _).
  exists hd. split; [|split; [exact Hs|split; [exact Hb|]]].
  - destruct (N.lt_ge_cases a (2 ^ 55)) as [Hl|Hl].
    + destruct (Hs Hl) as (p & Ep & ->). destruct (wr_varint_length a p Ep) as ((_ & L) & _). cbn. lia.
    + rewrite (Hb Hl). cbn [length]. rewrite be_length. lia.
  - destruct fuel as [|f].
    { exfalso. destruct l as [|[[v1 t1] x1] l1]; [destruct Hin|discriminate E]. }
    rewrite write_values_app, E. cbn [rbind]. unfold write_values. cbn [wr_iter].
    rewrite (write_again G H f ver t a W HW), Eh. cbn [rbind]. rewrite app_nil_r. reflexivity.
Qed.

(** ** the bytes of a class object only depend on the members of the version *)
Lemma wr_iter_ext_in {A} (w w' : A -> list N -> res (bytes * list N)) l :
  (forall x W, In x l -> w x W = w' x W) -> forall W, wr_iter w l W = wr_iter w' l W.
Proof.
  induction l as [|x l IH]; intros Hw W; cbn [wr_iter]; [reflexivity|].
  rewrite Hw by (left; reflexivity). destruct (w' x W) as [[b W1]| | | |]; cbn [rbind]; try reflexivity.
  rewrite IH; [reflexivity|]. intros y W0 Hy. apply Hw. right. exact Hy.
Qed.

Lemma invisible_no_influence G H f : forall ver c fs fs' W,
  (forall k, written G ver c k -> alookup fkey_eqb k fs = alookup fkey_eqb k fs') ->
  write_cls G H f ver c fs W = write_cls G H f ver c fs' W.
Proof.
  induction f as [|f IH]; intros ver c fs fs' W Hk; [reflexivity|].
  destruct (g_class G c) as [rc|] eqn:Hc.
  2: { rewrite !write_cls_S. unfold write_cls_body. rewrite Hc. reflexivity. }
  rewrite !write_cls_S. unfold write_cls_body. rewrite Hc. cbv zeta.
  assert (EB: wr_iter (fun b => write_cls G H f ver b fs) (bp_bases (rc_wr rc)) W
              = wr_iter (fun b => write_cls G H f ver b fs') (bp_bases (rc_wr rc)) W).
  { apply wr_iter_ext_in. intros b W0 Hb. apply IH. intros k Hw. apply Hk. eapply written_base; eauto. }
  rewrite EB. apply rbind_ext. intros [bb W1]. apply rbind_ext. intros bv.
  match goal with |- context [wr_iter ?w (bp_fields (rc_wr rc)) W1] => set (w1 := w) end.
  match goal with |- _ = (rbind (wr_iter ?w (bp_fields (rc_wr rc)) W1) _) => set (w2 := w) end.
  replace (wr_iter w1 (bp_fields (rc_wr rc)) W1) with (wr_iter w2 (bp_fields (rc_wr rc)) W1); [reflexivity|].
  apply wr_iter_ext_in. intros fd W0 Hf. unfold w1, w2.
  match goal with |- (if ?b then _ else _) = _ => destruct b eqn:Ev end; [|reflexivity].
  rewrite (Hk (bf_key fd)); [reflexivity|]. eapply written_own; [exact Hc|exact Hf|].
  destruct (bp_vmax (rc_wr rc) =? 0); cbn [negb andb] in Ev; exact Ev.
Qed.

Lemma invisible_no_influence_top G H fuel ver c fs fs' :
  (forall k, written G ver c k -> alookup fkey_eqb k fs = alookup fkey_eqb k fs') ->
  toBinary G H fuel c fs ver = toBinary G H fuel c fs' ver.
Proof. intros Hk. unfold toBinary. rewrite (invisible_no_influence G H fuel ver c fs fs' [] Hk). reflexivity. Qed.

(** what is written is what is restored (both directions of "part of the serialization") *)
Lemma visits_written G wv rv : forall c L, visits G wv rv c L -> forall k, In k (map vi_key L) <-> written G wv c k.
Proof.
  fix IH 3. intros c L V. destruct V as [c rc pr Ls own Hc Hrd Hb Hvm HF Hown].
  assert (B: forall k, In k (map vi_key (concat Ls)) <-> exists b, In b (bp_bases (rc_wr rc)) /\ written G wv b k).
  { clear Hown Hb. generalize dependent Ls. generalize (bp_bases (rc_wr rc)) as bl.
    refine (fix F bl Ls (HF : Forall2 (visits G wv rv) bl Ls) {struct HF} := _).
    destruct HF as [|b L bl Ls V HF]; intros k.
    - cbn. split; [intros []|intros (b & [] & _)].
    - cbn [concat]. rewrite map_app, in_app_iff. rewrite (IH b L V k), (F bl Ls HF k). split.
      + intros [Hw|(b' & Hb' & Hw)]; [exists b; split; [left; reflexivity|exact Hw]|exists b'; split; [right; exact Hb'|exact Hw]].
      + intros (b' & [<-|Hb'] & Hw); [left; exact Hw|right; exists b'; split; assumption]. }
  intros k. rewrite map_app, in_app_iff, B. clear B HF IH.
  assert (O: In k (map vi_key own) <-> exists fd, In fd (bp_fields (rc_wr rc)) /\ bf_key fd = k /\
      visible (if bp_vmax (rc_wr rc) =? 0 then wv else if wv =? 0 then bp_vmax (rc_wr rc) else wv) fd = true).
  { destruct (bp_vmax (rc_wr rc) =? 0).
    - destruct Hown as [_ ->]. rewrite map_map. cbn [mkvisit vi_key]. rewrite in_map_iff. split.
      + intros (fd & Ek & Hf). apply filter_In in Hf. exists fd. destruct Hf; auto.
      + intros (fd & Hf & Ek & Hv). exists fd. split; [exact Ek|]. apply filter_In. split; assumption.
    - destruct Hown as (e & -> & _ & _ & _ & ->). rewrite map_map. cbn [mkvisit vi_key]. rewrite in_map_iff. split.
      + intros (fd & Ek & Hf). apply filter_In in Hf. exists fd. destruct Hf; auto.
      + intros (fd & Hf & Ek & Hv). exists fd. split; [exact Ek|]. apply filter_In. split; assumption. }
  rewrite O. split.
  - intros [(b & Hbb & Hw)|(fd & Hf & <- & Hv)]; [eapply written_base; eauto|eapply written_own; eauto].
  - intros Hw. inversion Hw as [c0 rc0 fd Hc0 Hf Hv E1 E2|c0 rc0 b k0 Hc0 Hbb Hw' E1 E2]; subst; rewrite Hc in Hc0; inversion Hc0; subst.
    + right. exists fd. auto.
    + left. exists b. auto.
Qed.
