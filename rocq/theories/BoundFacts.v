(** BoundFacts.v -- proofs for PropertiesBound.v *)
From Coq Require Import List NArith ZArith Bool Lia Permutation Arith.
From Verif Require Import Base BaseFacts Bytes BytesFacts Types TypesFacts BinModel FuelFacts BinSpec BinSafe BoundSpec.
Import ListNotations.
Local Open Scope nat_scope.

Lemma vsize_list l : vsize (VList l) = S (vsizes l).
Proof. cbn. f_equal. unfold vsizes. induction l as [|x l IH]; cbn; [reflexivity|]. rewrite IH. reflexivity. Qed.
Lemma vsize_obj l : vsize (VObj l) = S (fsizes l).
Proof. cbn. f_equal. unfold fsizes. induction l as [|[k x] l IH]; cbn; [reflexivity|]. rewrite IH. reflexivity. Qed.
Lemma vsize_pos v : 1 <= vsize v.
Proof. destruct v as [| | | | | | | | [?|] | | | | |]; cbn; lia. Qed.
Lemma vsizes_cons x l : vsizes (x :: l) = vsize x + vsizes l. Proof. reflexivity. Qed.
Lemma vsizes_app l m : vsizes (l ++ m) = vsizes l + vsizes m.
Proof. unfold vsizes. rewrite map_app. apply list_sum_app. Qed.
Lemma vsizes_perm l m : Permutation l m -> vsizes l = vsizes m.
Proof. intros P. induction P; rewrite ?vsizes_cons; lia. Qed.
Lemma vsizes_rev l : vsizes (rev l) = vsizes l.
Proof. apply vsizes_perm. apply Permutation_sym, Permutation_rev. Qed.

Lemma fsizes_cons k x l : fsizes ((k, x) :: l) = vsize x + fsizes l. Proof. reflexivity. Qed.
Lemma fsizes_update k x os o : alookup fkey_eqb k os = Some o -> fsizes (aupdate fkey_eqb k x os) + vsize o = fsizes os + vsize x.
Proof.
  induction os as [|[k' y] os IH]; cbn [alookup aupdate]; [discriminate|]. destruct (fkey_eqb k k').
  - intros [= ->]. rewrite !fsizes_cons. lia.
  - intros E. specialize (IH E). rewrite !fsizes_cons. lia.
Qed.

Lemma emplace_size G ismap ord multi t x l : place_ok G -> vsizes (fst (emplace G ismap ord multi t x l)) <= vsize x + vsizes l.
Proof.
  intros HP. destruct (emplace_cases G ismap ord multi t x l HP) as [[_ P]|[_ [E _]]].
  - rewrite <- (vsizes_perm _ _ P). rewrite vsizes_cons. lia.
  - rewrite E. lia.
Qed.

(** ** heaps *)
Lemma hget_in h a c : hget h a = Some c -> In a (map fst h).
Proof.
  unfold hget. induction h as [|[b y] h IH]; cbn; [discriminate|]. destruct (N.eqb a b) eqn:E; [apply N.eqb_eq in E; auto|]. intros E'. right. auto.
Qed.
Lemma addresses_old h a c : In a (map fst h) -> addresses (hset h a c) = addresses h.
Proof. intros Hin. unfold addresses, hset. cbn. destruct (in_dec N.eq_dec a (map fst h)); [reflexivity|contradiction]. Qed.
Lemma addresses_new h a c : ~ In a (map fst h) -> addresses (hset h a c) = a :: addresses h.
Proof. intros Hin. unfold addresses, hset. cbn. destruct (in_dec N.eq_dec a (map fst h)); [contradiction|reflexivity]. Qed.
Lemma addresses_in h a : In a (addresses h) <-> In a (map fst h).
Proof. apply nodup_In. Qed.

Lemma sum_cons x l : list_sum (x :: l) = x + list_sum l. Proof. reflexivity. Qed.
Definition entry (h : heap) (a : N) : nat := match hget h a with Some (_, x) => vsize x | None => 0 end.
Lemma heap_size_entry h : heap_size h = list_sum (map (entry h) (addresses h)). Proof. reflexivity. Qed.
Lemma entries_other h a c l : ~ In a l -> list_sum (map (entry (hset h a c)) l) = list_sum (map (entry h) l).
Proof.
  induction l as [|b l IH]; [reflexivity|]. intros Hn. cbn [map]. rewrite !sum_cons, IH by (cbn in Hn; tauto). unfold entry. rewrite hget_hset_other by (intros ->; apply Hn; left; reflexivity). reflexivity.
Qed.
Lemma heap_size_new h a t x : ~ In a (map fst h) -> heap_size (hset h a (t, x)) = vsize x + heap_size h.
Proof.
  intros Hn. rewrite !heap_size_entry, addresses_new by exact Hn. cbn [map]. rewrite sum_cons, entries_other; [|rewrite addresses_in; exact Hn].
  unfold entry at 1. rewrite hget_hset_same. reflexivity.
Qed.
Lemma entries_update h a t x y t0 l : hget h a = Some (t0, y) -> NoDup l -> In a l ->
  list_sum (map (entry (hset h a (t, x))) l) + vsize y = list_sum (map (entry h) l) + vsize x.
Proof.
  intros E. induction l as [|b l IH]; intros ND Hin; [destruct Hin|]. cbn [map]. rewrite !sum_cons. inversion ND; subst. destruct (N.eq_dec a b) as [<- | Hne].
  - rewrite entries_other by assumption. assert (entry (hset h a (t, x)) a = vsize x) by (unfold entry; rewrite hget_hset_same; reflexivity).
    assert (entry h a = vsize y) by (unfold entry; rewrite E; reflexivity). lia.
  - destruct Hin as [Hin | Hin]; [congruence|]. specialize (IH ltac:(assumption) Hin). assert (entry (hset h a (t, x)) b = entry h b) by (unfold entry; rewrite hget_hset_other by exact Hne; reflexivity). lia.
Qed.
Lemma heap_size_update h a t x y t0 : hget h a = Some (t0, y) -> heap_size (hset h a (t, x)) + vsize y = heap_size h + vsize x.
Proof.
  intros E. rewrite !heap_size_entry, addresses_old by (eapply hget_in; exact E). eapply entries_update; [exact E|apply NoDup_nodup|].
  apply addresses_in. eapply hget_in. exact E.
Qed.

(** what exists is not changed *)
Definition keeps (h h' : heap) : Prop := forall a, In a (map fst h) -> In a (map fst h') /\ hget h' a = hget h a.
Lemma keeps_refl h : keeps h h. Proof. intros a Ha. auto. Qed.
Lemma keeps_trans a b c : keeps a b -> keeps b c -> keeps a c.
Proof. intros A B x Hx. destruct (A x Hx) as [A1 A2]. destruct (B x A1) as [B1 B2]. split; [exact B1|congruence]. Qed.
Lemma keeps_new h a c : ~ In a (map fst h) -> keeps h (hset h a c).
Proof. intros Hn b Hb. split; [right; exact Hb|]. apply hget_hset_other. intros ->. contradiction. Qed.

(** ** primitive reads *)
Section Prim.
  Variable K : nat.
  Hypothesis HK : 1 <= K.
  Lemma rd_byte_len s n r : rd_byte s = ROk (n, r) -> K * length r + K <= K * length s.
  Proof using HK. destruct s as [|b s]; cbn; [discriminate|]. intros [= <- <-]. nia. Qed.
  Lemma takeN_len n : forall s x r, takeN n s = Some (x, r) -> s = x ++ r /\ N.of_nat (length x) = n.
  Proof.
    intros s. revert n. induction s as [|b s IH]; intros n x r E; cbn [takeN] in E.
    - destruct (N.eqb n 0) eqn:En; [|discriminate]. injection E as <- <-. apply N.eqb_eq in En. subst. auto.
    - destruct (N.eqb n 0) eqn:En; [injection E as <- <-; apply N.eqb_eq in En; subst; auto|].
      destruct (takeN (N.pred n) s) as [[y q]|] eqn:Et; [|discriminate]. injection E as <- <-. apply IH in Et. destruct Et as [-> L].
      split; [reflexivity|]. apply N.eqb_neq in En. cbn [length]. lia.
  Qed.
  Lemma rd_bytes_len n s x r : rd_bytes n s = ROk (x, r) -> length s = length x + length r /\ N.of_nat (length x) = n.
  Proof.
    unfold rd_bytes. destruct (takeN n s) as [[y q]|] eqn:E; [|discriminate]. intros [= <- <-]. apply takeN_len in E. destruct E as [-> L].
    rewrite app_length. auto.
  Qed.
  Lemma rd_be_len k s n r : 1 <= k -> rd_be k s = ROk (n, r) -> K * length r + K <= K * length s.
  Proof using HK.
    intros Hk. unfold rd_be. destruct (rd_bytes (N.of_nat k) s) as [[x q]| | | |] eqn:E; cbn; try discriminate. intros [= <- <-].
    apply rd_bytes_len in E. destruct E as [L1 L2]. assert (length x = k) by lia. nia.
  Qed.
  Lemma rd_int_len k s z r : rd_int k s = ROk (z, r) -> K * length r + K <= K * length s.
  Proof using HK.
    unfold rd_int. destruct (rd_be (ksize k) s) as [[n q]| | | |] eqn:E; cbn; try discriminate. intros [= _ <-].
    eapply rd_be_len; [|exact E]. destruct k; cbn; lia.
  Qed.
  Lemma rd_varint_len s n r : rd_varint s = ROk (n, r) -> K * length r + K <= K * length s.
  Proof using HK.
    intros E. assert (P := rd_varint_post s). rewrite E in P. destruct P as [_ L]. nia.
  Qed.
  Lemma rd_string_len s x r : rd_string s = ROk (x, r) -> K * length r + length x + K <= K * length s.
  Proof using HK.
    unfold rd_string. destruct (rd_varint s) as [[n q]| | | |] eqn:E; cbn; try discriminate. intros E2. apply (rd_varint_len) in E.
    apply rd_bytes_len in E2. nia.
  Qed.
End Prim.

Ltac okb H := apply rbind_ok in H; let a := fresh "a" in let Ha := fresh "Ha" in destruct H as (a & Ha & H); repeat match goal with p : (_ * _)%type |- _ => destruct p end; cbn [fst snd] in *.

Section Bound.
  Variable G : genv.
  Variable k : nat.
  Hypothesis HA : alloc_ok G.
  Hypothesis HP : place_ok G.
  Hypothesis Hk : 1 <= k.
  Hypothesis HM : compact_members G k.
  Let K := 2 * k.
  Lemma K1 : 1 <= K. Proof. unfold K. lia. Qed.
  Lemma Kk : K = k + k. Proof. unfold K. lia. Qed.

  (** the bound; [x]: what is left over *)
  Definition bounded (x : nat) (so : nat) (s : bytes) (st : rstate) (sv : nat) (r : bytes) (st' : rstate) : Prop :=
    x + sv + heap_size (r_heap st') + K * length r <= so + heap_size (r_heap st) + K * length s /\ keeps (r_heap st) (r_heap st').
  Definition Bval (f : nat) : Prop := forall ver t old s st v r st', compact G k t -> read G f ver t old s st = ROk (v, r, st') ->
    bounded 0 (vsize old) s st (vsize v) r st' /\ (occupies G t -> bounded k (vsize old) s st (vsize v) r st').
  Definition Bcls (f : nat) : Prop := forall ver c os s st fs v r st', read_cls G f ver c os s st = ROk (fs, v, r, st') ->
    bounded 0 (fsizes os) s st (fsizes fs) r st' /\ (occupies_class G c -> bounded k (fsizes os) s st (fsizes fs) r st').

  Lemma both (X : Prop) so s st sv r st' : bounded k so s st sv r st' -> bounded 0 so s st sv r st' /\ (X -> bounded k so s st sv r st').
  Proof. intros B. split; [|auto]. destruct B as [B1 B2]. split; [lia|exact B2]. Qed.

  (** loops: each element pays for itself *)
  Lemma loop_bound {S} (f : S -> res S) (w : S -> nat) n a b : (forall a b, f a = ROk b -> w b <= w a) -> loopN n f a = ROk b -> w b <= w a.
  Proof.
    intros Hf. rewrite loopN_loopnat. generalize (N.to_nat n). clear n. intros n. revert a. induction n as [|n IH]; intros a E; cbn in E; [injection E as <-; lia|].
    apply rbind_ok in E. destruct E as (c & E1 & E2). apply Hf in E1. apply IH in E2. lia.
  Qed.
  Lemma loop_keeps {S} (f : S -> res S) (w : S -> heap) n a b : (forall a b, f a = ROk b -> keeps (w a) (w b)) -> loopN n f a = ROk b -> keeps (w a) (w b).
  Proof.
    intros Hf. rewrite loopN_loopnat. generalize (N.to_nat n). clear n. intros n. revert a. induction n as [|n IH]; intros a E; cbn in E; [injection E as <-; apply keeps_refl|].
    apply rbind_ok in E. destruct E as (c & E1 & E2). apply Hf in E1. apply IH in E2. eapply keeps_trans; eassumption.
  Qed.

  Lemma compact_alt ts i t : compact G k (TVariant ts) -> nth_error ts i = Some t -> compact G k t /\ vsize (vinit G t) <= k.
  Proof.
    cbn [compact]. revert i. induction ts as [|t0 ts IH]; intros [|i]; cbn; try discriminate.
    - intros [A _] [= ->]. exact A.
    - intros [_ A] E. exact (IH i A E).
  Qed.

  Ltac prim := match goal with
    | E : rd_byte _ = ROk _ |- _ => apply (rd_byte_len K K1) in E
    | E : rd_int _ _ = ROk _ |- _ => apply (rd_int_len K K1) in E
    | E : rd_be 4 _ = ROk _ |- _ => apply (rd_be_len K K1) in E; [|lia]
    | E : rd_be 8 _ = ROk _ |- _ => apply (rd_be_len K K1) in E; [|lia]
    | E : rd_varint _ = ROk _ |- _ => apply (rd_varint_len K K1) in E
    | E : rd_string _ = ROk _ |- _ => apply (rd_string_len K K1) in E
    end.
  Ltac fin := assert (KK := Kk); cbn [vsize] in *; split; [cbn [r_heap]; lia | assumption || apply keeps_refl].

  Lemma val_step f : Bval f -> Bcls f -> Bval (S f).
  Proof.
    intros IH IHc ver t old s st v r st' HC E. rewrite read_S in E. unfold read_body in E. assert (Po := vsize_pos old).
    destruct t; try discriminate E.
    - (* bool *) okb E. injection E as <- <- <-. apply both. prim. fin.
    - (* int *) destruct (bin_kind k0); [|discriminate]. okb E. injection E as <- <- <-. apply both. prim. fin.
    - okb E. injection E as <- <- <-. apply both. prim. fin.
    - okb E. injection E as <- <- <-. apply both. prim. fin.
    - destruct (bin_kind k0); [|discriminate]. okb E. injection E as <- <- <-. apply both. prim. fin.
    - (* string *) okb E. injection E as <- <- <-. apply both. prim. fin.
    - (* seq *) destruct old as [| | | | | |olds| | | | | | |]; try discriminate. okb E. okb E. injection E as <- <- <-. prim. destruct HC as (C1 & C2 & C3).
      set (w := fun x : list val * list val * bytes * rstate => let '(os, acc, s, st) := x in vsizes os + vsizes acc + heap_size (r_heap st) + K * length s).
      match goal with L : loopN _ _ _ = ROk _ |- _ => rename L into EL end.
      pose proof EL as EL2.
      apply (loop_bound _ w) in EL.
      + apply (loop_keeps _ (fun x : list val * list val * bytes * rstate => let '(os, acc, s, st) := x in r_heap st)) in EL2.
        * apply both. assert (KK := Kk). rewrite !vsize_list, vsizes_rev in *. unfold w in EL. change (vsizes []) with 0 in EL. split; [lia|exact EL2].
        * intros [[[os acc] sa] sta] [[[os' acc'] sb] stb] Es. okb Es. injection Es as <- <- <- <-.
          match goal with R : read _ _ _ _ _ _ _ = ROk _ |- _ => destruct (IH _ _ _ _ _ _ _ _ C1 R) as [[_ Hkp] _]; exact Hkp end.
      + intros [[[os acc] sa] sta] [[[os' acc'] sb] stb] Es. okb Es. injection Es as <- <- <- <-.
        match goal with R : read _ _ _ _ _ _ _ = ROk _ |- _ => destruct (IH _ _ _ _ _ _ _ _ C1 R) as [_ B]; specialize (B C2); destruct B as [B _] end.
        unfold w. rewrite vsizes_cons. destruct os as [|o os]; cbn [tl]; rewrite ?vsizes_cons in *; lia.
    - (* set *) destruct old as [| | | | | |olds| | | | | | |]; try discriminate. okb E. okb E. injection E as <- <- <-. prim. destruct HC as (C1 & C2 & C3).
      match goal with L : loopN _ _ _ = ROk _ |- _ => rename L into EL end. pose proof EL as EL2.
      set (w := fun x : list val * bytes * rstate => let '(l, s, st) := x in vsizes l + heap_size (r_heap st) + K * length s).
      apply (loop_bound _ w) in EL.
      + apply (loop_keeps _ (fun x : list val * bytes * rstate => let '(l, s, st) := x in r_heap st)) in EL2.
        * apply both. assert (KK := Kk). rewrite !vsize_list in *. unfold w in EL. split; [lia|exact EL2].
        * intros [[ll sa] sta] [[ll' sb] stb] Es. okb Es. injection Es as <- <- <-.
          match goal with R : read _ _ _ _ _ _ _ = ROk _ |- _ => destruct (IH _ _ _ _ _ _ _ _ C1 R) as [[_ Hkp] _]; exact Hkp end.
      + intros [[ll sa] sta] [[ll' sb] stb] Es. okb Es. injection Es as <- <- <-.
        match goal with R : read _ _ _ _ _ _ _ = ROk (?x, _, _) |- _ => destruct (IH _ _ _ _ _ _ _ _ C1 R) as [_ B]; specialize (B C2); destruct B as [B _];
          pose proof (emplace_size G false ord multi t x ll HP) as ES end.
        unfold w. lia.
    - (* map *) destruct old as [| | | | | |olds| | | | | | |]; try discriminate. okb E. okb E. injection E as <- <- <-. prim. destruct HC as (C1 & C2 & C3 & C4).
      assert (CP : compact G k (TPair t1 t2)) by (split; assumption).
      match goal with L : loopN _ _ _ = ROk _ |- _ => rename L into EL end. pose proof EL as EL2.
      set (w := fun x : list val * bytes * rstate => let '(l, s, st) := x in vsizes l + heap_size (r_heap st) + K * length s).
      apply (loop_bound _ w) in EL.
      + apply (loop_keeps _ (fun x : list val * bytes * rstate => let '(l, s, st) := x in r_heap st)) in EL2.
        * apply both. assert (KK := Kk). rewrite !vsize_list in *. unfold w in EL. split; [lia|exact EL2].
        * intros [[ll sa] sta] [[ll' sb] stb] Es. okb Es. injection Es as <- <- <-.
          match goal with R : read _ _ _ _ _ _ _ = ROk _ |- _ => destruct (IH _ _ _ _ _ _ _ _ CP R) as [[_ Hkp] _]; exact Hkp end.
      + intros [[ll sa] sta] [[ll' sb] stb] Es. okb Es. injection Es as <- <- <-.
        match goal with R : read _ _ _ _ _ _ _ = ROk (?x, _, _) |- _ => destruct (IH _ _ _ _ _ _ _ _ CP R) as [_ B]; specialize (B C3); destruct B as [B _];
          pose proof (emplace_size G true ord multi t1 x ll HP) as ES end.
        unfold w. lia.
    - (* pair *) destruct old as [| | | | | | |oa ob| | | | | |]; try discriminate. destruct HC as [C1 C2]. okb E. okb E. injection E as <- <- <-.
      match goal with R1 : read _ _ _ t1 _ _ _ = ROk _, R2 : read _ _ _ t2 ob _ _ = ROk _ |- _ =>
        destruct (IH _ _ _ _ _ _ _ _ C1 R1) as [[A1 A2] A3]; destruct (IH _ _ _ _ _ _ _ _ C2 R2) as [[B1 B2] B3] end.
      cbn [vsize]. split.
      + split; [lia|eapply keeps_trans; eassumption].
      + intros O. split; [|eapply keeps_trans; eassumption]. inversion O as [? Hn _| ? ? O1 | ? ? O1 |]; subst.
        * exfalso. eapply Hn. reflexivity.
        * destruct (A3 O1) as [A4 _]. lia.
        * destruct (B3 O1) as [B4 _]. lia.
    - (* unique *) okb E. destruct (N.eqb n 0).
      + injection E as <- <- <-. prim. apply both. fin.
      + destruct HC as [C1 C2]. okb E. injection E as <- <- <-. prim.
        match goal with R : read _ _ _ _ _ _ _ = ROk _ |- _ => destruct (IH _ _ _ _ _ _ _ _ C1 R) as [[B1 B2] _] end. apply both. fin.
    - okb E. destruct (N.eqb n 0).
      + injection E as <- <- <-. prim. apply both. fin.
      + destruct HC as [C1 C2]. okb E. injection E as <- <- <-. prim.
        match goal with R : read _ _ _ _ _ _ _ = ROk _ |- _ => destruct (IH _ _ _ _ _ _ _ _ C1 R) as [[B1 B2] _] end. apply both. fin.
    - (* shared *) okb E. destruct (N.eqb n 0).
      + injection E as <- <- <-. prim. apply both. fin.
      + apply rbind_ok in E. destruct E as ([id s2] & Eid & E).
        assert (L2 : K * length s2 + K <= K * length b).
        { destruct (negb (N.eqb (N.land n 4) 0)); [apply (rd_be_len K K1) in Eid; [exact Eid|lia] | apply (rd_varint_len K K1) in Eid; exact Eid]. }
        prim. destruct (N.eqb (N.land n 3) 1).
        * destruct HC as [C1 C2]. apply rbind_ok in E. destruct E as ([[x s3] st2] & R & E). injection E as <- <- <-.
          destruct (IH _ _ _ _ _ _ _ _ C1 R) as [[B1 B2] _]. cbn [r_heap] in *.
          assert (Hn := HA (r_heap st)). rewrite (heap_size_new _ _ _ _ Hn) in B1.
          assert (Eg : hget (r_heap st2) (g_alloc G (r_heap st)) = Some (t, vinit G t)).
          { destruct (B2 (g_alloc G (r_heap st)) ltac:(left; reflexivity)) as [_ E2]. rewrite E2. apply hget_hset_same. }
          pose proof (heap_size_update _ _ t x _ _ Eg) as HU.
          apply both. assert (KK := Kk). split; [cbn [r_heap vsize]; lia|]. cbn [r_heap].
          intros a Hin. destruct (keeps_new _ _ (t, vinit G t) Hn a Hin) as [I1 I2]. destruct (B2 a I1) as [I3 I4]. split; [right; exact I3|].
          rewrite hget_hset_other; [congruence|]. intros <-. contradiction.
        * destruct (alookup N.eqb id (r_ptr st)) as [[a' t'']|]; [|discriminate]. destruct (ty_eqb t'' t); [|discriminate].
          injection E as <- <- <-. apply both. fin.
    - (* variant *) okb E. prim. destruct (nth_error ts (N.to_nat n)) as [t'|] eqn:En; [|discriminate].
      destruct (compact_alt _ _ _ HC En) as [C1 C2].
      assert (X : (v = VVar (N.to_nat n) VMono /\ r = b /\ st' = st) \/ (exists x, v = VVar (N.to_nat n) x /\ read G f 0 t' (vinit G t') b st = ROk (x, r, st'))).
      { destruct t'; try (okb E; injection E as <- <- <-; right; eexists; split; [reflexivity|eassumption]). injection E as <- <- <-. left. auto. }
      destruct X as [(-> & -> & ->) | (x & -> & R)].
      + apply both. assert (KK := Kk). assert (1 <= vsize (vinit G t')) by apply vsize_pos. split; [cbn [vsize]; lia|apply keeps_refl].
      + destruct (IH _ _ _ _ _ _ _ _ C1 R) as [[B1 B2] _]. apply both. fin.
    - (* class *) destruct old as [| | | | | | | | | | | | |os]; try discriminate. okb E. injection E as <- <- <-.
      match goal with R : read_cls _ _ _ _ _ _ _ = ROk _ |- _ => destruct (IHc _ _ _ _ _ _ _ _ _ R) as [[A1 A2] A3] end. rewrite !vsize_obj. split.
      + split; [lia|exact A2].
      + intros O. split; [|exact A2]. inversion O as [? _ Hn| | |? O1]; subst; [exfalso; eapply Hn; reflexivity|]. destruct (A3 O1) as [A4 _]. lia.
    - okb E. injection E as <- <- <-. apply both. prim. fin.
    - okb E. injection E as <- <- <-. apply both. prim. fin.
  Qed.

  (** loops over base classes and members; the element [x0] leaves something over *)
  Lemma iter_bound {A} (g : A -> list (fkey * val) * bytes * rstate -> res (list (fkey * val) * bytes * rstate)) (P : A -> Prop) l :
    (forall x os s st os' s' st', In x l -> g x (os, s, st) = ROk (os', s', st') ->
       bounded 0 (fsizes os) s st (fsizes os') s' st' /\ (P x -> bounded k (fsizes os) s st (fsizes os') s' st')) ->
    forall os s st os' s' st', rd_iter g l (os, s, st) = ROk (os', s', st') ->
      bounded 0 (fsizes os) s st (fsizes os') s' st' /\ ((exists x, In x l /\ P x) -> bounded k (fsizes os) s st (fsizes os') s' st').
  Proof.
    induction l as [|x l IH]; intros Hg os s st os' s' st' E; cbn in E.
    - injection E as <- <- <-. split; [split; [lia|apply keeps_refl]|]. intros (x & [] & _).
    - apply rbind_ok in E. destruct E as ([[o1 s1] st1] & E1 & E2).
      destruct (Hg _ _ _ _ _ _ _ (or_introl eq_refl) E1) as [[A1 A2] A3].
      destruct (IH (fun x os s st os' s' st' Hin => Hg x os s st os' s' st' (or_intror Hin)) _ _ _ _ _ _ E2) as [[B1 B2] B3].
      split; [split; [lia|eapply keeps_trans; eassumption]|]. intros (y & [<- | Hy] & Py).
      + destruct (A3 Py) as [A4 _]. split; [lia|eapply keeps_trans; eassumption].
      + destruct (B3 (ex_intro _ y (conj Hy Py))) as [B4 _]. split; [lia|eapply keeps_trans; eassumption].
  Qed.

  Lemma cls_step f : Bval f -> Bcls f -> Bcls (S f).
  Proof.
    intros IH IHc ver c os s st fs v r st' E. rewrite read_cls_S in E. unfold read_cls_body in E.
    destruct (g_class G c) as [rc|] eqn:Ec; [|discriminate]. destruct (rc_rd rc) as [p|] eqn:Er; [|discriminate].
    apply rbind_ok in E. destruct E as ([[os1 s1] st1] & E1 & E). apply rbind_ok in E. destruct E as ([ver' s2] & E2 & E).
    apply rbind_ok in E. destruct E as ([[os3 s3] st3] & E3 & E). injection E as <- <- <- <-.
    apply (iter_bound _ (occupies_class G)) in E1.
    2:{ intros b os0 s0 st0 os0' s0' st0' _ Eb. apply rbind_ok in Eb. destruct Eb as ([[[o' w] q] st''] & R & Eb). injection Eb as <- <- <-.
        exact (IHc _ _ _ _ _ _ _ _ _ R). }
    apply (iter_bound _ (fun fd => visible ver' fd = true /\ occupies G (bf_ty fd))) in E3.
    2:{ intros fd os0 s0 st0 os0' s0' st0' Hin Eb. destruct (visible ver' fd).
        - destruct (alookup fkey_eqb (bf_key fd) os0) as [o|] eqn:El; [|discriminate]. apply rbind_ok in Eb. destruct Eb as ([[x q] st''] & R & Eb).
          injection Eb as <- <- <-. pose proof (fsizes_update _ x _ _ El) as FU.
          destruct (IH _ _ _ _ _ _ _ _ (HM c rc p fd Ec Er Hin) R) as [[A1 A2] A3]. split; [split; [lia|exact A2]|].
          intros [_ O]. destruct (A3 O) as [A4 _]. split; [lia|exact A2].
        - injection Eb as <- <- <-. split; [split; [lia|apply keeps_refl]|]. intros [X _]. discriminate. }
    destruct E1 as [[A1 A2] A3], E3 as [[B1 B2] B3].
    assert (L2 : K * length s2 + (if N.eqb (bp_vmax p) 0 then 0 else K) <= K * length s1).
    { destruct (N.eqb (bp_vmax p) 0); [injection E2 as _ <-; lia|]. apply rbind_ok in E2. destruct E2 as ([w q] & R & E2). apply (rd_varint_len K K1) in R.
      destruct (N.leb w (bp_vmax p)); [|discriminate]. injection E2 as _ <-. exact R. }
    assert (L3 : K * length s2 <= K * length s1) by lia.
    split.
    - split; [lia|eapply keeps_trans; eassumption].
    - intros O. split; [|eapply keeps_trans; eassumption]. inversion O as [? rc' p' H1 H2 H3 | ? rc' p' b H1 H2 H3 H4 | ? rc' p' fd H1 H2 H3 H4 H5 H6]; subst;
        rewrite Ec in H1; injection H1 as <-; rewrite Er in H2; injection H2 as <-.
      + apply N.eqb_neq in H3. rewrite H3 in L2. assert (KK := Kk). lia.
      + destruct (A3 (ex_intro _ b (conj H3 H4))) as [A4 _]. lia.
      + assert (Hv : visible ver' fd = true) by (unfold visible; rewrite H4, H5; reflexivity).
        destruct (B3 (ex_intro _ fd (conj H3 (conj Hv H6)))) as [B4 _]. lia.
  Qed.

  Lemma bound_all f : Bval f /\ Bcls f.
  Proof.
    induction f as [|f [A B]].
    - split; [intros ver t old s st v r st' _ E; discriminate E | intros ver c os s st fs v r st' E; discriminate E].
    - split; [apply val_step; assumption | apply cls_step; assumption].
  Qed.
End Bound.

(** ** number of bytes consumed and of objects created *)
Section Count.
  Variable G : genv.
  Definition objects (st : rstate) : nat := length (addresses (r_heap st)).
  Definition counted (x : nat) (s : bytes) (st : rstate) (r : bytes) (st' : rstate) : Prop :=
    (2 * objects st' + length r <= 2 * objects st + length s /\ x + length r <= length s) /\ incl (map fst (r_heap st)) (map fst (r_heap st')).
  Definition Cval (f : nat) : Prop := forall ver t old s st v r st', read G f ver t old s st = ROk (v, r, st') ->
    counted 0 s st r st' /\ (occupies G t -> counted 1 s st r st').
  Definition Ccls (f : nat) : Prop := forall ver c os s st fs v r st', read_cls G f ver c os s st = ROk (fs, v, r, st') ->
    counted 0 s st r st' /\ (occupies_class G c -> counted 1 s st r st').
  Lemma cboth (X : Prop) s st r st' : counted 1 s st r st' -> counted 0 s st r st' /\ (X -> counted 1 s st r st').
  Proof. intros B. split; [|auto]. destruct B as [[B1 B2] B3]. split; [split; lia|exact B3]. Qed.
  Lemma counted_trans x y a st b st1 c st2 : counted x a st b st1 -> counted y b st1 c st2 -> counted (x + y) a st c st2.
  Proof. intros [[A1 A2] A3] [[B1 B2] B3]. split; [split; lia|eapply incl_tran; eassumption]. Qed.
  Lemma objects_set h a c : length (addresses (hset h a c)) <= S (length (addresses h)).
  Proof. destruct (in_dec N.eq_dec a (map fst h)); [rewrite addresses_old by assumption; lia|rewrite addresses_new by assumption; cbn; lia]. Qed.
  Lemma loop_counted {S} (g : S -> res S) (w : S -> bytes * rstate) n a b :
    (forall a b, g a = ROk b -> counted 0 (fst (w a)) (snd (w a)) (fst (w b)) (snd (w b))) -> loopN n g a = ROk b ->
    counted 0 (fst (w a)) (snd (w a)) (fst (w b)) (snd (w b)).
  Proof.
    intros Hf. rewrite loopN_loopnat. generalize (N.to_nat n). clear n. intros n. revert a. induction n as [|n IH]; intros a E; cbn in E; [injection E as <-; split; [split; lia|apply incl_refl]|].
    apply rbind_ok in E. destruct E as (c & E1 & E2). apply Hf in E1. apply IH in E2. exact (counted_trans 0 0 _ _ _ _ _ _ E1 E2).
  Qed.
  Ltac prim := match goal with
    | E : rd_byte _ = ROk _ |- _ => apply (rd_byte_len 1 (le_n 1)) in E
    | E : rd_int _ _ = ROk _ |- _ => apply (rd_int_len 1 (le_n 1)) in E
    | E : rd_be 4 _ = ROk _ |- _ => apply (rd_be_len 1 (le_n 1)) in E; [|lia]
    | E : rd_be 8 _ = ROk _ |- _ => apply (rd_be_len 1 (le_n 1)) in E; [|lia]
    | E : rd_varint _ = ROk _ |- _ => apply (rd_varint_len 1 (le_n 1)) in E
    | E : rd_string _ = ROk _ |- _ => apply (rd_string_len 1 (le_n 1)) in E
    end.
  Ltac cfin := split; [split; lia|cbn [r_heap]; first [assumption | apply incl_refl]].
  Ltac useIH IH := match goal with R : read _ _ _ _ _ _ _ = ROk _ |- _ => let B := fresh "B" in destruct (IH _ _ _ _ _ _ _ _ R) as [B _]; clear R; destruct B as [[] ?] end.
  Ltac easy_case IH E := okb E; injection E as <- <- <-; apply cboth; prim; cfin.

  Lemma cval_step f : Cval f -> Ccls f -> Cval (S f).
  Proof.
    intros IH IHc ver t old s st v r st' E. rewrite read_S in E. unfold read_body in E.
    destruct t; try discriminate E.
    - easy_case IH E.
    - destruct (bin_kind k); [|discriminate]. easy_case IH E.
    - easy_case IH E.
    - easy_case IH E.
    - destruct (bin_kind k); [|discriminate]. easy_case IH E.
    - easy_case IH E.
    - destruct old as [| | | | | |olds| | | | | | |]; try discriminate. okb E. okb E. injection E as <- <- <-. prim.
      match goal with L : loopN _ _ _ = ROk _ |- _ => apply (loop_counted _ (fun x : list val * list val * bytes * rstate => let '(os, acc, s, st) := x in (s, st))) in L;
        [destruct L as [[L1 L2] L3]; cbn [fst snd] in *; apply cboth; cfin|] end.
      intros [[[os acc] sa] sta] [[[os' acc'] sb] stb] Es. okb Es. injection Es as <- <- <- <-. cbn [fst snd].
      match goal with R : read _ _ _ _ _ _ _ = ROk _ |- _ => exact (proj1 (IH _ _ _ _ _ _ _ _ R)) end.
    - destruct old as [| | | | | |olds| | | | | | |]; try discriminate. okb E. okb E. injection E as <- <- <-. prim.
      match goal with L : loopN _ _ _ = ROk _ |- _ => apply (loop_counted _ (fun x : list val * bytes * rstate => let '(l, s, st) := x in (s, st))) in L;
        [destruct L as [[L1 L2] L3]; cbn [fst snd] in *; apply cboth; cfin|] end.
      intros [[ll sa] sta] [[ll' sb] stb] Es. okb Es. injection Es as <- <- <-. cbn [fst snd].
      match goal with R : read _ _ _ _ _ _ _ = ROk _ |- _ => exact (proj1 (IH _ _ _ _ _ _ _ _ R)) end.
    - destruct old as [| | | | | |olds| | | | | | |]; try discriminate. okb E. okb E. injection E as <- <- <-. prim.
      match goal with L : loopN _ _ _ = ROk _ |- _ => apply (loop_counted _ (fun x : list val * bytes * rstate => let '(l, s, st) := x in (s, st))) in L;
        [destruct L as [[L1 L2] L3]; cbn [fst snd] in *; apply cboth; cfin|] end.
      intros [[ll sa] sta] [[ll' sb] stb] Es. okb Es. injection Es as <- <- <-. cbn [fst snd].
      match goal with R : read _ _ _ _ _ _ _ = ROk _ |- _ => exact (proj1 (IH _ _ _ _ _ _ _ _ R)) end.
    - destruct old as [| | | | | | |oa ob| | | | | |]; try discriminate. okb E. okb E. injection E as <- <- <-.
      match goal with R1 : read _ _ _ t1 _ _ _ = ROk _, R2 : read _ _ _ t2 ob _ _ = ROk _ |- _ =>
        destruct (IH _ _ _ _ _ _ _ _ R1) as [A1 A3]; destruct (IH _ _ _ _ _ _ _ _ R2) as [B1 B3] end.
      split; [exact (counted_trans 0 0 _ _ _ _ _ _ A1 B1)|]. intros O. inversion O as [? Hn _| ? ? O1 | ? ? O1 |]; subst.
      + exfalso. eapply Hn. reflexivity.
      + exact (counted_trans 1 0 _ _ _ _ _ _ (A3 O1) B1).
      + exact (counted_trans 0 1 _ _ _ _ _ _ A1 (B3 O1)).
    - okb E. destruct (N.eqb n 0); [injection E as <- <- <-; apply cboth; prim; cfin|]. okb E. injection E as <- <- <-. prim. useIH IH. apply cboth. cfin.
    - okb E. destruct (N.eqb n 0); [injection E as <- <- <-; apply cboth; prim; cfin|]. okb E. injection E as <- <- <-. prim. useIH IH. apply cboth. cfin.
    - okb E. destruct (N.eqb n 0); [injection E as <- <- <-; apply cboth; prim; cfin|].
      apply rbind_ok in E. destruct E as ([id s2] & Eid & E).
      assert (L2 : 1 * length s2 + 1 <= 1 * length b).
      { destruct (negb (N.eqb (N.land n 4) 0)); [apply (rd_be_len 1 (le_n 1)) in Eid; [exact Eid|lia] | apply (rd_varint_len 1 (le_n 1)) in Eid; exact Eid]. }
      prim. destruct (N.eqb (N.land n 3) 1).
      + apply rbind_ok in E. destruct E as ([[x s3] st2] & R & E). injection E as <- <- <-. destruct (IH _ _ _ _ _ _ _ _ R) as [[[B1 B2] B3] _].
        unfold objects in *. cbn [r_heap] in *. pose proof (objects_set (r_heap st) (g_alloc G (r_heap st)) (t, vinit G t)) as O1.
        assert (O2 : length (addresses (hset (r_heap st2) (g_alloc G (r_heap st)) (t, x))) <= length (addresses (r_heap st2))).
        { rewrite addresses_old; [lia|]. apply B3. left. reflexivity. }
        apply cboth. split; [unfold objects; cbn [r_heap]; split; lia|]. cbn [r_heap]. intros y Hy. right. apply B3. right. exact Hy.
      + destruct (alookup N.eqb id (r_ptr st)) as [[a' t'']|]; [|discriminate]. destruct (ty_eqb t'' t); [|discriminate].
        injection E as <- <- <-. apply cboth. cfin.
    - okb E. prim. destruct (nth_error ts (N.to_nat n)) as [t'|] eqn:En; [|discriminate].
      assert (X : (v = VVar (N.to_nat n) VMono /\ r = b /\ st' = st) \/ (exists x, v = VVar (N.to_nat n) x /\ read G f 0 t' (vinit G t') b st = ROk (x, r, st'))).
      { destruct t'; try (okb E; injection E as <- <- <-; right; eexists; split; [reflexivity|eassumption]). injection E as <- <- <-. left. auto. }
      destruct X as [(-> & -> & ->) | (x & -> & R)]; [apply cboth; cfin|]. useIH IH. apply cboth. cfin.
    - destruct old as [| | | | | | | | | | | | |os]; try discriminate. okb E. injection E as <- <- <-.
      match goal with R : read_cls _ _ _ _ _ _ _ = ROk _ |- _ => destruct (IHc _ _ _ _ _ _ _ _ _ R) as [A1 A3] end.
      split; [exact A1|]. intros O. inversion O as [? _ Hn| | |? O1]; subst; [exfalso; eapply Hn; reflexivity|]. exact (A3 O1).
    - easy_case IH E.
    - easy_case IH E.
  Qed.

  Lemma iter_counted {A} (g : A -> list (fkey * val) * bytes * rstate -> res (list (fkey * val) * bytes * rstate)) (P : A -> Prop) l :
    (forall x os s st os' s' st', In x l -> g x (os, s, st) = ROk (os', s', st') ->
       counted 0 s st s' st' /\ (P x -> counted 1 s st s' st')) ->
    forall os s st os' s' st', rd_iter g l (os, s, st) = ROk (os', s', st') ->
      counted 0 s st s' st' /\ ((exists x, In x l /\ P x) -> counted 1 s st s' st').
  Proof.
    induction l as [|x l IH]; intros Hg os s st os' s' st' E; cbn in E.
    - injection E as <- <- <-. split; [cfin|]. intros (x & [] & _).
    - apply rbind_ok in E. destruct E as ([[o1 s1] st1] & E1 & E2).
      destruct (Hg _ _ _ _ _ _ _ (or_introl eq_refl) E1) as [A1 A3].
      destruct (IH (fun x os s st os' s' st' Hin => Hg x os s st os' s' st' (or_intror Hin)) _ _ _ _ _ _ E2) as [B1 B3].
      split; [exact (counted_trans 0 0 _ _ _ _ _ _ A1 B1)|]. intros (y & [<- | Hy] & Py).
      + exact (counted_trans 1 0 _ _ _ _ _ _ (A3 Py) B1).
      + exact (counted_trans 0 1 _ _ _ _ _ _ A1 (B3 (ex_intro _ y (conj Hy Py)))).
  Qed.
  Lemma ccls_step f : Cval f -> Ccls f -> Ccls (S f).
  Proof.
    intros IH IHc ver c os s st fs v r st' E. rewrite read_cls_S in E. unfold read_cls_body in E.
    destruct (g_class G c) as [rc|] eqn:Ec; [|discriminate]. destruct (rc_rd rc) as [p|] eqn:Er; [|discriminate].
    apply rbind_ok in E. destruct E as ([[os1 s1] st1] & E1 & E). apply rbind_ok in E. destruct E as ([ver' s2] & E2 & E).
    apply rbind_ok in E. destruct E as ([[os3 s3] st3] & E3 & E). injection E as <- <- <- <-.
    apply (iter_counted _ (occupies_class G)) in E1.
    2:{ intros b os0 s0 st0 os0' s0' st0' _ Eb. apply rbind_ok in Eb. destruct Eb as ([[[o' w] q] st''] & R & Eb). injection Eb as <- <- <-.
        exact (IHc _ _ _ _ _ _ _ _ _ R). }
    apply (iter_counted _ (fun fd => visible ver' fd = true /\ occupies G (bf_ty fd))) in E3.
    2:{ intros fd os0 s0 st0 os0' s0' st0' Hin Eb. destruct (visible ver' fd).
        - destruct (alookup fkey_eqb (bf_key fd) os0) as [o|] eqn:El; [|discriminate]. apply rbind_ok in Eb. destruct Eb as ([[x q] st''] & R & Eb).
          injection Eb as <- <- <-. destruct (IH _ _ _ _ _ _ _ _ R) as [A1 A3]. split; [exact A1|]. intros [_ O]. exact (A3 O).
        - injection Eb as <- <- <-. split; [cfin|]. intros [X _]. discriminate. }
    destruct E1 as [A1 A3], E3 as [B1 B3].
    assert (L2 : counted (if N.eqb (bp_vmax p) 0 then 0 else 1) s1 st1 s2 st1).
    { destruct (N.eqb (bp_vmax p) 0); [injection E2 as _ <-; cfin|]. apply rbind_ok in E2. destruct E2 as ([w q] & R & E2). apply (rd_varint_len 1 (le_n 1)) in R.
      destruct (N.leb w (bp_vmax p)); [|discriminate]. injection E2 as _ <-. cfin. }
    assert (L3 : counted 0 s1 st1 s2 st1) by (destruct L2 as [[? ?] ?]; cfin).
    split; [exact (counted_trans 0 0 _ _ _ _ _ _ (counted_trans 0 0 _ _ _ _ _ _ A1 L3) B1)|].
    intros O. inversion O as [? rc' p' H1 H2 H3 | ? rc' p' b H1 H2 H3 H4 | ? rc' p' fd H1 H2 H3 H4 H5 H6]; subst;
        rewrite Ec in H1; injection H1 as <-; rewrite Er in H2; injection H2 as <-.
    - apply N.eqb_neq in H3. rewrite H3 in L2. exact (counted_trans 1 0 _ _ _ _ _ _ (counted_trans 0 1 _ _ _ _ _ _ A1 L2) B1).
    - exact (counted_trans 1 0 _ _ _ _ _ _ (counted_trans 1 0 _ _ _ _ _ _ (A3 (ex_intro _ b (conj H3 H4))) L3) B1).
    - assert (Hv : visible ver' fd = true) by (unfold visible; rewrite H4, H5; reflexivity).
      exact (counted_trans 0 1 _ _ _ _ _ _ (counted_trans 0 0 _ _ _ _ _ _ A1 L3) (B3 (ex_intro _ fd (conj H3 (conj Hv H6))))).
  Qed.
  Lemma count_all f : Cval f /\ Ccls f.
  Proof.
    induction f as [|f [A B]].
    - split; [intros ver t old s st v r st' E; discriminate E | intros ver c os s st fs v r st' E; discriminate E].
    - split; [apply cval_step; assumption | apply ccls_step; assumption].
  Qed.
End Count.

(** ** number of elements *)
Section Elements.
  Variable G : genv.
  Lemma emplace_length ismap ord multi t x l : place_ok G -> length (fst (emplace G ismap ord multi t x l)) <= S (length l).
  Proof.
    intros HP. destruct (emplace_cases G ismap ord multi t x l HP) as [[_ P]|[_ [E _]]].
    - rewrite <- (Permutation_length P). cbn. lia.
    - rewrite E. lia.
  Qed.

  Lemma loop_counted_elements f t n : forall os acc s st os' acc' s' st',
    occupies G t ->
    loopN n (fun '(os, acc, s, st) =>
      let o := match os with o :: _ => o | [] => vinit G t end in
      let! (x, s', st') := read G f 0 t o s st in ROk (tl os, x :: acc, s', st')) (os, acc, s, st) = ROk (os', acc', s', st') ->
    N.of_nat (length acc') = (N.of_nat (length acc) + n)%N /\ length acc' + length s' <= length acc + length s.
  Proof.
    intros os acc s st os' acc' s' st' O. rewrite loopN_loopnat. rewrite <- (N2Nat.id n) at 2. generalize (N.to_nat n). clear n. intros n. revert os acc s st.
    induction n as [|n IH]; intros os acc s st E; cbn in E; [injection E as <- <- <- <-; lia|].
    apply rbind_ok in E. destruct E as ([[[os1 acc1] s1] st1] & E1 & E2). apply rbind_ok in E1. destruct E1 as ([[x s2] st2] & R & E1). injection E1 as <- <- <- <-.
    destruct (proj1 (count_all G f) _ _ _ _ _ _ _ _ R) as [_ B]. destruct (B O) as [[_ B2] _]. apply IH in E2. destruct E2 as [A1 A2]. cbn [length] in *. lia.
  Qed.
  Lemma loop_counted_inserts f t old (ins : val -> list val -> list val) n l s st l' s' st' : (forall x l, length (ins x l) <= S (length l)) -> occupies G t ->
    loopN n (fun '(l, s, st) => let! (x, s', st') := read G f 0 t old s st in ROk (ins x l, s', st')) (l, s, st) = ROk (l', s', st') ->
    (n + N.of_nat (length s') <= N.of_nat (length s))%N /\ length l' + length s' <= length l + length s.
  Proof.
    intros HI O. rewrite loopN_loopnat. rewrite <- (N2Nat.id n) at 2. generalize (N.to_nat n). clear n. intros n. revert l s st.
    induction n as [|n IH]; intros l s st E; cbn in E; [injection E as <- <- <-; lia|].
    apply rbind_ok in E. destruct E as ([[l1 s1] st1] & E1 & E2). apply rbind_ok in E1. destruct E1 as ([[x s2] st2] & R & E1). injection E1 as <- <- <-.
    destruct (proj1 (count_all G f) _ _ _ _ _ _ _ _ R) as [_ B]. destruct (B O) as [[_ B2] _]. apply IH in E2. destruct E2 as [A1 A2]. pose proof (HI x l). lia.
  Qed.
End Elements.
