(** PropertiesReach.v -- property C18, the reading side *)
From Coq Require Import List NArith ZArith Bool Lia.
From Verif Require Import Base BaseFacts Bytes BytesFacts Types BinModel FuelFacts BinSpec BinFacts BinRoundTrip ExamplesEnv.
Import ListNotations.
Local Open Scope N_scope.
Lemma seq_items G f t n : forall os acc s st,
  (let! (_, acc', s2, st2) := loopnat n (fun '(os, acc, s, st) => let o := match os with o :: _ => o | [] => vinit G t end in
       let! (x, s', st') := read G f 0 t o s st in ROk (tl os, x :: acc, s', st')) (os, acc, s, st) in ROk (VList (rev acc'), s2, st2))
  = (let! (xs, s2, st2) := read_values G f (map (fun o => (0, t, o)) (firstn n os ++ repeat (vinit G t) (n - length os))) s st in ROk (VList (rev acc ++ xs), s2, st2)).
Proof.
  induction n as [|n IH]; intros os acc s st.
  - cbn. rewrite app_nil_r. reflexivity.
  - cbn [loopnat]. cbv zeta. assert (E : firstn (S n) os ++ repeat (vinit G t) (S n - length os) = (match os with o :: _ => o | [] => vinit G t end) :: (firstn n (tl os) ++ repeat (vinit G t) (n - length (tl os)))).
    { destruct os as [|o os]; cbn [firstn app tl length repeat Nat.sub]; [rewrite firstn_nil, Nat.sub_0_r; reflexivity|reflexivity]. }
    rewrite E. cbn [map read_values]. rewrite !rbind_assoc. apply rbind_ext. intros [[x s1] st1]. cbn [rbind]. rewrite IH. rewrite rbind_assoc.
    apply rbind_ext. intros [[xs s2] st2]. cbn [rbind rev]. rewrite <- app_assoc. reflexivity.
Qed.

(** C18, reading: the version is handed to classes only; elements of containers, pairs, optionals, smart pointers and variants are read with version 0 *)
Theorem C18_read_reach : forall G f,
  (forall ver c fs s st, read G (S f) ver (TStruct c) (VObj fs) s st = (let! (fs', _, s1, st1) := read_cls G f ver c fs s st in ROk (VObj fs', s1, st1)))
  /\ (forall ver t olds s st, read G (S f) ver (TSeq t) (VList olds) s st =
        (let! (n, s1) := rd_varint s in
         let! (xs, s2, st2) := read_values G f (map (fun o => (0, t, o)) (firstn (N.to_nat n) olds ++ repeat (vinit G t) (N.to_nat n - length olds))) s1 st in ROk (VList xs, s2, st2)))
  /\ (forall ver ord multi t olds s st, read G (S f) ver (TSet ord multi t) (VList olds) s st =
        (let! (n, s1) := rd_varint s in
         let! (xs, s2, st2) := read_values G f (repeat (0, t, dinit G t) (N.to_nat n)) s1 st in ROk (VList (emplace_all G false ord multi t xs olds), s2, st2)))
  /\ (forall ver ord multi kt vt olds s st, read G (S f) ver (TMap ord multi kt vt) (VList olds) s st =
        (let! (n, s1) := rd_varint s in
         let! (xs, s2, st2) := read_values G f (repeat (0, TPair kt vt, VPair (vinit G kt) (vinit G vt)) (N.to_nat n)) s1 st in ROk (VList (emplace_all G true ord multi kt xs olds), s2, st2)))
  /\ (forall ver ta tb a b s st, read G (S f) ver (TPair ta tb) (VPair a b) s st =
        (let! (x, s1, st1) := read G f 0 ta a s st in let! (y, s2, st2) := read G f 0 tb b s1 st1 in ROk (VPair x y, s2, st2)))
  /\ (forall ver t old s st, read G (S f) ver (TOptional t) old s st =
        (let! (n, s1) := rd_byte s in if n =? 0 then ROk (VOpt None, s1, st) else let! (x, s2, st2) := read G f 0 t (vinit G t) s1 st in ROk (VOpt (Some x), s2, st2)))
  /\ (forall ver t old s st, read G (S f) ver (TUnique t) old s st =
        (let! (n, s1) := rd_byte s in if n =? 0 then ROk (VOpt None, s1, st) else let! (x, s2, st2) := read G f 0 t (vinit G t) s1 st in ROk (VOpt (Some x), s2, st2)))
  /\ (forall ver t old mode s id s2 st, (mode < 256) -> N.land mode 3 = 1 -> (if negb (N.land mode 4 =? 0) then rd_be 8 s else rd_varint s) = ROk (id, s2) ->
        read G (S f) ver (TShared t) old (mkb mode :: s) st =
        (let a := g_alloc G (r_heap st) in
         let! (x, s3, st2) := read G f 0 t (vinit G t) s2 {| r_heap := hset (r_heap st) a (t, vinit G t); r_ptr := (id, (a, t)) :: r_ptr st |} in
         ROk (VShared (Some a), s3, {| r_heap := hset (r_heap st2) a (t, x); r_ptr := r_ptr st2 |})))
  /\ (forall ver ts i t old s st, (i < 256) -> nth_error ts (N.to_nat i) = Some t -> t <> TMono -> read G (S f) ver (TVariant ts) old (mkb i :: s) st =
        (let! (x, s2, st2) := read G f 0 t (vinit G t) s st in ROk (VVar (N.to_nat i) x, s2, st2))).
Proof.
  intros G f. split; [reflexivity|]. split; [|split; [|split; [|split; [reflexivity|split; [reflexivity|split; [reflexivity|split]]]]]].
  - intros ver t olds s st. rewrite read_S. cbn [read_body]. apply rbind_ext. intros [n s1]. rewrite loopN_loopnat. apply (seq_items G f t (N.to_nat n) olds []).
  - intros. apply read_set_merge.
  - intros. apply read_map_merge.
  - intros ver t old mode s id s2 st Hm H1 E. rewrite read_S. cbn [read_body rd_byte rbind]. rewrite bval_small by exact Hm.
    assert (mode =? 0 = false) as -> by (apply N.eqb_neq; intros ->; discriminate). rewrite E. cbn [rbind]. rewrite H1. reflexivity.
  - intros ver ts i t old s st Hi En Hm. rewrite read_S. cbn [read_body rd_byte rbind]. rewrite bval_small by exact Hi. rewrite En. destruct t; try reflexivity. contradiction.
Qed.
Print Assumptions C18_read_reach.

(** a shared pointer to an object with a version of its own, read with version 9: the object is read with version 0, that is, with the version found in the data *)
Example reach_instance :
  read GE 9 9 (TShared (TStruct 2)) (VShared None) (mkb 1 :: map mkb [0x85; 0x81; 0; 0; 0; 1; 0; 0; 0; 2; 0xff]) {| r_heap := []; r_ptr := [] |}
  = (let a := g_alloc GE [] in
     let! (x, s3, st2) := read GE 8 0 (TStruct 2) (vinit GE (TStruct 2)) (map mkb [0x81; 0; 0; 0; 1; 0; 0; 0; 2; 0xff]) {| r_heap := [(a, (TStruct 2, vinit GE (TStruct 2)))]; r_ptr := [(5, (a, TStruct 2))] |} in
     ROk (VShared (Some a), s3, {| r_heap := hset (r_heap st2) a (TStruct 2, x); r_ptr := r_ptr st2 |}))
  /\ exists st, read GE 9 9 (TShared (TStruct 2)) (VShared None) (mkb 1 :: map mkb [0x85; 0x81; 0; 0; 0; 1; 0; 0; 0; 2; 0xff]) {| r_heap := []; r_ptr := [] |} = ROk (VShared (Some 1), [mkb 0xff], st).
Proof.
  split; [|eexists; vm_compute; reflexivity].
  destruct (C18_read_reach GE 8) as (_ & _ & _ & _ & _ & _ & _ & H & _).
  exact (H 9 (TStruct 2) (VShared None) 1 (map mkb [0x85; 0x81; 0; 0; 0; 1; 0; 0; 0; 2; 0xff]) 5 (map mkb [0x81; 0; 0; 0; 1; 0; 0; 0; 2; 0xff]) {| r_heap := []; r_ptr := [] |} eq_refl eq_refl eq_refl).
Qed.
