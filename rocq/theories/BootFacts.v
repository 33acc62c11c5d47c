(** * Facts about the machine of Boot.v *)

From Coq Require Import NArith List Bool Lia Arith.
From Verif Require Import Boot.
Import ListNotations.
Open Scope N_scope.

(** ** Bits *)
Lemma w32_small : forall n, n < 2 ^ 32 -> w32 n = n.
Proof. intros. apply N.mod_small. assumption. Qed.
Lemma w32_lt : forall n, w32 n < 2 ^ 32.
Proof. intros. apply N.mod_lt. discriminate. Qed.
Lemma w32_idem : forall n, w32 (w32 n) = w32 n.
Proof. intros. apply w32_small, w32_lt. Qed.
Lemma w32_bit : forall n k, k < 32 -> N.testbit (w32 n) k = N.testbit n k.
Proof. intros. apply N.mod_pow2_bits_low. assumption. Qed.
Lemma high_bits : forall n k, n < 2 ^ k -> forall j, k <= j -> N.testbit n j = false.
Proof.
  intros n k H j Hj. destruct (N.eq_dec n 0) as [->|N0]; [apply N.bits_0|]. apply N.bits_above_log2. apply N.lt_le_trans with k; [|exact Hj]. apply N.log2_lt_pow2; lia.
Qed.
Lemma from_bits : forall n k, (forall j, k <= j -> N.testbit n j = false) -> n < 2 ^ k.
Proof.
  intros n k H. destruct (N.eq_dec n 0) as [->|N0]; [apply N.neq_0_lt_0, N.pow_nonzero; discriminate|].
  apply N.log2_lt_pow2; [lia|]. destruct (N.lt_ge_cases (N.log2 n) k) as [L|L]; [exact L|]. pose proof (H _ L) as F. rewrite N.bit_log2 in F by exact N0. discriminate F.
Qed.
Lemma lor_lt : forall a b k, a < 2 ^ k -> b < 2 ^ k -> N.lor a b < 2 ^ k.
Proof. intros a b k A B. apply from_bits. intros j J. rewrite N.lor_spec, (high_bits a k A j J), (high_bits b k B j J). reflexivity. Qed.
Lemma land_lt : forall a b k, a < 2 ^ k -> N.land a b < 2 ^ k.
Proof. intros a b k A. apply from_bits. intros j J. rewrite N.land_spec, (high_bits a k A j J). reflexivity. Qed.
Lemma land_lt_r : forall a b k, b < 2 ^ k -> N.land a b < 2 ^ k.
Proof. intros a b k A. rewrite N.land_comm. apply land_lt. exact A. Qed.
Lemma ldiff_lt : forall a b k, a < 2 ^ k -> N.ldiff a b < 2 ^ k.
Proof. intros a b k A. apply from_bits. intros j J. rewrite N.ldiff_spec, (high_bits a k A j J). reflexivity. Qed.
Lemma lxor_lt : forall a b k, a < 2 ^ k -> b < 2 ^ k -> N.lxor a b < 2 ^ k.
Proof. intros a b k A B. apply from_bits. intros j J. rewrite N.lxor_spec, (high_bits a k A j J), (high_bits b k B j J). reflexivity. Qed.
Lemma lor_bit_self : forall a k, N.testbit (N.lor a (2 ^ k)) k = true.
Proof. intros. rewrite N.lor_spec, N.pow2_bits_true. apply orb_true_r. Qed.
Lemma lor_bit_other : forall a k j, j <> k -> N.testbit (N.lor a (2 ^ k)) j = N.testbit a j.
Proof. intros. rewrite N.lor_spec, N.pow2_bits_false by auto. apply orb_false_r. Qed.

(** A mask of bits is contained in a value if each bit is set. *)
Definition bits_of (l : list N) : N := fold_right (fun k a => N.lor (2 ^ k) a) 0 l.
Lemma mask_bits : forall l x, N.land x (bits_of l) = bits_of l <-> forallb (N.testbit x) l = true.
Proof.
  intros l x. rewrite forallb_forall. split.
  - intros E k Hk. assert (B : N.testbit (bits_of l) k = true).
    { clear E. induction l as [|a l IH]; [destruct Hk|]. cbn [bits_of fold_right]. rewrite N.lor_spec. destruct Hk as [->|Hk]; [rewrite N.pow2_bits_true; reflexivity|].
      fold (bits_of l). rewrite IH by exact Hk. apply orb_true_r. }
    rewrite <- E, N.land_spec in B. apply andb_true_iff in B as [B _]. exact B.
  - intros H. apply N.bits_inj. intros k. rewrite N.land_spec. destruct (N.testbit (bits_of l) k) eqn:B; [|apply andb_false_r]. rewrite andb_true_r.
    revert B H. induction l as [|a l IH]; cbn [bits_of fold_right]; intros B H; [rewrite N.bits_0 in B; discriminate|].
    rewrite N.lor_spec in B. apply orb_true_iff in B as [B|B].
    + destruct (N.eq_dec a k) as [->|D]; [apply H; left; reflexivity|]. rewrite N.pow2_bits_false in B by auto. discriminate.
    + apply IH; [exact B|]. intros y Hy. apply H. right. exact Hy.
Qed.

(** ** Memory *)
Lemma peek_lt : forall n m a, (forall x, m x < 256) -> peek m a n < 256 ^ N.of_nat n.
Proof.
  induction n as [|n IH]; intros m a H; [cbn; lia|]. cbn [peek]. specialize (IH m (a + 1) H). specialize (H a).
  replace (N.of_nat (S n)) with (N.succ (N.of_nat n)) by lia. rewrite N.pow_succ_r'. lia.
Qed.
Lemma poke_out : forall n m a v x, x < a \/ a + N.of_nat n <= x -> poke m a v n x = m x.
Proof.
  induction n as [|n IH]; intros m a v x H; [reflexivity|]. cbn [poke]. rewrite IH by lia. unfold poke_byte. destruct (N.eqb_spec x a); [lia|reflexivity].
Qed.
Lemma peek_ext : forall n m m' a, (forall x, a <= x < a + N.of_nat n -> m x = m' x) -> peek m a n = peek m' a n.
Proof.
  induction n as [|n IH]; intros m m' a H; [reflexivity|]. cbn [peek]. rewrite (H a) by lia. rewrite (IH m m' (a + 1)) by (intros x Hx; apply H; lia). reflexivity.
Qed.
Lemma peek_poke : forall n m a v, v < 256 ^ N.of_nat n -> peek (poke m a v n) a n = v.
Proof.
  induction n as [|n IH]; intros m a v H; [cbn in *; lia|]. cbn [peek poke].
  replace (N.of_nat (S n)) with (N.succ (N.of_nat n)) in H by lia. rewrite N.pow_succ_r' in H.
  rewrite IH by (apply N.div_lt_upper_bound; lia). rewrite poke_out by lia. unfold poke_byte. rewrite N.eqb_refl.
  pose proof (N.div_mod v 256 ltac:(lia)). lia.
Qed.
Lemma peek_other : forall n k m a b v, a + N.of_nat n <= b \/ b + N.of_nat k <= a -> peek (poke m b v k) a n = peek m a n.
Proof. intros. apply peek_ext. intros x Hx. apply poke_out. lia. Qed.
Lemma poke_byte_lt : forall n m a v, (forall x, m x < 256) -> forall x, poke m a v n x < 256.
Proof.
  induction n as [|n IH]; intros m a v H x; [apply H|]. cbn [poke]. apply IH. intros y. unfold poke_byte. destruct (y =? a); [apply N.mod_lt; discriminate|apply H].
Qed.
Lemma peek_split : forall n k m a, peek m a (n + k) = peek m a n + 256 ^ N.of_nat n * peek m (a + N.of_nat n) k.
Proof.
  induction n as [|n IH]; intros k m a; [cbn [peek Nat.add N.of_nat]; rewrite N.add_0_r, N.pow_0_r; lia|].
  cbn [Nat.add peek]. rewrite IH. replace (N.of_nat (S n)) with (N.succ (N.of_nat n)) by lia. rewrite N.pow_succ_r'. replace (a + 1 + N.of_nat n) with (a + N.succ (N.of_nat n)) by lia. lia.
Qed.

(** Addresses below 4 GiB mean themselves. *)
Definition flat (s : state) : Prop := forall v, v < 2 ^ 32 -> translate s v = Some (mkMap v true true).
Lemma flat_off : forall s, paging s = false -> flat s.
Proof. intros s H v Hv. unfold translate. rewrite H. cbn [negb]. destruct (N.ltb_spec v (2 ^ 32)); [reflexivity|lia]. Qed.
Lemma flat_load : forall s, flat s -> forall n a, a + N.of_nat n <= 2 ^ 32 -> load s a n = Some (peek (mem s) a n).
Proof.
  intros s F. induction n as [|n IH]; intros a H; [reflexivity|]. cbn [load peek]. rewrite F, IH by lia. reflexivity.
Qed.
Lemma flat_store : forall s, flat s -> forall n m a v, a + N.of_nat n <= 2 ^ 32 -> store s m a v n = Some (poke m a v n).
Proof.
  intros s F. induction n as [|n IH]; intros m a v H; [reflexivity|]. cbn [store poke]. rewrite F by lia. cbn [writable phys]. apply IH. lia.
Qed.
Lemma flat_push : forall s v n, flat s -> N.of_nat n <= rsp s -> rsp s <= 2 ^ 32 ->
  push s v n = Some (set_mem (set s SP (rsp s - N.of_nat n)) (poke (mem s) (rsp s - N.of_nat n) v n)).
Proof. intros s v n F H1 H2. unfold push. rewrite flat_store by (try exact F; lia). reflexivity. Qed.
Lemma flat_fetched : forall s a, flat s -> a < 2 ^ 32 -> fetched s a = true.
Proof. intros s a F H. unfold fetched. rewrite F by exact H. cbn [executable phys andb]. apply N.eqb_refl. Qed.

(** ** Page tables *)
Record tables (m : N -> N) (L : layout) : Prop := mkTables {
  t_top : peek m (pml4 L) 8 = N.lor (pdpt L) 3;
  t_page : forall k, k < 4 -> peek m (pdpt L + 8 * k) 8 = k * 2 ^ 30 + 131 }.
Lemma index_low : forall v, v < 2 ^ 32 -> index v 4 = 0 /\ index v 3 = v / 2 ^ 30 /\ v / 2 ^ 30 < 4.
Proof.
  intros v H. unfold index. change (2 ^ (12 + 9 * (4 - 1))) with (2 ^ 39). change (2 ^ (12 + 9 * (3 - 1))) with (2 ^ 30).
  assert (v / 2 ^ 30 < 4) by (apply N.div_lt_upper_bound; lia). rewrite (N.div_small v (2 ^ 39)) by lia. rewrite (N.mod_small (v / 2 ^ 30)) by lia. auto.
Qed.
Lemma align_addr : forall a, a mod 4096 = 0 -> a < 2 ^ 32 -> N.land a ADDR = a /\ N.land (N.lor a 3) ADDR = a /\ (forall k, k < 12 -> N.testbit a k = false).
Proof.
  intros a H L. assert (B : forall k, k < 12 -> N.testbit a k = false).
  { intros k Hk. pose proof (N.div_mod a 4096 ltac:(discriminate)) as D. rewrite H, N.add_0_r in D. rewrite D. change 4096 with (2 ^ 12). rewrite N.mul_comm. apply N.mul_pow2_bits_low. exact Hk. }
  assert (E : N.land a ADDR = a).
  { apply N.bits_inj. intros k. rewrite N.land_spec. destruct (N.lt_ge_cases k 12) as [K|K]; [rewrite B by exact K; reflexivity|].
    destruct (N.lt_ge_cases k 32) as [K2|K2]; [|rewrite (high_bits a 32 L k K2); reflexivity].
    change ADDR with (N.shiftl (N.ones 40) 12). rewrite N.shiftl_spec_high', N.ones_spec_low by lia. apply andb_true_r. }
  split; [exact E|]. split; [|exact B]. rewrite N.land_lor_distr_l, E. change (N.land 3 ADDR) with 0. apply N.lor_0_r.
Qed.
Lemma page_entry : forall k, k < 4 -> let e := k * 2 ^ 30 + 131 in
  N.testbit e 0 = true /\ N.testbit e 1 = true /\ N.testbit e 7 = true /\ N.testbit e 63 = false /\ N.land e 0x3FFFE000 = 0 /\ N.land e 0xFFFFFC0000000 = k * 2 ^ 30.
Proof.
  intros k H. assert (K : k = 0 \/ k = 1 \/ k = 2 \/ k = 3) by lia. destruct K as [->|[->|[->| ->]]]; repeat split; vm_compute; reflexivity.
Qed.
Lemma flat_on : forall s L, tables (mem s) L -> pml4 L mod 4096 = 0 -> pdpt L mod 4096 = 0 -> pml4 L < 2 ^ 32 -> pdpt L < 2 ^ 32 ->
  long s = true -> N.testbit (cr4 s) 12 = false -> cr3 s = pml4 L -> flat s.
Proof.
  intros s L [T P] A4 A3 L4 L3 HL H5 H3 v Hv. unfold translate. rewrite HL, H5, H3. cbn [negb].
  destruct (N.ltb_spec v (2 ^ 32)) as [_|]; [|lia]. destruct (paging s); [cbn [negb]|reflexivity].
  destruct (index_low v Hv) as (I4 & I3 & I3').
  assert (C : canonical false v = true) by (unfold canonical; rewrite (N.div_small v (2 ^ 47)) by lia; reflexivity). rewrite C.
  destruct (align_addr _ A4 L4) as (E4 & _ & _). destruct (align_addr _ A3 L3) as (_ & E3 & B3). rewrite E4.
  change 5%nat with (S (S 3%nat)). cbn [walk]. rewrite I4. change (8 * 0) with 0. rewrite N.add_0_r, T.
  assert (Hi : N.testbit (pdpt L) 63 = false) by (apply (high_bits _ 32 L3); lia).
  rewrite !N.lor_spec, Hi, !B3 by lia. change (N.testbit 3 0) with true. change (N.testbit 3 1) with true. change (N.testbit 3 7) with false. change (N.testbit 3 63) with false.
  cbn [orb negb andb]. rewrite !andb_false_r. cbn [negb andb]. change (4 =? 1) with false. cbv iota. rewrite E3. change (4 - 1) with 3. rewrite I3, P by exact I3'.
  destruct (page_entry (v / 2 ^ 30) I3') as (b0 & b1 & b7 & b63 & R & Fr). cbv zeta in *. rewrite b0, b1, b7, b63, R, Fr. rewrite !andb_false_r. cbn [negb andb].
  change (3 =? 1) with false. change (3 =? 3) with true. change (0 =? 0) with true. cbn [andb]. cbv iota.
  do 2 f_equal. pose proof (N.div_mod v (2 ^ 30) ltac:(discriminate)) as D. rewrite (N.mul_comm (2 ^ 30)) in D. symmetry. exact D.
Qed.
