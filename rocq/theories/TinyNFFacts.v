(** * Facts about the driver's loop: the invariant of every interleaving with the hardware *)

From Coq Require Import NArith ZArith List Bool Lia Arith.
From Verif Require Import TinyNF.
Import ListNotations.
Open Scope N_scope.

(** ** Arithmetic of ring positions *)

Lemma slot_inj : forall i j, i mod 256 = j mod 256 -> i < j + 256 -> j < i + 256 -> i = j.
Proof.
  intros i j E A B. pose proof (N.div_mod' i 256). pose proof (N.div_mod' j 256).
  generalize dependent (i / 256). generalize dependent (j / 256). intros. generalize dependent (i mod 256). intros. subst. lia.
Qed.

Lemma bump_mod : forall q, bump (q mod 256) = (q + 1) mod 256.
Proof.
  intros q. unfold bump, ring_size. change (256 - 1) with (N.ones 8). rewrite N.land_ones. change (2 ^ 8) with 256.
  rewrite N.add_mod_idemp_l by lia. reflexivity.
Qed.

Lemma next_slot : forall r, (r mod 256 + 1) mod ring_size = (r + 1) mod 256.
Proof. intros r. unfold ring_size. rewrite N.add_mod_idemp_l by lia. reflexivity. Qed.

Lemma head_diff_val : forall a q, a < q -> q < a + 256 ->
  head_diff (a mod 256) (q mod 256) =
  if q mod 256 <? a mod 256 then a mod 256 - q mod 256 else 2 ^ 64 - (q mod 256 - a mod 256).
Proof.
  intros a q A B. assert (NE : a mod 256 <> q mod 256) by (intros E; apply slot_inj in E; lia).
  pose proof (N.mod_lt a 256 ltac:(lia)). pose proof (N.mod_lt q 256 ltac:(lia)).
  unfold head_diff. generalize dependent (a mod 256). generalize dependent (q mod 256). intros x X y NE Y.
  change (2 ^ 64) with 18446744073709551616. destruct (N.ltb_spec x y).
  - replace (y + 18446744073709551616 - x) with (y - x + 1 * 18446744073709551616) by lia.
    rewrite N.mod_add by lia. apply N.mod_small. lia.
  - rewrite N.mod_small by lia. lia.
Qed.

Lemma head_diff_mono : forall a b q, a < q -> q < a + 256 -> b < q -> q < b + 256 ->
  (head_diff (a mod 256) (q mod 256) <= head_diff (b mod 256) (q mod 256) <-> a <= b).
Proof.
  intros a b q A A' B B'. rewrite !head_diff_val by assumption.
  pose proof (N.mod_lt a 256 ltac:(lia)). pose proof (N.mod_lt q 256 ltac:(lia)). pose proof (N.mod_lt b 256 ltac:(lia)).
  pose proof (N.div_mod' a 256) as Da. pose proof (N.div_mod' b 256) as Db. pose proof (N.div_mod' q 256) as Dq.
  change (2 ^ 64) with 18446744073709551616.
  generalize dependent (a mod 256). generalize dependent (q mod 256). generalize dependent (b mod 256).
  generalize dependent (a / 256). generalize dependent (q / 256). generalize dependent (b / 256).
  intros. destruct (N.ltb_spec n3 n4); destruct (N.ltb_spec n3 n2); lia.
Qed.

Lemma head_diff_max : forall h p, head_diff h p <= 2 ^ 64 - 1.
Proof. intros h p. unfold head_diff. pose proof (N.mod_lt (h + 2 ^ 64 - p) (2 ^ 64) ltac:(lia)). lia. Qed.

Lemma tail_of_mod : forall c, tail_of (c mod 256) = (c + 255) mod 256.
Proof.
  intros c. unfold tail_of, ring_size. change (256 - 1) with (N.ones 8). rewrite N.land_ones. change (2 ^ 8) with 256.
  pose proof (N.mod_lt c 256 ltac:(lia)) as L. rewrite <- (N.add_mod_idemp_l c 255) by lia. generalize dependent (c mod 256).
  intros y L. change (2 ^ 32) with 4294967296. destruct (N.eq_dec y 0) as [->|NZ]; [reflexivity|].
  replace (y + 4294967296 - 1) with (y - 1 + 1 * 4294967296) by lia. rewrite N.mod_add by lia.
  rewrite (N.mod_small (y - 1) 4294967296) by lia. replace (y + 255) with (y - 1 + 1 * 256) by lia. rewrite N.mod_add by lia. reflexivity.
Qed.

(** ** Descriptors *)

Lemma bits16 : forall a b, a < 65536 -> N.land a (N.shiftl b 16) = 0.
Proof.
  intros a b L. apply N.bits_inj. intros i. rewrite N.bits_0, N.land_spec. destruct (N.ltb_spec i 16).
  - rewrite N.shiftl_spec_low by lia. apply andb_false_r.
  - replace a with (a mod 2 ^ 16) by (apply N.mod_small; exact L). rewrite N.mod_pow2_bits_high by lia. reflexivity.
Qed.

Lemma tx_meta_len : forall len p, len < 65536 -> N.land (tx_meta len p) 65535 = len.
Proof.
  intros len p L. unfold tx_meta. rewrite !N.land_lor_distr_l.
  replace (N.land (rs_bit p) 65535) with 0 by (unfold rs_bit; destruct (_ =? _); reflexivity).
  replace (N.land (bitl 25) 65535) with 0 by reflexivity. replace (N.land (bitl 24) 65535) with 0 by reflexivity.
  rewrite !N.lor_0_r. change 65535 with (N.ones 16). rewrite N.land_ones. apply N.mod_small. exact L.
Qed.

Lemma tx_meta_undone : forall len p, len < 65536 -> N.land (tx_meta len p) (bitl 32) = 0.
Proof.
  intros len p L. unfold tx_meta. rewrite !N.land_lor_distr_l.
  replace (N.land (rs_bit p) (bitl 32)) with 0 by (unfold rs_bit; destruct (_ =? _); reflexivity).
  replace (N.land (bitl 25) (bitl 32)) with 0 by reflexivity. replace (N.land (bitl 24) (bitl 32)) with 0 by reflexivity.
  rewrite !N.lor_0_r. apply (bits16 len 65536 L).
Qed.

Lemma tx_meta_flags : forall len p, len < 65536 ->
  N.ldiff (N.shiftr (tx_meta len p) 16) (N.shiftr (bitl 27) 16) = 768.
Proof.
  intros len p L. unfold tx_meta. rewrite !N.shiftr_lor. replace (N.shiftr len 16) with 0.
  - unfold rs_bit. destruct (_ =? _); reflexivity.
  - symmetry. rewrite N.shiftr_div_pow2. apply N.div_small. exact L.
Qed.

Lemma rs_iff : forall q, rs_bit (q mod 256) = 0 <-> q mod 64 <> 63.
Proof.
  intros q. unfold rs_bit, recycle_period. change (64 - 1) with (N.ones 6). rewrite N.land_ones. change (2 ^ 6) with 64.
  replace ((q mod 256) mod 64) with (q mod 64).
  - change (N.ones 6) with 63. destruct (N.eqb_spec (q mod 64) 63) as [E|E]; split; intros H; try congruence; try reflexivity.
    vm_compute in H. discriminate.
  - change 256 with (64 * 4). rewrite N.mod_mul_r by lia. rewrite N.mul_comm, N.mod_add by lia. rewrite N.mod_mod by lia. reflexivity.
Qed.

(** ** Lists *)

Lemma nth_set_nth : forall l n m v, nth m (set_nth l n v) 0 = if (Nat.eqb m n && Nat.ltb n (length l))%bool then v else nth m l 0.
Proof.
  induction l as [|a l IH]; intros n m v.
  - cbn. rewrite andb_false_r. destruct m; reflexivity.
  - destruct n as [|n], m as [|m]; cbn [set_nth nth Nat.eqb length]; try reflexivity.
    rewrite IH. replace (Nat.ltb (S n) (S (length l))) with (Nat.ltb n (length l)); [reflexivity|].
    destruct (Nat.ltb_spec n (length l)), (Nat.ltb_spec (S n) (S (length l))); auto; lia.
Qed.

Lemma set_nth_repeat : forall (l : list N) k, (k < length l)%nat ->
  set_nth (repeat 0 k ++ skipn k l)%list k 0 = (repeat 0 (S k) ++ skipn (S k) l)%list.
Proof.
  intros l k. revert l. induction k as [|k IH]; intros [|a l] L; cbn [length] in L; try lia.
  - reflexivity.
  - cbn [repeat skipn app set_nth]. f_equal. rewrite IH by lia. destruct l; [cbn in L; lia|]. reflexivity.
Qed.

Lemma nth_repeat_skipn : forall (l : list N) k, nth k (repeat 0 k ++ skipn k l)%list 0 = nth k l 0.
Proof.
  intros l k. rewrite app_nth2; rewrite repeat_length; [|lia]. rewrite Nat.sub_diag. revert l.
  induction k as [|k IH]; intros [|a l]; try reflexivity. cbn [skipn nth]. apply IH.
Qed.

Lemma firstn_snoc : forall {A} (l : list A) k x, nth_error l k = Some x -> firstn (S k) l = (firstn k l ++ [x])%list.
Proof.
  induction l as [|a l IH]; intros [|k] x H; cbn [nth_error] in H; try discriminate.
  - injection H as ->. reflexivity.
  - cbn [firstn app]. f_equal. change (firstn (S k) l = (firstn k l ++ [x])%list). apply IH. exact H.
Qed.

Section Facts.
Context {D X : Type}.
Variable handler : X -> D -> N -> list N -> X * D * list N.
Variable outs : nat.
Hypothesis outs_pos : (0 < outs)%nat.
Hypothesis H_sane : sane_handler handler outs.
Variable x0 : X.

Notation agent := (@agent D X).

Lemma to_send_app : forall n (a b : list (D * list N)), to_send n (a ++ b) = (to_send n a ++ to_send n b)%list.
Proof.
  induction a as [|[d l] a IH]; intros b; [reflexivity|]. cbn [app to_send]. rewrite IH. destruct (nth n l 0 =? 0); reflexivity.
Qed.

Lemma nf_run_snoc : forall ps x d len, nf_run handler outs x (ps ++ [(d, len)]) =
  let '(x', os) := nf_run handler outs x ps in
  let '(x'', d', l) := handler x' d len (repeat 0 outs) in (x'', (os ++ [(d', l)])%list).
Proof.
  induction ps as [|[d1 l1] ps IH]; intros x d len.
  - cbn [app nf_run]. destruct (handler x d len (repeat 0 outs)) as [[x'' d'] l]. reflexivity.
  - cbn [app nf_run]. destruct (handler x d1 l1 (repeat 0 outs)) as [[x1 d1'] l1']. rewrite IH.
    destruct (nf_run handler outs x1 ps) as [x2 os]. destruct (handler x2 d len (repeat 0 outs)) as [[x3 d'] l]. reflexivity.
Qed.

(** [q]: descriptors passed by the driver; [t n]: sent by output [n]; [w n]: reported back;
    [f n]: given to it; [rt]: lent to the receiver. All count from the start. *)
Definition pcinv (s : agent) (q rt : N) (w f : nat -> N) : Prop :=
  match apc s with
  | Poll fc => fc < 8 /\ (forall n, (n < outs)%nat -> f n + fc = q) /\ lens s = repeat 0 outs /\ N.of_nat (length (handled s)) = q
  | Handle fc len => fc < 8 /\ (forall n, (n < outs)%nat -> f n + fc = q) /\ lens s = repeat 0 outs /\ N.of_nat (length (handled s)) = q /\
      exists d, nth_error (rx s) (N.to_nat q) = Some (d, len)
  | Desc fc k => fc < 8 /\ (forall n, (n < outs)%nat -> f n + fc = q) /\ (k <= outs)%nat /\ N.of_nat (length (handled s)) = q + 1 /\
      exists d l, nth_error (handled s) (N.to_nat q) = Some (d, l) /\ buf s (q mod 256) = d /\
        lens s = (repeat 0 k ++ skipn k l)%list /\
        forall n, (n < k)%nat -> ring s n (q mod 256) = tx_meta (nth n l 0) (q mod 256)
  | Heads fc k e m => fc < 8 /\ (forall n, (n < outs)%nat -> f n + fc + 1 = q) /\ lens s = repeat 0 outs /\ N.of_nat (length (handled s)) = q /\
      (k <= outs)%nat /\ ((k = 0%nat /\ m = 2 ^ 64 - 1) \/
        exists c, rt <= c + 255 /\ (forall j, (j < k)%nat -> c <= w j) /\ c < q /\ q < c + 256 /\ e = c mod 256 /\ m = head_diff e (delim s))
  | Flush k => (k <= outs)%nat /\ (forall n, (n < k)%nat -> f n = q) /\ lens s = repeat 0 outs /\ N.of_nat (length (handled s)) = q
  end.

Record inv (s : agent) (q rt : N) (w t f : nat -> N) : Prop := {
  i_delim : delim s = q mod 256;
  i_rdh : rdh s = N.of_nat (length (rx s)) mod 256;
  i_rdt : rdt s = rt mod 256;
  i_hr : N.of_nat (length (handled s)) <= N.of_nat (length (rx s));
  i_qh : q <= N.of_nat (length (handled s));
  i_rrt : N.of_nat (length (rx s)) <= rt;
  i_out : forall n, (n < outs)%nat -> rt <= w n + 255 /\ w n <= t n /\ t n <= f n /\ f n <= q /\
    heads s n = w n mod 256 /\ tdh s n = t n mod 256 /\ tdt s n = f n mod 256;
  i_recv : forall i, N.of_nat (length (handled s)) <= i -> i < N.of_nat (length (rx s)) ->
    exists d, nth_error (rx s) (N.to_nat i) = Some (d, N.land (ring s 0%nat (i mod 256)) 65535) /\ buf s (i mod 256) = d /\
      N.land (ring s 0%nat (i mod 256)) (bitl 32) <> 0;
  i_free : forall i, N.of_nat (length (rx s)) <= i -> i < q + 256 -> N.land (ring s 0%nat (i mod 256)) (bitl 32) = 0;
  i_send : forall n i, (n < outs)%nat -> t n <= i -> i < q -> exists d l, nth_error (handled s) (N.to_nat i) = Some (d, l) /\
    ring s n (i mod 256) = tx_meta (nth n l 0) (i mod 256) /\ buf s (i mod 256) = d;
  i_tx : forall n, (n < outs)%nat -> tx s n = to_send n (firstn (N.to_nat (t n)) (handled s));
  i_nf : (nf s, handled s) = nf_run handler outs x0 (firstn (length (handled s)) (rx s));
  i_lens : Forall (fun o => length (snd o) = outs /\ Forall (fun v => v < 65536) (snd o)) (handled s);
  i_pc : pcinv s q rt w f }.

Lemma len16 : forall m, N.land m 65535 < 65536.
Proof. intros m. change 65535 with (N.ones 16). rewrite N.land_ones. apply N.mod_lt. discriminate. Qed.

Lemma nth_lt16 : forall (l : list N) n, Forall (fun v => v < 65536) l -> nth n l 0 < 65536.
Proof.
  intros l n F. destruct (nth_in_or_default n l 0) as [I|E].
  - rewrite Forall_forall in F. apply F, I.
  - rewrite E. lia.
Qed.

Lemma inv_start : forall junk, inv (started outs x0 junk) 0 255 (fun _ => 0) (fun _ => 0) (fun _ => 0).
Proof.
  intros junk. constructor; cbn [started delim rdh rdt rx handled heads tdh tdt ring buf tx nf lens apc pcinv length N.of_nat].
  - reflexivity.
  - reflexivity.
  - reflexivity.
  - lia.
  - lia.
  - lia.
  - intros n _. repeat (split; [lia|]). split; [reflexivity|]. split; reflexivity.
  - intros i A B. lia.
  - intros i _ _. reflexivity.
  - intros n i _ A B. lia.
  - intros n _. reflexivity.
  - reflexivity.
  - constructor.
  - unfold pcinv. cbn. repeat split; intros; lia.
Qed.


Lemma updN_same : forall {A} (g : N -> A) k v, updN g k v k = v.
Proof. intros. unfold updN. rewrite N.eqb_refl. reflexivity. Qed.
Lemma updN_other : forall {A} (g : N -> A) k v m, m <> k -> updN g k v m = g m.
Proof. intros. unfold updN. rewrite (proj2 (N.eqb_neq m k)) by assumption. reflexivity. Qed.
Lemma upd_same : forall {A} (g : nat -> A) k v, upd g k v k = v.
Proof. intros. unfold upd. rewrite Nat.eqb_refl. reflexivity. Qed.
Lemma upd_other : forall {A} (g : nat -> A) k v m, m <> k -> upd g k v m = g m.
Proof. intros. unfold upd. rewrite (proj2 (Nat.eqb_neq m k)) by assumption. reflexivity. Qed.

Ltac simp := cbn [delim rdh rdt rx handled heads tdh tdt ring buf tx nf lens apc].
Ltac simp_in H := cbn [delim rdh rdt rx handled heads tdh tdt ring buf tx nf lens apc] in H.

Lemma inv_recv : forall s q rt w t f d meta s', inv s q rt w t f -> step handler outs (Recv d meta) s = Some s' ->
  inv s' q rt w t f.
Proof.
  intros s q rt w t f d meta s' I H. cbn [step] in H.
  destruct (N.eqb_spec (rdh s) (rdt s)) as [E|E]; [discriminate|].
  destruct (N.eqb_spec (N.land meta (bitl 32)) 0) as [E0|E0]; [discriminate|].
  destruct (2 ^ 64 <=? meta); [discriminate|]. cbn [orb] in H.
  pose proof (i_rrt _ _ _ _ _ _ I) as RR. pose proof (i_hr _ _ _ _ _ _ I) as HR. pose proof (i_qh _ _ _ _ _ _ I) as QH.
  rewrite (i_rdh _ _ _ _ _ _ I), (i_rdt _ _ _ _ _ _ I) in E.
  set (r := N.of_nat (length (rx s))) in *.
  assert (RL : r < rt). { apply N.le_neq. split; [exact RR|]. intros E1. apply E. rewrite E1. reflexivity. }
  assert (LEN : N.of_nat (length (rx s ++ [(d, N.land meta 65535)])) = r + 1).
  { rewrite app_length. cbn [length]. unfold r. lia. }
  pose proof (proj1 (i_out _ _ _ _ _ _ I 0%nat outs_pos)) as RW. destruct (i_out _ _ _ _ _ _ I 0%nat outs_pos) as (_ & W0 & T0 & F0 & _).
  injection H as <-. rewrite (i_rdh _ _ _ _ _ _ I). fold r. constructor; simp; rewrite ?LEN.
  - apply (i_delim _ _ _ _ _ _ I).
  - apply next_slot.
  - apply (i_rdt _ _ _ _ _ _ I).
  - lia.
  - exact QH.
  - lia.
  - apply (i_out _ _ _ _ _ _ I).
  - intros i A B. rewrite upd_same. destruct (N.eq_dec i r) as [->|NE].
    + exists d. rewrite !updN_same. split; [|split; [reflexivity|exact E0]].
      rewrite nth_error_app2 by (unfold r; lia). replace (N.to_nat r - length (rx s))%nat with 0%nat by (unfold r; lia). reflexivity.
    + assert (i mod 256 <> r mod 256) by (intros C; apply slot_inj in C; lia).
      rewrite !updN_other by assumption. destruct (i_recv _ _ _ _ _ _ I i A ltac:(fold r; lia)) as (d' & X1 & X2 & X3). exists d'. split; [|auto].
      rewrite nth_error_app1; [exact X1|]. unfold r in *. lia.
  - intros i A B. rewrite upd_same, updN_other; [|intros C; apply slot_inj in C; lia]. apply (i_free _ _ _ _ _ _ I); fold r; lia.
  - intros n i L A B. destruct (i_send _ _ _ _ _ _ I n i L A B) as (d' & l & X1 & X2 & X3).
    destruct (i_out _ _ _ _ _ _ I n L) as (RWn & Wn & Tn & Fn & _).
    assert (NE : i mod 256 <> r mod 256) by (intros C; apply slot_inj in C; lia).
    exists d', l. split; [exact X1|]. rewrite (updN_other (buf s)) by exact NE. split; [|exact X3].
    unfold upd. destruct (Nat.eqb_spec n 0) as [->|]; [rewrite updN_other by exact NE|]; exact X2.
  - apply (i_tx _ _ _ _ _ _ I).
  - rewrite firstn_app. replace (length (handled s) - length (rx s))%nat with 0%nat by (unfold r in *; lia). rewrite firstn_O, app_nil_r.
    apply (i_nf _ _ _ _ _ _ I).
  - apply (i_lens _ _ _ _ _ _ I).
  - pose proof (i_pc _ _ _ _ _ _ I) as PC. unfold pcinv in *. simp. destruct (apc s) as [fc|fc len|fc k|fc k e m|k]; auto.
    + destruct PC as (P1 & P2 & P3 & P4 & d' & P5). repeat (split; [assumption|]). exists d'.
      rewrite nth_error_app1; [exact P5|]. apply nth_error_Some. rewrite P5. discriminate.
    + destruct PC as (P1 & P2 & P3 & P4 & d' & l & P5 & P6 & P7 & P8).
      assert (NE : q mod 256 <> r mod 256) by (intros C; apply slot_inj in C; lia).
      repeat (split; [assumption|]). exists d', l. rewrite updN_other by exact NE. repeat (split; [assumption|]).
      intros n L. unfold upd. destruct (Nat.eqb_spec n 0) as [->|]; [rewrite updN_other by exact NE|]; apply P8; exact L.
Qed.

Lemma inv_send : forall s q rt w t f n s', inv s q rt w t f -> step handler outs (Send n) s = Some s' ->
  inv s' q rt w (upd t n (t n + 1)) f.
Proof.
  intros s q rt w t f n s' I H. cbn [step] in H.
  destruct (Nat.ltb_spec n outs) as [L|L]; [|discriminate]. cbn [negb orb] in H.
  destruct (N.eqb_spec (tdh s n) (tdt s n)) as [E|E]; [discriminate|].
  destruct (i_out _ _ _ _ _ _ I n L) as (RW & W & T & F & HW & HT & HF).
  rewrite HT, HF in E. assert (TF : t n < f n). { apply N.le_neq. split; [exact T|]. intros C. apply E. rewrite C. reflexivity. }
  destruct (i_send _ _ _ _ _ _ I n (t n) L ltac:(lia) ltac:(lia)) as (d & l & X1 & X2 & X3).
  pose proof (i_lens _ _ _ _ _ _ I) as LS. rewrite Forall_forall in LS.
  pose proof (LS _ (nth_error_In _ _ X1)) as (LL & L16). cbn [snd] in LL, L16.
  rewrite HT in H. rewrite X2, X3 in H. unfold frame_of in H. rewrite tx_meta_len, tx_meta_flags in H by (apply nth_lt16; exact L16).
  injection H as <-. constructor; simp; try apply I.
  - intros m M. destruct (i_out _ _ _ _ _ _ I m M) as (RWm & Wm & Tm & Fm & HWm & HTm & HFm).
    unfold upd at 1 2. destruct (Nat.eqb_spec m n) as [->|NE].
    + do 4 (split; [rewrite ?upd_same; lia|]). split; [exact HW|]. rewrite !upd_same. split; [apply next_slot|exact HF].
    + rewrite !upd_other by exact NE. auto 10.
  - intros m i M A B. apply (i_send _ _ _ _ _ _ I m i M); [|exact B].
    unfold upd in A. destruct (Nat.eqb_spec m n) as [->|NE]; lia.
  - intros m M. unfold upd at 2. destruct (Nat.eqb_spec m n) as [->|NE].
    + replace (N.to_nat (t n + 1)) with (S (N.to_nat (t n))) by lia. rewrite (firstn_snoc _ _ _ X1), to_send_app.
      cbn [to_send]. destruct (nth n l 0 =? 0).
      * rewrite app_nil_r. apply (i_tx _ _ _ _ _ _ I n L).
      * rewrite upd_same. f_equal. apply (i_tx _ _ _ _ _ _ I n L).
    + destruct (nth n l 0 =? 0); [|rewrite upd_other by exact NE]; apply (i_tx _ _ _ _ _ _ I m M).
Qed.

Lemma lag : forall s q rt w t f n, inv s q rt w t f -> (n < outs)%nat -> q <= w n + 255 /\ q <= rt.
Proof.
  intros s q rt w t f n I L. destruct (i_out _ _ _ _ _ _ I n L) as (RW & _). pose proof (i_rrt _ _ _ _ _ _ I).
  pose proof (i_hr _ _ _ _ _ _ I). pose proof (i_qh _ _ _ _ _ _ I). lia.
Qed.

Lemma inv_writeback : forall s q rt w t f n k s', inv s q rt w t f -> step handler outs (WriteBack n k) s = Some s' ->
  inv s' q rt (upd w n (w n + k)) t f.
Proof.
  intros s q rt w t f n k s' I H. cbn [step] in H.
  destruct (Nat.ltb_spec n outs) as [L|L]; [|discriminate]. cbn [negb orb] in H.
  destruct (i_out _ _ _ _ _ _ I n L) as (RW & W & T & F & HW & HT & HF). destruct (lag _ _ _ _ _ _ _ I L) as [LG _].
  rewrite HT, HW in H. assert (DV : (t n mod 256 + ring_size - w n mod 256) mod ring_size = t n - w n).
  { unfold ring_size. pose proof (N.div_mod' (t n) 256) as D1. pose proof (N.div_mod' (w n) 256) as D2.
    pose proof (N.mod_lt (t n) 256 ltac:(lia)) as M1. pose proof (N.mod_lt (w n) 256 ltac:(lia)) as M2.
    clear HW HT H I. set (x := t n mod 256) in *. set (y := w n mod 256) in *. set (b := t n / 256) in *. set (a := w n / 256) in *. clearbody x y a b.
    assert (C : b = a /\ y <= x \/ b = a + 1 /\ x < y) by lia.
    destruct C as [[-> C]|[-> C]].
    - replace (x + 256 - y) with (x - y + 1 * 256) by lia. rewrite N.mod_add by lia. rewrite N.mod_small by lia. lia.
    - rewrite N.mod_small by lia. lia. }
  rewrite DV in H. destruct (N.ltb_spec (t n - w n) k) as [C|C]; [discriminate|]. injection H as <-.
  constructor; simp; try apply I.
  - intros m M. destruct (i_out _ _ _ _ _ _ I m M) as (RWm & Wm & Tm & Fm & HWm & HTm & HFm).
    unfold upd at 1 2. destruct (Nat.eqb_spec m n) as [->|NE].
    + do 4 (split; [lia|]). rewrite !upd_same. split; [|split; assumption]. unfold ring_size. rewrite N.add_mod_idemp_l by lia. reflexivity.
    + rewrite !upd_other by exact NE. auto 10.
  - pose proof (i_pc _ _ _ _ _ _ I) as PC. unfold pcinv in *. simp. destruct (apc s) as [fc|fc len|fc j|fc j e m|j]; auto.
    destruct PC as (P1 & P2 & P3 & P4 & P5 & P6). repeat (split; [assumption|]). destruct P6 as [P6|(c & C1 & C2 & C3)]; [left; exact P6|right].
    exists c. split; [exact C1|]. split; [|exact C3]. intros i Hi. specialize (C2 i Hi). unfold upd. destruct (Nat.eqb_spec i n) as [->|]; lia.
Qed.

(** The driver's steps. *)
Lemma inv_cpu : forall s q rt w t f, inv s q rt w t f -> exists q' rt' f',
  inv (cpu handler outs s) q' rt' w t f' /\ forall n, (n < outs)%nat -> f n <= f' n.
Proof.
  intros s q rt w t f I. pose proof (i_pc _ _ _ _ _ _ I) as PC. unfold cpu, pcinv in *.
  pose proof (i_delim _ _ _ _ _ _ I) as DL. pose proof (i_hr _ _ _ _ _ _ I) as HR. pose proof (i_rrt _ _ _ _ _ _ I) as RR.
  destruct (apc s) as [fc|fc len|fc k|fc k e m|k] eqn:EP.
  - (* Poll *)
    destruct PC as (P1 & P2 & P3 & P4). exists q, rt, f. split; [|intros; lia].
    constructor; simp; try apply I. unfold pcinv; simp.
    destruct (N.eqb_spec (N.land (ring s 0%nat (delim s)) (bitl 32)) 0) as [E|E].
    + destruct (N.eqb_spec fc 0) as [->|NZ]; auto 10. split; [lia|]. split; [intros n L; lia|]. auto.
    + repeat (split; [assumption|]). assert (QL : q < N.of_nat (length (rx s))).
      { destruct (N.lt_ge_cases q (N.of_nat (length (rx s)))) as [C|C]; [exact C|exfalso]. apply E. rewrite DL.
        apply (i_free _ _ _ _ _ _ I); lia. }
      destruct (i_recv _ _ _ _ _ _ I q ltac:(lia) QL) as (d & X1 & _). exists d. rewrite DL. exact X1.
  - (* Handle *)
    destruct PC as (P1 & P2 & P3 & P4 & d0 & P5). exists q, rt, f. split; [|intros; lia].
    assert (QL : q < N.of_nat (length (rx s))). { assert (NN : nth_error (rx s) (N.to_nat q) <> None) by congruence. apply nth_error_Some in NN. lia. }
    destruct (i_recv _ _ _ _ _ _ I q ltac:(lia) QL) as (d1 & X1 & X2 & _). rewrite P5 in X1. injection X1 as <- EL.
    assert (len < 65536) as L16 by (rewrite EL; apply len16).
    pose proof (H_sane (nf s) (buf s (delim s)) len (lens s) L16 P3) as (SL & S16).
    destruct (handler (nf s) (buf s (delim s)) len (lens s)) as [[x d] l] eqn:EH. cbn [snd] in SL, S16.
    assert (LH : N.of_nat (length (handled s ++ [(d, l)])) = q + 1). { rewrite app_length. cbn [length]. lia. }
    constructor; simp; rewrite ?LH; try apply I; try lia.
    + intros i A B. rewrite updN_other; [apply (i_recv _ _ _ _ _ _ I); lia|]. rewrite DL. intros C. apply slot_inj in C; try lia.
      destruct (lag _ _ _ _ _ _ 0%nat I outs_pos). destruct (i_out _ _ _ _ _ _ I 0%nat outs_pos) as (? & ? & ? & ? & _). lia.
    + intros n i L A B. destruct (i_send _ _ _ _ _ _ I n i L A B) as (d' & l' & Y1 & Y2 & Y3). exists d', l'.
      split; [rewrite nth_error_app1; [exact Y1|apply nth_error_Some; congruence]|]. split; [exact Y2|].
      rewrite updN_other; [exact Y3|]. rewrite DL. intros C. apply slot_inj in C; try lia.
      destruct (lag _ _ _ _ _ _ n I L). destruct (i_out _ _ _ _ _ _ I n L) as (? & ? & ? & ? & _). lia.
    + intros n L. rewrite (i_tx _ _ _ _ _ _ I n L). f_equal. rewrite firstn_app.
      destruct (i_out _ _ _ _ _ _ I n L) as (? & ? & ? & ? & _).
      replace (N.to_nat (t n) - length (handled s))%nat with 0%nat by lia. rewrite firstn_O, app_nil_r. reflexivity.
    + rewrite app_length. cbn [length]. replace (length (handled s) + 1)%nat with (S (length (handled s))) by lia.
      rewrite (firstn_snoc (rx s) (length (handled s)) (d0, len)); [|rewrite <- P5; f_equal; lia].
      rewrite nf_run_snoc. pose proof (i_nf _ _ _ _ _ _ I) as NF. rewrite <- NF. rewrite <- P3, <- X2, <- DL, EH. reflexivity.
    + apply Forall_app. split; [apply (i_lens _ _ _ _ _ _ I)|]. constructor; [split; assumption|constructor].
    + unfold pcinv; simp. split; [exact P1|]. split; [exact P2|]. split; [lia|]. split; [exact LH|]. exists d, l. rewrite DL, updN_same.
      split; [rewrite nth_error_app2 by lia; replace (N.to_nat q - length (handled s))%nat with 0%nat by lia; reflexivity|].
      split; [reflexivity|]. split; [reflexivity|]. intros n L. lia.
  - (* Desc *)
    destruct PC as (P1 & P2 & P3 & P4 & d & l & P5 & P6 & P7 & P8).
    pose proof (i_lens _ _ _ _ _ _ I) as LS. rewrite Forall_forall in LS.
    pose proof (LS _ (nth_error_In _ _ P5)) as (LL & L16). cbn [snd] in LL, L16.
    destruct (Nat.ltb_spec k outs) as [L|L].
    + exists q, rt, f. split; [|intros; lia]. assert (MT : nth k (lens s) 0 = nth k l 0) by (rewrite P7; apply nth_repeat_skipn).
      rewrite DL, MT. assert (DIFF : forall n i, (n < outs)%nat -> t n <= i -> i < q -> i mod 256 <> q mod 256).
      { intros n i Ln A B C. destruct (lag _ _ _ _ _ _ n I Ln). destruct (i_out _ _ _ _ _ _ I n Ln) as (? & ? & ? & ? & _). apply slot_inj in C; lia. }
      destruct (lag _ _ _ _ _ _ 0%nat I outs_pos) as [LG0 _]. destruct (i_out _ _ _ _ _ _ I 0%nat outs_pos) as (O1 & O2 & O3 & O4 & _).
      constructor; simp; try apply I.
      * reflexivity.
      * intros i A B. rewrite P4 in A. replace (upd (ring s) k _ 0%nat (i mod 256)) with (ring s 0%nat (i mod 256));
          [apply (i_recv _ _ _ _ _ _ I); lia|]. unfold upd. destruct (Nat.eqb_spec 0 k) as [<-|]; [|reflexivity].
        rewrite updN_other; [reflexivity|]. intros C. apply slot_inj in C; lia.
      * intros i A B. unfold upd. destruct (Nat.eqb_spec 0 k) as [<-|]; [|apply (i_free _ _ _ _ _ _ I); lia].
        unfold updN. destruct (i mod 256 =? q mod 256); [apply tx_meta_undone, nth_lt16, L16|apply (i_free _ _ _ _ _ _ I); lia].
      * intros n i Ln A B. destruct (i_send _ _ _ _ _ _ I n i Ln A B) as (d' & l' & Y1 & Y2 & Y3). exists d', l'. split; [exact Y1|]. split; [|exact Y3].
        unfold upd. destruct (Nat.eqb_spec n k) as [->|]; [|exact Y2]. rewrite updN_other; [exact Y2|]. eapply DIFF; eassumption.
      * unfold pcinv; simp. split; [exact P1|]. split; [exact P2|]. split; [lia|]. split; [exact P4|]. exists d, l. split; [exact P5|]. split; [exact P6|].
        split; [rewrite P7; apply set_nth_repeat; lia|]. intros n Ln. destruct (Nat.eq_dec n k) as [->|NE].
        -- rewrite upd_same, updN_same. reflexivity.
        -- rewrite upd_other by exact NE. apply P8. lia.
    + assert (k = outs) by lia. subst k. exists (q + 1), rt, f. split; [|intros; lia].
      destruct (lag _ _ _ _ _ _ 0%nat I outs_pos) as [LG0 _]. destruct (i_out _ _ _ _ _ _ I 0%nat outs_pos) as (O1 & O2 & O3 & O4 & _).
      assert (LZ : lens s = repeat 0 outs). { rewrite P7, <- LL, skipn_all, app_nil_r. reflexivity. }
      constructor; simp; try apply I.
      * rewrite DL. apply bump_mod.
      * lia.
      * intros n Ln. destruct (i_out _ _ _ _ _ _ I n Ln) as (A1 & A2 & A3 & A4 & A5). do 4 (split; [lia|]). exact A5.
      * intros i A B. destruct (N.eq_dec i (q + 256)) as [->|NE]; [|apply (i_free _ _ _ _ _ _ I); lia].
        replace ((q + 256) mod 256) with (q mod 256) by (replace (q + 256) with (q + 1 * 256) by lia; rewrite N.mod_add by lia; reflexivity).
        rewrite (P8 0%nat outs_pos). apply tx_meta_undone, nth_lt16, L16.
      * intros n i Ln A B. destruct (N.eq_dec i q) as [->|NE]; [|apply (i_send _ _ _ _ _ _ I); auto; lia].
        exists d, l. split; [exact P5|]. split; [apply P8; exact Ln|exact P6].
      * unfold pcinv; simp. destruct (rs_bit (delim s) =? 0).
        -- unfold next, flush_period. destruct (N.ltb_spec (fc + 1) 8) as [C|C].
           ++ split; [exact C|]. split; [intros n Ln; specialize (P2 n Ln); lia|]. split; [exact LZ|exact P4].
           ++ split; [lia|]. split; [intros n Ln; lia|]. split; [exact LZ|exact P4].
        -- split; [exact P1|]. split; [intros n Ln; specialize (P2 n Ln); lia|]. split; [exact LZ|]. split; [exact P4|]. split; [lia|]. left. auto.
  - (* Heads *)
    destruct PC as (P1 & P2 & P3 & P4 & P5 & P6). destruct (Nat.ltb_spec k outs) as [L|L].
    + exists q, rt, f. split; [|intros; lia]. destruct (i_out _ _ _ _ _ _ I k L) as (O1 & O2 & O3 & O4 & O5 & _). destruct (lag _ _ _ _ _ _ k I L) as [LG _].
      specialize (P2 k L) as P2k.
      destruct (N.leb_spec (head_diff (heads s k) (delim s)) m) as [C|C]; constructor; simp; try apply I; unfold pcinv; simp.
      * repeat (split; [auto; lia|]). right. exists (w k). split; [exact O1|]. split; [|rewrite O5; repeat (split; [lia|]); auto].
        intros j J. destruct (Nat.eq_dec j k) as [->|NE]; [lia|]. destruct P6 as [[-> _]|(c & C1 & C2 & C3 & C4 & C5 & C6)]; [lia|].
        specialize (C2 j ltac:(lia)). subst m e. rewrite O5, DL in C. apply head_diff_mono in C; lia.
      * repeat (split; [auto; lia|]). destruct P6 as [[-> ->]|(c & C1 & C2 & C3 & C4 & C5 & C6)].
        { pose proof (head_diff_max (heads s 0%nat) (delim s)). lia. }
        right. exists c. split; [exact C1|]. split; [|auto]. intros j J. destruct (Nat.eq_dec j k) as [->|NE]; [|apply C2; lia].
        subst m e. rewrite O5, DL in C. destruct (N.le_gt_cases c (w k)) as [Y|Y]; [exact Y|]. exfalso.
        assert (head_diff (w k mod 256) (q mod 256) <= head_diff (c mod 256) (q mod 256)) by (apply head_diff_mono; lia). lia.
    + destruct P6 as [[-> _]|(c & C1 & C2 & C3 & C4 & C5 & C6)]; [lia|]. exists q, (c + 255), f. split; [|intros; lia].
      constructor; simp; try apply I.
      * subst e. apply tail_of_mod.
      * lia.
      * intros n Ln. destruct (i_out _ _ _ _ _ _ I n Ln) as (A1 & A2 & A3). split; [specialize (C2 n ltac:(lia)); lia|]. auto.
      * unfold pcinv; simp. unfold next, flush_period. destruct (N.ltb_spec (fc + 1) 8) as [C|C].
        -- split; [exact C|]. split; [intros n Ln; specialize (P2 n Ln); lia|]. auto.
        -- split; [lia|]. split; [intros n Ln; lia|]. auto.
  - (* Flush *)
    destruct PC as (P1 & P2 & P3 & P4). destruct (Nat.ltb_spec k outs) as [L|L].
    + exists q, rt, (upd f k q). split; [|intros n Ln; destruct (i_out _ _ _ _ _ _ I n Ln) as (_ & _ & _ & A4 & _); unfold upd; destruct (Nat.eqb n k); lia]. constructor; simp; try apply I.
      * intros n Ln. destruct (i_out _ _ _ _ _ _ I n Ln) as (A1 & A2 & A3 & A4 & A5 & A6 & A7). unfold upd. destruct (Nat.eqb_spec n k) as [->|NE].
        -- do 4 (split; [lia|]). auto.
        -- auto 10.
      * unfold pcinv; simp. split; [lia|]. split; [|auto]. intros n Ln. unfold upd. destruct (Nat.eqb_spec n k) as [->|NE]; [reflexivity|]. apply P2. lia.
    + exists q, rt, f. split; [|intros; lia]. constructor; simp; try apply I. unfold pcinv; simp. split; [lia|]. split; [|auto]. intros n Ln. rewrite P2 by lia. lia.
Qed.

Definition Inv (s : agent) : Prop := exists q rt w t f, inv s q rt w t f.

Lemma Inv_step : forall a s s', Inv s -> step handler outs a s = Some s' -> Inv s'.
Proof.
  intros a s s' (q & rt & w & t & f & I) H. destruct a as [|d meta|n|n k].
  - cbn [step] in H. injection H as <-. destruct (inv_cpu _ _ _ _ _ _ I) as (q' & rt' & f' & I' & _). exists q', rt', w, t, f'. exact I'.
  - exists q, rt, w, t, f. eapply inv_recv; eassumption.
  - exists q, rt, w, (upd t n (t n + 1)), f. eapply inv_send; eassumption.
  - exists q, rt, (upd w n (w n + k)), t, f. eapply inv_writeback; eassumption.
Qed.

Lemma Inv_run : forall acts s s', Inv s -> run handler outs s acts = Some s' -> Inv s'.
Proof.
  induction acts as [|a acts IH]; intros s s' I H; cbn [run] in H.
  - injection H as <-. exact I.
  - destruct (step handler outs a s) as [s1|] eqn:E; [|discriminate]. eapply IH; [|exact H]. eapply Inv_step; eassumption.
Qed.

Lemma Inv_reached : forall junk acts s, run handler outs (started outs x0 junk) acts = Some s -> Inv s.
Proof. intros junk acts s H. eapply Inv_run; [|exact H]. do 5 eexists. apply inv_start. Qed.


(** ** What the invariant says of the registers *)

Lemma dist_val : forall a b, a <= b -> b < a + 256 -> dist (a mod 256) (b mod 256) = b - a.
Proof.
  intros a b A B. unfold dist, ring_size. pose proof (N.div_mod' a 256) as D1. pose proof (N.div_mod' b 256) as D2.
  pose proof (N.mod_lt a 256 ltac:(lia)) as M1. pose proof (N.mod_lt b 256 ltac:(lia)) as M2.
  set (x := a mod 256) in *. set (y := b mod 256) in *. set (u := a / 256) in *. set (v := b / 256) in *. clearbody x y u v.
  assert (C : v = u /\ x <= y \/ v = u + 1 /\ y < x) by lia.
  destruct C as [[-> C]|[-> C]].
  - replace (y + 256 - x) with (y - x + 1 * 256) by lia. rewrite N.mod_add by lia. rewrite N.mod_small by lia. lia.
  - rewrite N.mod_small by lia. lia.
Qed.

Lemma Inv_no_overwrite : forall s, Inv s -> rdh s <> rdt s -> ~ in_use outs s (rdh s).
Proof.
  intros s (q & rt & w & t & f & I) NE. rewrite (i_rdh _ _ _ _ _ _ I), (i_rdt _ _ _ _ _ _ I) in NE.
  pose proof (i_rrt _ _ _ _ _ _ I) as RR. pose proof (i_hr _ _ _ _ _ _ I) as HR. pose proof (i_qh _ _ _ _ _ _ I) as QH.
  set (r := N.of_nat (length (rx s))) in *.
  assert (RL : r < rt). { apply N.le_neq. split; [exact RR|]. intros C. apply NE. rewrite C. reflexivity. }
  unfold in_use. rewrite (i_rdh _ _ _ _ _ _ I), (i_delim _ _ _ _ _ _ I). fold r.
  intros [(n & L & C)|[C|C]].
  - destruct (i_out _ _ _ _ _ _ I n L) as (A1 & A2 & A3 & A4 & _ & A6 & _). rewrite A6, !dist_val in C by lia. lia.
  - destruct (i_out _ _ _ _ _ _ I 0%nat outs_pos) as (A1 & A2 & A3 & A4 & _).
    pose proof (i_pc _ _ _ _ _ _ I) as PC. unfold pcinv in PC. destruct (apc s); try contradiction C.
    + destruct PC as (_ & _ & _ & P4 & d & P5). assert (NN : nth_error (rx s) (N.to_nat q) <> None) by congruence. apply nth_error_Some in NN.
      apply slot_inj in C; unfold r in *; lia.
    + destruct PC as (_ & _ & _ & P4 & _). apply slot_inj in C; lia.
  - lia.
Qed.

Lemma Inv_order : forall s, Inv s ->
  handled s = snd (nf_run handler outs x0 (firstn (length (handled s)) (rx s))) /\ (length (handled s) <= length (rx s))%nat /\
  forall n, (n < outs)%nat -> prefix (tx s n) (to_send n (handled s)) /\
    (apc s = Poll 0 -> tdh s n = tdt s n -> tx s n = to_send n (handled s)).
Proof.
  intros s (q & rt & w & t & f & I). split; [rewrite <- (i_nf _ _ _ _ _ _ I); reflexivity|].
  split; [pose proof (i_hr _ _ _ _ _ _ I); lia|]. intros n L. rewrite (i_tx _ _ _ _ _ _ I n L). split.
  - exists (to_send n (skipn (N.to_nat (t n)) (handled s))). rewrite <- to_send_app, firstn_skipn. reflexivity.
  - intros PC E. pose proof (i_pc _ _ _ _ _ _ I) as P. unfold pcinv in P. rewrite PC in P. destruct P as (_ & P2 & _ & P4). specialize (P2 n L).
    destruct (i_out _ _ _ _ _ _ I n L) as (A1 & A2 & A3 & A4 & A5 & A6 & A7). destruct (lag _ _ _ _ _ _ n I L) as [LG _].
    rewrite A6, A7 in E. apply slot_inj in E; try lia. rewrite firstn_all2; [reflexivity|lia].
Qed.

Lemma Inv_waiting : forall s, Inv s -> waiting s -> length (handled s) = length (rx s) /\ rdh s = delim s.
Proof.
  intros s (q & rt & w & t & f & I) [PC DD]. pose proof (i_pc _ _ _ _ _ _ I) as P. unfold pcinv in P. rewrite PC in P. destruct P as (_ & P2 & _ & P4).
  pose proof (i_hr _ _ _ _ _ _ I) as HR. rewrite (i_rdh _ _ _ _ _ _ I), (i_delim _ _ _ _ _ _ I) in *.
  assert (E : N.of_nat (length (rx s)) = q).
  { destruct (N.lt_ge_cases q (N.of_nat (length (rx s)))) as [C|C]; [|lia]. exfalso.
    destruct (i_recv _ _ _ _ _ _ I q ltac:(lia) C) as (d & _ & _ & X3). exact (X3 DD). }
  split; [lia|]. rewrite E. reflexivity.
Qed.

(** ** When transmission keeps up *)

Definition room (s : agent) : Prop :=
  match apc s with
  | Heads _ k e m => (k = 0%nat /\ m = 2 ^ 64 - 1) \/ dist e (delim s) < 192
  | _ => 64 - delim s mod 64 <= dist (delim s) (rdt s)
  end.

Lemma mod64 : forall q, (q mod 256) mod 64 = q mod 64.
Proof. intros q. change 256 with (64 * 4). rewrite N.mod_mul_r by lia. rewrite N.mul_comm, N.mod_add by lia. apply N.mod_mod. lia. Qed.

Lemma room_step : forall a s s', Inv s -> within outs 192 s -> room s -> step handler outs a s = Some s' -> room s'.
Proof.
  intros a s s' IV W R H. destruct a as [|d meta|n|n k]; cbn [step] in H.
  - injection H as <-. destruct IV as (q & rt & w & t & f & I). pose proof (i_delim _ _ _ _ _ _ I) as DL. pose proof (i_rdt _ _ _ _ _ _ I) as RT.
    pose proof (i_pc _ _ _ _ _ _ I) as PC. destruct (lag _ _ _ _ _ _ 0%nat I outs_pos) as [LG0 QR].
    destruct (i_out _ _ _ _ _ _ I 0%nat outs_pos) as (A1 & A2 & A3 & A4 & _).
    pose proof (i_hr _ _ _ _ _ _ I) as HR. pose proof (i_rrt _ _ _ _ _ _ I) as RR.
    unfold cpu, room, within, pcinv in *. destruct (apc s) as [fc|fc len|fc k|fc k e m|k] eqn:EP; simp.
    + destruct (N.land _ _ =? 0); [destruct (fc =? 0)|]; exact R.
    + destruct (handler _ _ _ _) as [[x d] l]. simp. exact R.
    + destruct (Nat.ltb k outs); simp; [exact R|]. destruct (N.eqb_spec (rs_bit (delim s)) 0) as [E|E].
      * destruct PC as (_ & _ & _ & P4 & _). rewrite DL in E. apply rs_iff in E. rewrite DL in R |- *. rewrite RT in R |- *. rewrite bump_mod. rewrite !mod64 in R |- *.
        rewrite dist_val in R by lia. assert (M1 : (q + 1) mod 64 = q mod 64 + 1).
        { rewrite <- N.add_mod_idemp_l by lia. apply N.mod_small. pose proof (N.mod_lt q 64 ltac:(lia)). lia. }
        assert (GG : 64 - (q + 1) mod 64 <= dist ((q + 1) mod 256) (rt mod 256)).
        { rewrite M1. pose proof (N.mod_lt q 64 ltac:(lia)). rewrite dist_val by lia. lia. }
        unfold next. destruct (fc + 1 <? flush_period); simp; exact GG.
      * left. split; reflexivity.
    + destruct PC as (P1 & P2 & P3 & P4 & P5 & P6). destruct (Nat.ltb_spec k outs) as [L|L]; simp.
      * destruct (N.leb_spec (head_diff (heads s k) (delim s)) m) as [C|C]; simp; right; [apply W; exact L|].
        destruct R as [[-> ->]|R]; [|exact R]. exfalso. pose proof (head_diff_max (heads s 0%nat) (delim s)). lia.
      * destruct P6 as [[-> _]|(c & C1 & C2 & C3 & C4 & C5 & C6)]; [lia|]. destruct R as [[-> _]|R]; [lia|].
        subst e. rewrite DL in R. rewrite dist_val in R by lia.
        assert (GG : 64 - delim s mod 64 <= dist (delim s) (tail_of (c mod 256))).
        { rewrite DL, tail_of_mod, mod64. rewrite (dist_val q (c + 255)) by lia. generalize (q mod 64). intros. lia. }
        unfold next. destruct (fc + 1 <? flush_period); simp; exact GG.
    + destruct (Nat.ltb k outs); simp; exact R.
  - destruct (_ || _ || _)%bool; [discriminate|]. injection H as <-. exact R.
  - destruct (_ || _)%bool; [discriminate|]. injection H as <-. exact R.
  - destruct (_ || _)%bool; [discriminate|]. injection H as <-. exact R.
Qed.

Lemma run_with_Inv : forall P acts s s', Inv s -> run_with handler outs P s acts s' -> Inv s'.
Proof.
  induction acts as [|a acts IH]; intros s s' I [_ H].
  - subst. exact I.
  - destruct (step handler outs a s) as [s1|] eqn:E; [|contradiction]. eapply IH; [|exact H]. eapply Inv_step; eassumption.
Qed.

Lemma room_run : forall acts s s', Inv s -> room s -> run_with handler outs (within outs 192) s acts s' -> room s'.
Proof.
  induction acts as [|a acts IH]; intros s s' I R [W H].
  - subst. exact R.
  - destruct (step handler outs a s) as [s1|] eqn:E; [|contradiction]. eapply IH; [|eapply room_step; eassumption|exact H]. eapply Inv_step; eassumption.
Qed.

Lemma keeps_receiving : forall junk acts s, run_with handler outs (within outs 192) (started outs x0 junk) acts s ->
  waiting s -> rdh s <> rdt s.
Proof.
  intros junk acts s H WT E. assert (I0 : Inv (started outs x0 junk)) by (do 5 eexists; apply inv_start).
  pose proof (run_with_Inv _ _ _ _ I0 H) as I. pose proof (room_run _ _ _ I0 ltac:(vm_compute; discriminate) H) as R.
  destruct (Inv_waiting _ I WT) as [_ RD]. unfold room in R. destruct WT as [PC _]. rewrite PC in R. rewrite <- E, RD in R.
  destruct I as (q & rt & w & t & f & I). rewrite (i_delim _ _ _ _ _ _ I) in R. rewrite dist_val in R by lia. rewrite mod64 in R.
  pose proof (N.mod_lt q 64 ltac:(lia)). lia.
Qed.

(** ** A driver that has stalled stays so *)

Definition stalled (s : agent) : Prop := waiting s /\ rdh s = rdt s.

Lemma stalled_step : forall a s s', stalled s -> step handler outs a s = Some s' -> stalled s' /\ rx s' = rx s.
Proof.
  intros a s s' [[PC DD] E] H. destruct a as [|d meta|n|n k]; cbn [step] in H.
  - injection H as <-. unfold cpu. rewrite PC, DD. split; [|reflexivity]. split; [split|]; [reflexivity|exact DD|exact E].
  - rewrite E, N.eqb_refl in H. discriminate.
  - destruct (_ || _)%bool; [discriminate|]. injection H as <-. split; [|reflexivity]. split; [split|]; [exact PC|exact DD|exact E].
  - destruct (_ || _)%bool; [discriminate|]. injection H as <-. split; [|reflexivity]. split; [split|]; [exact PC|exact DD|exact E].
Qed.

Lemma stalled_run : forall acts s s', stalled s -> run handler outs s acts = Some s' -> rx s' = rx s.
Proof.
  induction acts as [|a acts IH]; intros s s' ST H; cbn [run] in H.
  - injection H as <-. reflexivity.
  - destruct (step handler outs a s) as [s1|] eqn:E; [|discriminate]. destruct (stalled_step _ _ _ ST E) as [ST1 E1].
    rewrite (IH _ _ ST1 H). exact E1.
Qed.

(** ** The driver gets to every packet *)


(** Steps until the handler has been called [T] times; [phase] is until its next call. *)
Definition phase (s : agent) : nat :=
  match apc s with
  | Handle _ _ => 1
  | Poll _ => 2
  | Flush k => (outs - k) + 3
  | Heads _ k _ _ => (outs - k) + outs + 4
  | Desc _ k => (outs - k) + 2 * outs + 5
  end%nat.
Definition rank (T : nat) (s : agent) : nat :=
  if Nat.ltb (length (handled s)) T then ((T - length (handled s) - 1) * (3 * outs + 6) + phase s)%nat else 0%nat.

Lemma rank_step : forall T s, Inv s -> (T <= length (rx s))%nat -> (rank T (cpu handler outs s) <= rank T s - 1)%nat.
Proof.
  intros T s IV TL. unfold rank. destruct (Nat.ltb_spec (length (handled s)) T) as [L|L].
  2:{ assert (length (handled s) <= length (handled (cpu handler outs s)))%nat.
      { unfold cpu. destruct (apc s); simp; try reflexivity.
        - destruct (handler _ _ _ _) as [[x d] l]. simp. rewrite app_length. lia.
        - destruct (Nat.ltb _ _); simp; lia.
        - destruct (Nat.ltb _ _); [destruct (head_diff _ _ <=? _)|]; simp; lia.
        - destruct (Nat.ltb _ _); simp; lia. }
      destruct (Nat.ltb_spec (length (handled (cpu handler outs s))) T); lia. }
  unfold cpu, phase. destruct (apc s) as [fc|fc len|fc k|fc k e m|k] eqn:EP; simp.
  - assert (DD : N.land (ring s 0%nat (delim s)) (bitl 32) <> 0).
    { destruct IV as (q & rt & w & t & f & I). pose proof (i_pc _ _ _ _ _ _ I) as PC. unfold pcinv in PC. rewrite EP in PC. destruct PC as (_ & _ & _ & P4).
      destruct (i_recv _ _ _ _ _ _ I q ltac:(lia) ltac:(lia)) as (d & _ & _ & X3). rewrite (i_delim _ _ _ _ _ _ I). exact X3. }
    apply N.eqb_neq in DD. rewrite DD. destruct (Nat.ltb_spec (length (handled s)) T); lia.
  - destruct (handler _ _ _ _) as [[x d] l]. simp. rewrite app_length. cbn [length].
    destruct (Nat.ltb_spec (length (handled s) + 1) T); [|lia].
    replace (T - length (handled s) - 1)%nat with (S (T - (length (handled s) + 1) - 1)) by lia. lia.
  - destruct (Nat.ltb_spec k outs); simp; (destruct (Nat.ltb_spec (length (handled s)) T); [|lia]); [lia|].
    destruct (rs_bit (delim s) =? 0); [unfold next; destruct (fc + 1 <? flush_period)|]; lia.
  - destruct (Nat.ltb_spec k outs); [destruct (head_diff _ _ <=? _)|]; simp; (destruct (Nat.ltb_spec (length (handled s)) T); [|lia]); [lia|lia|].
    unfold next; destruct (fc + 1 <? flush_period); lia.
  - destruct (Nat.ltb_spec k outs); simp; (destruct (Nat.ltb_spec (length (handled s)) T); [|lia]); lia.
Qed.

Lemma hw_same : forall a s s', step handler outs a s = Some s' -> a <> Cpu ->
  handled s' = handled s /\ apc s' = apc s /\ (length (rx s) <= length (rx s'))%nat.
Proof.
  intros a s s' H NC. destruct a as [|d meta|n|n k]; cbn [step] in H; [congruence| | |].
  - destruct (_ || _ || _)%bool; [discriminate|]. injection H as <-. simp. split; [reflexivity|]. split; [reflexivity|]. rewrite app_length. lia.
  - destruct (_ || _)%bool; [discriminate|]. injection H as <-. simp. auto.
  - destruct (_ || _)%bool; [discriminate|]. injection H as <-. simp. auto.
Qed.

Lemma rank_run : forall T acts s s', Inv s -> (T <= length (rx s))%nat -> run handler outs s acts = Some s' ->
  (rank T s' <= rank T s - cpus acts)%nat.
Proof.
  intros T. induction acts as [|a acts IH]; intros s s' IV TL H; cbn [run] in H.
  - injection H as <-. cbn. lia.
  - destruct (step handler outs a s) as [s1|] eqn:E; [|discriminate]. pose proof (Inv_step _ _ _ IV E) as IV1.
    destruct a as [|d meta|n|n k].
    + cbn [step] in E. injection E as <-. pose proof (rank_step T s IV TL) as RS.
      assert (TL1 : (T <= length (rx (cpu handler outs s)))%nat).
      { unfold cpu. destruct (apc s); simp; auto; [destruct (handler _ _ _ _) as [[? ?] ?]; auto| | |]; destruct (Nat.ltb _ _); auto; destruct (_ <=? _); auto. }
      specialize (IH _ _ IV1 TL1 H). unfold cpus in *. cbn [filter length]. lia.
    + destruct (hw_same _ _ _ E ltac:(discriminate)) as (E1 & E2 & E3). specialize (IH _ _ IV1 ltac:(lia) H).
      unfold rank, phase, cpus in *. rewrite E1, E2 in IH. exact IH.
    + destruct (hw_same _ _ _ E ltac:(discriminate)) as (E1 & E2 & E3). specialize (IH _ _ IV1 ltac:(lia) H).
      unfold rank, phase, cpus in *. rewrite E1, E2 in IH. exact IH.
    + destruct (hw_same _ _ _ E ltac:(discriminate)) as (E1 & E2 & E3). specialize (IH _ _ IV1 ltac:(lia) H).
      unfold rank, phase, cpus in *. rewrite E1, E2 in IH. exact IH.
Qed.

(** Steps until what has been handled has been given to the outputs. *)
Definition rank2 (s : agent) : nat :=
  let base fc := ((8 - N.to_nat fc) * (2 * outs + 10) + outs + 2)%nat in
  match apc s with
  | Poll fc => base fc
  | Handle fc _ => base fc - 1
  | Desc fc k => base fc - 2 - k
  | Heads fc k _ _ => base fc - 3 - outs - k
  | Flush k => outs + 1 - k
  end%nat.

Definition given (T : nat) (s : agent) : Prop := exists q rt w t f, inv s q rt w t f /\ forall n, (n < outs)%nat -> N.of_nat T <= f n.

Lemma base_split : forall fc, fc < 8 ->
  ((8 - N.to_nat fc) * (2 * outs + 10) = 2 * outs + 10 + (8 - N.to_nat (fc + 1)) * (2 * outs + 10))%nat.
Proof. intros fc L. replace (8 - N.to_nat fc)%nat with (S (8 - N.to_nat (fc + 1))) by lia. reflexivity. Qed.
Ltac bs P := cbv beta zeta in *; rewrite ?(base_split _ P) in *; repeat (match goal with |- context [((8 - N.to_nat ?x) * ?y)%nat] => let z := fresh "z" in set (z := ((8 - N.to_nat x) * y)%nat) in *; clearbody z end); lia.

Lemma next_rank2 : forall fc (s : agent), fc < 8 -> apc s = next fc -> (rank2 s <= (8 - N.to_nat fc) * (2 * outs + 10) + outs + 2 - 4 - 2 * outs)%nat.
Proof.
  intros fc s F E. unfold rank2. rewrite E. unfold next, flush_period. destruct (N.ltb_spec (fc + 1) 8) as [C|C].
  - bs F.
  - replace (8 - N.to_nat fc)%nat with 1%nat by lia. lia.
Qed.

Lemma given_step : forall T a s s', given T s -> step handler outs a s = Some s' -> given T s'.
Proof.
  intros T a s s' (q & rt & w & t & f & I & G) H. destruct a as [|d meta|n|n k].
  - cbn [step] in H. injection H as <-. destruct (inv_cpu _ _ _ _ _ _ I) as (q' & rt' & f' & I' & M). exists q', rt', w, t, f'. split; [exact I'|].
    intros n L. specialize (M n L). specialize (G n L). lia.
  - exists q, rt, w, t, f. split; [eapply inv_recv; eassumption|exact G].
  - exists q, rt, w, (upd t n (t n + 1)), f. split; [eapply inv_send; eassumption|exact G].
  - exists q, rt, (upd w n (w n + k)), t, f. split; [eapply inv_writeback; eassumption|exact G].
Qed.

Lemma given_run : forall T acts s s', given T s -> run handler outs s acts = Some s' -> given T s'.
Proof.
  intros T. induction acts as [|a acts IH]; intros s s' I H; cbn [run] in H.
  - injection H as <-. exact I.
  - destruct (step handler outs a s) as [s1|] eqn:E; [|discriminate]. eapply IH; [|exact H]. eapply given_step; eassumption.
Qed.

Definition past (T : nat) (s : agent) : Prop := (T <= length (handled s))%nat.

Lemma rank2_step : forall T s, Inv s -> past T s -> given T s \/ (1 <= rank2 s /\ rank2 (cpu handler outs s) <= rank2 s - 1)%nat.
Proof.
  intros T s (q & rt & w & t & f & I) P. pose proof (i_pc _ _ _ _ _ _ I) as PC. unfold past in P.
  unfold pcinv in PC. destruct (apc s) as [fc|fc len|fc k|fc k e m|k] eqn:EP.
  - destruct PC as (P1 & P2 & P3 & P4). destruct (N.eq_dec fc 0) as [->|NZ].
    + left. exists q, rt, w, t, f. split; [exact I|]. intros n L. specialize (P2 n L). lia.
    + right. unfold rank2, cpu. rewrite EP. cbn [apc]. apply N.eqb_neq in NZ. rewrite NZ.
      destruct (N.land (ring s 0%nat (delim s)) (bitl 32) =? 0); split; bs P1.
  - right. destruct PC as (P1 & _). unfold rank2, cpu. rewrite EP. destruct (handler _ _ _ _) as [[x d] l]. cbn [apc].
    bs P1.
  - right. destruct PC as (P1 & P2 & P3 & _). unfold cpu. rewrite EP. destruct (Nat.ltb_spec k outs).
    + unfold rank2. rewrite EP. cbn [apc]. bs P1.
    + destruct (rs_bit (delim s) =? 0).
      * match goal with |- context [rank2 ?s'] => match s' with s => fail 1 | _ => pose proof (next_rank2 fc s' P1 eq_refl) as NR end end.
        unfold rank2 at 1 3. rewrite EP. bs P1.
      * unfold rank2. rewrite EP. cbn [apc]. bs P1.
  - right. destruct PC as (P1 & P2 & P3 & P4 & P5 & _). unfold cpu. rewrite EP. destruct (Nat.ltb_spec k outs).
    + unfold rank2. rewrite EP. destruct (head_diff _ _ <=? _); cbn [apc]; bs P1.
    + match goal with |- context [rank2 ?s'] => match s' with s => fail 1 | _ => pose proof (next_rank2 fc s' P1 eq_refl) as NR end end.
      unfold rank2 at 1 3. rewrite EP. bs P1.
  - destruct PC as (P1 & P2 & P3 & P4). destruct (Nat.ltb_spec k outs).
    + right. unfold cpu, rank2. rewrite EP. assert (Nat.ltb k outs = true) as -> by (apply Nat.ltb_lt; assumption). cbn [apc]. lia.
    + left. exists q, rt, w, t, f. split; [exact I|]. intros n L. rewrite P2 by lia. lia.
Qed.

Lemma past_step : forall T a s s', past T s -> step handler outs a s = Some s' -> past T s'.
Proof.
  unfold past. intros T a s s' P H. destruct a as [|d meta|n|n k].
  - cbn [step] in H. injection H as <-. unfold cpu. destruct (apc s); simp; auto.
    + destruct (handler _ _ _ _) as [[x d] l]. simp. rewrite app_length. lia.
    + destruct (Nat.ltb _ _); simp; auto.
    + destruct (Nat.ltb _ _); [destruct (head_diff _ _ <=? _)|]; simp; auto.
    + destruct (Nat.ltb _ _); simp; auto.
  - destruct (hw_same _ _ _ H ltac:(discriminate)) as (E1 & _). rewrite E1. exact P.
  - destruct (hw_same _ _ _ H ltac:(discriminate)) as (E1 & _). rewrite E1. exact P.
  - destruct (hw_same _ _ _ H ltac:(discriminate)) as (E1 & _). rewrite E1. exact P.
Qed.

Lemma past_run : forall T acts s s', past T s -> run handler outs s acts = Some s' -> past T s'.
Proof.
  intros T. induction acts as [|a acts IH]; intros s s' P H; cbn [run] in H.
  - injection H as <-. exact P.
  - destruct (step handler outs a s) as [s1|] eqn:E; [|discriminate]. eapply IH; [|exact H]. eapply past_step; eassumption.
Qed.

Lemma rank2_run : forall T acts s s', Inv s -> past T s -> run handler outs s acts = Some s' -> (rank2 s <= cpus acts)%nat -> given T s' \/ rank2 s' = 0%nat.
Proof.
  intros T. induction acts as [|a acts IH]; intros s s' IV P H C; cbn [run] in H.
  - injection H as <-. cbn in C. right. lia.
  - destruct (step handler outs a s) as [s1|] eqn:E; [|discriminate]. pose proof (Inv_step _ _ _ IV E) as IV1. pose proof (past_step _ _ _ _ P E) as P1.
    destruct a as [|d meta|n|n k].
    + cbn [step] in E. injection E as <-. destruct (rank2_step T s IV P) as [G|[R0 R]].
      * left. eapply given_run; [|exact H]. eapply given_step with (a := Cpu); [exact G|reflexivity].
      * eapply IH; eauto. unfold cpus in *. cbn [filter length] in C. lia.
    + destruct (hw_same _ _ _ E ltac:(discriminate)) as (E1 & E2 & E3). eapply IH; eauto. unfold rank2, cpus in *. rewrite E2. exact C.
    + destruct (hw_same _ _ _ E ltac:(discriminate)) as (E1 & E2 & E3). eapply IH; eauto. unfold rank2, cpus in *. rewrite E2. exact C.
    + destruct (hw_same _ _ _ E ltac:(discriminate)) as (E1 & E2 & E3). eapply IH; eauto. unfold rank2, cpus in *. rewrite E2. exact C.
Qed.

Lemma run_split : forall acts k (s s' : agent), run handler outs s acts = Some s' -> (k <= cpus acts)%nat ->
  exists a1 a2 s1, acts = (a1 ++ a2)%list /\ run handler outs s a1 = Some s1 /\ run handler outs s1 a2 = Some s' /\ cpus a1 = k.
Proof.
  induction acts as [|a acts IH]; intros k s s' H C.
  - cbn in C. assert (k = 0)%nat as -> by lia. exists [], [], s. auto.
  - destruct k as [|k]; [exists [], (a :: acts), s; auto|]. cbn [run] in H. destruct (step handler outs a s) as [s1|] eqn:E; [|discriminate].
    destruct a as [|d meta|n|n j].
    + destruct (IH k s1 s' H ltac:(unfold cpus in *; cbn [filter length] in C; lia)) as (a1 & a2 & s2 & -> & R1 & R2 & CC).
      exists (Cpu :: a1), a2, s2. cbn [run]. rewrite E. repeat split; auto. unfold cpus in *. cbn [filter length]. lia.
    + destruct (IH (S k) s1 s' H C) as (a1 & a2 & s2 & -> & R1 & R2 & CC). exists (Recv d meta :: a1), a2, s2. cbn [run]. rewrite E. auto.
    + destruct (IH (S k) s1 s' H C) as (a1 & a2 & s2 & -> & R1 & R2 & CC). exists (Send n :: a1), a2, s2. cbn [run]. rewrite E. auto.
    + destruct (IH (S k) s1 s' H C) as (a1 & a2 & s2 & -> & R1 & R2 & CC). exists (WriteBack n j :: a1), a2, s2. cbn [run]. rewrite E. auto.
Qed.

Lemma rank2_pos : forall s, Inv s -> rank2 s <> 0%nat.
Proof.
  intros s (q & rt & w & t & f & I). pose proof (i_pc _ _ _ _ _ _ I) as PC. unfold pcinv in PC. unfold rank2.
  destruct (apc s) as [fc|fc len|fc k|fc k e m|k]; try (destruct PC as (P1 & P2 & P3 & P4); bs P1).
Qed.

Lemma rank2_max : forall s, Inv s -> (rank2 s <= 17 * outs + 82)%nat.
Proof.
  intros s (q & rt & w & t & f & I). unfold rank2. destruct (apc s) as [fc|fc len|fc k|fc k e m|k]; try lia;
    assert ((8 - N.to_nat fc) * (2 * outs + 10) <= 8 * (2 * outs + 10))%nat by (apply Nat.mul_le_mono_r; lia); lia.
Qed.

Lemma rank_max : forall s, Inv s -> (rank (length (rx s)) s <= (length (rx s) - length (handled s)) * (3 * outs + 6))%nat.
Proof.
  intros s (q & rt & w & t & f & I). unfold rank. destruct (Nat.ltb_spec (length (handled s)) (length (rx s))) as [L|L]; [|lia].
  replace (length (rx s) - length (handled s))%nat with (S (length (rx s) - length (handled s) - 1)) at 2 by lia. cbn [Nat.mul].
  assert (phase s <= 3 * outs + 6)%nat by (unfold phase; destruct (apc s); lia). lia.
Qed.

Lemma driver_progress : forall s acts s', Inv s -> run handler outs s acts = Some s' ->
  ((length (rx s) - length (handled s)) * (3 * outs + 6) + 17 * outs + 82 <= cpus acts)%nat ->
  (length (rx s) <= length (handled s'))%nat /\
  forall n, (n < outs)%nat -> tdh s' n = tdt s' n -> prefix (to_send n (firstn (length (rx s)) (handled s'))) (tx s' n).
Proof.
  intros s acts s' IV H C. set (T := length (rx s)) in *.
  destruct (run_split acts ((T - length (handled s)) * (3 * outs + 6)) s s' H ltac:(lia)) as (a1 & a2 & s1 & -> & R1 & R2 & C1).
  pose proof (rank_run T a1 s s1 IV (le_n _) R1) as RK. pose proof (rank_max s IV) as RM. fold T in RM.
  pose proof (Inv_run _ _ _ IV R1) as IV1.
  assert (P1 : past T s1). { assert (Z : rank T s1 = 0%nat) by lia. unfold past. unfold rank in Z. destruct (Nat.ltb_spec (length (handled s1)) T); [|assumption].
    unfold phase in Z. exfalso. generalize dependent ((T - length (handled s1) - 1) * (3 * outs + 6))%nat. intros z Z. destruct (apc s1); lia. }
  assert (CC : (17 * outs + 82 <= cpus a2)%nat). { unfold cpus in *. rewrite filter_app, app_length in C. lia. }
  pose proof (rank2_max s1 IV1) as R2M. pose proof (Inv_run _ _ _ IV1 R2) as IV2.
  pose proof (past_run _ _ _ _ P1 R2) as P2.
  split; [exact P2|]. destruct (rank2_run T a2 s1 s' IV1 P1 R2 ltac:(lia)) as [G|Z]; [|exfalso; exact (rank2_pos _ IV2 Z)].
  intros n L E. destruct G as (q & rt & w & t & f & I & G). specialize (G n L).
  destruct (i_out _ _ _ _ _ _ I n L) as (A1 & A2 & A3 & A4 & A5 & A6 & A7). destruct (lag _ _ _ _ _ _ n I L) as [LG _].
  rewrite A6, A7 in E. apply slot_inj in E; [|lia|lia]. rewrite (i_tx _ _ _ _ _ _ I n L).
  exists (to_send n (firstn (N.to_nat (t n) - T) (skipn T (handled s')))). rewrite <- to_send_app. f_equal.
  rewrite <- (firstn_skipn T (handled s')) at 1. rewrite firstn_app. rewrite firstn_firstn. rewrite firstn_length. unfold past in P2.
  replace (Nat.min (N.to_nat (t n)) T) with T by lia. replace (Nat.min T (length (handled s'))) with T by lia. reflexivity.
Qed.

(** Deciding [run_with (within lag)] on a concrete run. *)
Definition withinb (lag : N) (s : agent) : bool :=
  match apc s with Heads _ k _ _ => negb (Nat.ltb k outs) || (dist (heads s k) (delim s) <? lag) | _ => true end.
Fixpoint run_b (lag : N) (s : agent) (acts : list action) : option agent :=
  if withinb lag s then
    match acts with
    | [] => Some s
    | a :: rest => match step handler outs a s with Some s1 => run_b lag s1 rest | None => None end
    end
  else None.
Lemma run_b_with : forall lag acts s s', run_b lag s acts = Some s' -> run_with handler outs (within outs lag) s acts s'.
Proof.
  intros lag. induction acts as [|a acts IH]; intros s s' H; cbn [run_b run_with] in *; destruct (withinb lag s) eqn:W; try discriminate.
  - injection H as <-. split; [|reflexivity]. unfold within, withinb in *. destruct (apc s); auto. intros L. apply Nat.ltb_lt in L. rewrite L in W. apply N.ltb_lt. exact W.
  - split; [|destruct (step handler outs a s); [apply IH; exact H|discriminate]].
    unfold within, withinb in *. destruct (apc s); auto. intros L. apply Nat.ltb_lt in L. rewrite L in W. apply N.ltb_lt. exact W.
Qed.

End Facts.
