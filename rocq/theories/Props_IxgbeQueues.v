(** * Property theorems: the queues of the agents that start-up sets up (C104) *)

From Coq Require Import NArith List Bool Lia Arith String.
From Verif Require Import Expr Solver Regs RegTable RegFacts RegLookup RegActions Ixgbe IxgbeFacts IxgbeSpec IxgbeInit Props_Ixgbe Props_IxgbeCard.
Import ListNotations.
Open Scope N_scope.

Lemma update_length : forall A (l : list A) i x, List.length (update l i x) = List.length l.
Proof.
  intros A l i x. unfold update. rewrite app_length, firstn_length. pose proof (skipn_length i l) as S. destruct (skipn i l); cbn [List.length] in *; lia.
Qed.
Lemma update_nth : forall A (l : list A) i x j d, (i < List.length l)%nat -> nth j (update l i x) d = if Nat.eqb j i then x else nth j l d.
Proof.
  intros A l i x j d. unfold update. revert i j. induction l as [|a l IH]; intros i j H; cbn [List.length] in H; [lia|]. destruct i as [|i], j as [|j]; cbn; try reflexivity.
  apply IH. lia.
Qed.

(** The place of card [n] among the outputs of the agent of card [input], and its queue. *)
Definition place (input n : nat) : nat := if Nat.ltb input n then (n - 1)%nat else n.
Lemma place_inj : forall input n m, n <> input -> m <> input -> place input n = place input m -> n = m.
Proof. intros input n m Hn Hm. unfold place. destruct (Nat.ltb_spec input n), (Nat.ltb_spec input m); lia. Qed.

Lemma add_output_tails : forall ag dev d i q tr r, runs (add_output ag dev d i q) tr (Some r) ->
  q < 128 /\ receive_tail (fst r) = receive_tail ag /\ transmit_tails (fst r) = update (transmit_tails ag) i (Some (Mmio dev (REG_TDT q))).
Proof.
  intros ag dev d i q tr r R. unfold add_output in R.
  apply runs_bind in R as [[_ R]|(? & ? & ? & _ & R & _)]; [discriminate R|].
  apply runs_bind in R as [[_ R]|(? & ? & ? & G & R & _)]; [discriminate R|].
  destruct (N.leb_spec 128 q) as [L|L]; cbn [when] in G; [apply runs_fatal in G as [_ G]; discriminate G|]. split; [exact L|]. clear G.
  repeat (first [apply runs_bind in R as [[_ R]|(? & ? & ? & _ & R & _)]; [discriminate R|] | apply runs_phys in R as (? & ? & _ & _ & R)]; cbv beta in R).
  apply runs_ret in R as [_ R]. injection R as ->. split; reflexivity.
Qed.
Lemma add_outputs_tails : forall count ag ds input outs n tr r, runs (add_outputs ag ds (N.of_nat input) outs n count) tr (Some r) ->
  (forall m, (n <= m < n + count)%nat -> m <> input -> (place input m < List.length (transmit_tails ag))%nat) ->
  List.length (transmit_tails (fst r)) = List.length (transmit_tails ag) /\ receive_tail (fst r) = receive_tail ag /\
  (forall m, (n <= m < n + count)%nat -> m <> input -> let q := N.of_nat input * outs + N.of_nat (place input m) in
     q < 128 /\ nth (place input m) (transmit_tails (fst r)) None = Some (Mmio (N.of_nat m) (REG_TDT q))) /\
  (forall k, (forall m, (n <= m < n + count)%nat -> m <> input -> k <> place input m) -> nth k (transmit_tails (fst r)) None = nth k (transmit_tails ag) None).
Proof.
  induction count as [|c IH]; intros ag ds input outs n tr r R HL; cbn [add_outputs] in R.
  - apply runs_ret in R as [_ R]. injection R as ->. cbn [fst]. repeat split; try reflexivity; intros; lia.
  - destruct (N.eqb_spec (N.of_nat n) (N.of_nat input)) as [E|E].
    + assert (n = input) by lia. subst n. apply IH in R as (R1 & R2 & R3 & R4); [|intros m Hm; apply HL; lia]. split; [exact R1|]. split; [exact R2|]. split.
      * intros m Hm Hi. apply R3; [lia|exact Hi].
      * intros k Hk. apply R4. intros m Hm. apply Hk. lia.
    + apply runs_bind in R as [[_ R]|(r1 & t1 & t2 & R1 & R & _)]; [discriminate R|].
      replace (if N.of_nat input <? N.of_nat n then (n - 1)%nat else n) with (place input n) in R1
        by (unfold place; destruct (N.ltb_spec (N.of_nat input) (N.of_nat n)), (Nat.ltb_spec input n); lia).
      apply add_output_tails in R1 as (Q & T & U).
      assert (Hn : (place input n < List.length (transmit_tails ag))%nat) by (apply HL; lia).
      apply IH in R as (S1 & S2 & S3 & S4); [|intros m Hm Hi; rewrite U, update_length; apply HL; lia]. rewrite U, update_length in S1.
      split; [exact S1|]. split; [congruence|]. split.
      * intros m Hm Hi. destruct (Nat.eq_dec m n) as [->|Ne]; [|apply S3; [lia|exact Hi]]. split; [exact Q|]. rewrite S4.
        -- rewrite U, update_nth, Nat.eqb_refl by exact Hn. reflexivity.
        -- intros m' Hm' Hi' P. apply place_inj in P; lia.
      * intros k Hk. rewrite S4 by (intros m Hm; apply Hk; lia). rewrite U, update_nth by exact Hn. destruct (Nat.eqb_spec k (place input n)) as [->|]; [|reflexivity].
        exfalso. apply (Hk n); [lia|lia|reflexivity].
Qed.

(** An agent that was set up sends to every other card, on the queue that is its own there,
    and receives from its own card. *)
Theorem C104_tails : forall input ds tr ag ds', runs (agent_init input ds None) tr (Some (ag, ds')) ->
  let devices := List.length ds in
  (input < devices)%nat /\
  (exists a, at_reg "RDT" 0 a /\ receive_tail ag = Some (Mmio (N.of_nat input) a)) /\
  List.length (transmit_tails ag) = (devices - 1)%nat /\
  forall n, (n < devices)%nat -> n <> input ->
    exists k q a, nth k (transmit_tails ag) None = Some (Mmio (N.of_nat n) a) /\ at_reg "TDT" q a /\ q < 128 /\
      q = N.of_nat input * (N.of_nat devices - 1) + N.of_nat k /\ k = (if Nat.ltb input n then n - 1 else n)%nat.
Proof.
  intros input ds tr ag ds' R devices. unfold agent_init in R. fold devices in R.
  apply runs_bind in R as [[_ R]|(? & ? & ? & _ & R & _)]; [discriminate R|].
  apply runs_bind in R as [[_ R]|(? & ? & ? & G & R & _)]; [discriminate R|].
  destruct (Nat.leb_spec devices input) as [L|L]; cbn [when] in G; [apply runs_fatal in G as [_ G]; discriminate G|].
  apply runs_bind in R as [[_ R]|(? & ? & ? & _ & R & _)]; [discriminate R|].
  apply runs_bind in R as [[_ R]|(r1 & t1 & t2 & R1 & R & _)]; [discriminate R|].
  apply runs_bind in R as [[_ R]|(r2 & t3 & t4 & R2 & R & _)]; [discriminate R|].
  apply add_outputs_tails in R1 as (A1 & A2 & A3 & _).
  2: { intros m Hm Hi. cbn [transmit_tails]. rewrite repeat_length. unfold place. destruct (Nat.ltb_spec input m); lia. }
  cbn [transmit_tails] in A1. rewrite repeat_length in A1.
  apply runs_ret in R as [_ R]. injection R as -> _.
  assert (S : receive_tail (fst r2) = Some (Mmio (N.of_nat input) (REG_RDT 0)) /\ transmit_tails (fst r2) = transmit_tails (fst r1)).
  { unfold set_input in R2.
    repeat (first [apply runs_bind in R2 as [[_ R2]|(? & ? & ? & _ & R2 & _)]; [discriminate R2|] | apply runs_phys in R2 as (? & ? & _ & _ & R2)]; cbv beta in R2).
    apply runs_ret in R2 as [_ R2]. injection R2 as ->. split; reflexivity. }
  destruct S as [S1 S2]. rewrite S1, S2. split; [exact L|]. split.
  { exists (REG_RDT 0). split; [eexists; split; [reflexivity|inst]|reflexivity]. }
  split; [exact A1|]. intros n Hn Hi. destruct (A3 n ltac:(lia) Hi) as [Q T]. exists (place input n). eexists. eexists. split; [exact T|].
  split; [|split; [exact Q|split; [reflexivity|reflexivity]]].
  eexists. split; [reflexivity|]. unfold instance, REG_TDT. cbn [r_addr placed]. revert Q. generalize (N.of_nat input * (N.of_nat devices - 1) + N.of_nat (place input n)). intros q Q. lia.
Qed.
Print Assumptions C104_tails.
(** No two tails of the agents of a program are the same register. *)
Theorem C104_apart : forall input input' ds ds0 tr tr' ag ag' ds1 ds1', List.length ds = List.length ds0 ->
  runs (agent_init input ds None) tr (Some (ag, ds1)) -> runs (agent_init input' ds0 None) tr' (Some (ag', ds1')) ->
  forall k k' l, nth k (transmit_tails ag) None = Some l -> nth k' (transmit_tails ag') None = Some l -> input = input' /\ k = k'.
Proof.
  intros input input' ds ds0 tr tr' ag ag' ds1 ds1' E R R' k k' l H H'.
  assert (X : forall input ds tr ag ds1 k l, runs (agent_init input ds None) tr (Some (ag, ds1)) -> nth k (transmit_tails ag) None = Some l ->
    exists n, (k < List.length ds - 1)%nat /\ l = Mmio n (REG_TDT (N.of_nat input * (N.of_nat (List.length ds) - 1) + N.of_nat k)) /\ (input < List.length ds)%nat).
  { clear. intros input ds tr ag ds1 k l R H. destruct (C104_tails _ _ _ _ _ R) as (L & _ & LT & T).
    assert (Hk : (k < List.length ds - 1)%nat) by (rewrite <- LT; destruct (Nat.lt_ge_cases k (List.length (transmit_tails ag))) as [|G]; [assumption|]; rewrite nth_overflow in H by exact G; discriminate H).
    set (n := if Nat.ltb k input then k else S k).
    assert (Hn : (n < List.length ds)%nat /\ n <> input /\ (if Nat.ltb input n then n - 1 else n)%nat = k).
    { unfold n. destruct (Nat.ltb_spec k input); [split; [lia|split; [lia|]]; destruct (Nat.ltb_spec input k); lia|]. split; [lia|]. split; [lia|]. destruct (Nat.ltb_spec input (S k)); lia. }
    destruct Hn as (H1 & H2 & H3). destruct (T n H1 H2) as (k0 & q & a & T1 & T2 & T3 & T4 & T5). rewrite H3 in T5. subst k0. rewrite H in T1. injection T1 as ->.
    exists (N.of_nat n). split; [exact Hk|]. split; [|exact L]. f_equal. eapply at_reg_inv in T2; [|reflexivity]. unfold instance in T2. cbn [r_addr placed] in T2. unfold REG_TDT. rewrite <- T4. lia. }
  destruct (X _ _ _ _ _ _ _ R H) as (n & Hk & El & Hi). destruct (X _ _ _ _ _ _ _ R' H') as (n' & Hk' & El' & Hi'). rewrite <- E in Hk', El', Hi'. rewrite El in El'. injection El' as _ EQ. unfold REG_TDT in EQ.
  set (d := (List.length ds - 1)%nat) in *. replace (N.of_nat (List.length ds) - 1) with (N.of_nat d) in EQ by lia.
  assert (E2 : (input * d + k = input' * d + k')%nat) by lia. clear EQ El.
  assert (D : input = input').
  { assert (A : ((input * d + k) / d = (input' * d + k') / d)%nat) by (rewrite E2; reflexivity). rewrite !Nat.div_add_l in A by lia. rewrite (Nat.div_small k d Hk), (Nat.div_small k' d Hk') in A. lia. }
  subst input'. lia.
Qed.
Print Assumptions C104_apart.
Example C104_ex_agents : exists tr ag ds', runs (agent_init 1 [fresh; fresh; fresh] None) tr (Some (ag, ds')) /\
  transmit_tails ag = [Some (Mmio 0 0x6098); Some (Mmio 2 0x60D8)].
Proof.
  destruct (snd (exec last_written [] (agent_init 1 [fresh; fresh; fresh] None))) as [[ag ds]|] eqn:E; [|vm_compute in E; discriminate E].
  exists (fst (exec last_written [] (agent_init 1 [fresh; fresh; fresh] None))), ag, ds. split.
  - rewrite <- E. apply exec_runs.
  - vm_compute in E. injection E as <- _. reflexivity.
Qed.
