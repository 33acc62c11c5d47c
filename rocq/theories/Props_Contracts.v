(** * Properties of the symbolic contracts (C46-C51, C82) *)

From Coq Require Import NArith List Bool Lia Arith Znumtheory ZArith.
From Verif Require Import Expr Solver IndexPool Cht MemAlloc Contracts ContractsMore Wt.
Import ListNotations.
Open Scope N_scope.

(** ** C46 *)

(** Nothing is rejected: the multiplication wraps before it is compared with the
    largest size_t. *)
Theorem C46_overflow_refuted :
  (forall r capacity, width capacity = 64 -> eb r (map_alloc_requires capacity) = true /\ eb r (pool_alloc_requires capacity) = true) /\
  exists r capacity, width capacity = 64 /\ 2 ^ 64 - 1 < ev r capacity * 64 /\
    eb r (map_alloc_requires capacity) = true /\ eb r (pool_alloc_requires capacity) = true.
Proof.
  split; [intros r c W; split; apply map_requires_true; auto|].
  exists env0, (BVV 64 (2 ^ 60)). split; [reflexivity|]. split; [reflexivity|]. split; apply map_requires_true; reflexivity.
Qed.
Print Assumptions C46_overflow_refuted.
(** No legal capacity is rejected. *)
Theorem C46_legal_accepted_partial : forall r capacity, width capacity = 64 -> ev r capacity * 64 < 2 ^ 64 ->
  eb r (map_alloc_requires capacity) = true /\ eb r (pool_alloc_requires capacity) = true.
Proof. intros r c W _. split; apply map_requires_true; exact W. Qed.
Print Assumptions C46_legal_accepted_partial.
Example C46_example : eb env0 (map_alloc_requires (BVV 64 (2 ^ 57))) = true /\ ev env0 (BVV 64 (2 ^ 57)) * 64 < 2 ^ 64.
Proof. split; vm_compute; reflexivity. Qed.

(** ** C47 *)
Theorem C47_memory_precondition : forall r count size, width count = 64 -> width size = 64 ->
  eb r (memory_alloc_requires count size) = true <-> ev r count = 1 \/ ev r count * ev r size <= 2 ^ 64 - 1.
Proof. exact memory_requires_exact. Qed.
Print Assumptions C47_memory_precondition.
Example C47_example :
  eb env0 (memory_alloc_requires (BVV 64 (2 ^ 60)) (BVV 64 16)) = false /\
  eb env0 (memory_alloc_requires (BVV 64 (2 ^ 60)) (BVV 64 15)) = true /\
  eb env0 (memory_alloc_requires (BVV 64 1) (BVV 64 (2 ^ 64 - 1))) = true.
Proof. vm_compute. auto. Qed.

(** claripy raises unless the operands of every comparison have the same size; all the formulas
    of these contracts are well sized, whatever the arguments. *)
Fixpoint sizedb (e : bexp) : bool :=
  match e with
  | BEq a b | BUlt a b | BUle a b => wtv a && wtv b && (width a =? width b)
  | BNot a => sizedb a
  | BAnd a b | BOr a b | BIff a b => sizedb a && sizedb b
  | BIteB c a b => sizedb c && sizedb a && sizedb b
  | _ => true
  end.
Theorem C47_sizes : forall count size addr mult, Forall (fun e => wtv e = true /\ width e = 64) [count; size; addr; mult] ->
  forallb sizedb ([map_alloc_requires size; pool_alloc_requires size; memory_alloc_requires count size] ++ memory_alloc_adds addr count size mult) = true /\
  forallb sizedb ([borrow_requires; borrow_adds; borrow_guard; refresh_requires; return_requires; cht_guard_pred] ++ borrow_true_adds ++ cht_true_adds) = true.
Proof.
  intros count size addr mult H. split; [|vm_compute; reflexivity].
  inversion H as [|? ? [A1 A2] H1]; subst. inversion H1 as [|? ? [B1 B2] H2]; subst. inversion H2 as [|? ? [C1 C2] H3]; subst. inversion H3 as [|? ? [D1 D2] _]; subst.
  cbn [app forallb sizedb wtv width map_alloc_requires pool_alloc_requires memory_alloc_requires memory_alloc_adds BNe].
  unfold map_alloc_requires, pool_alloc_requires, memory_alloc_requires, memory_alloc_adds, BNe. cbn [forallb sizedb wtv width].
  rewrite A1, A2, B1, B2, C1, C2, D1, D2. reflexivity.
Qed.
Print Assumptions C47_sizes.
Example C47_sizes_ex : Forall (fun e => wtv e = true /\ width e = 64) [BVS 64 0; BVV 64 16; BVS 64 1; BVS 64 2].
Proof. repeat constructor. Qed.

(** ** C48 *)

(** Every history of the C pool, from its allocation, is one the contract allows: in
    each call the precondition is true, and the constraints added on the branch taken
    have a solution with the C results, after which the ghost contents are the C ones. *)
Theorem C48_pool_contract : forall size exp ops p outs, N.of_nat size < 2 ^ 64 -> exp < 2 ^ 64 ->
  forallb (pop_ok size) ops = true -> (forall t i, In (OUsed t i) ops -> t < 2 ^ 64 /\ N.of_nat i < 2 ^ 64) ->
  pool_run (pool_alloc size exp) ops = (p, outs) -> admits_run size exp (fun _ => None) ops outs (pool_abs p).
Proof. exact pool_refines_contract. Qed.
Print Assumptions C48_pool_contract.
Example C48_example : let ops := [OBorrow 5; OBorrow 6; OBorrow 7; OUsed 9 0; ORefresh 9 1; OBorrow 16; OReturn 0; OUsed 17 1] in
  forallb (pop_ok 2) ops = true /\
  snd (pool_run (pool_alloc 2 10) ops) =
  [RBorrow (Some (0%nat, false)); RBorrow (Some (1%nat, false)); RBorrow None; RUsed true; RUnit; RBorrow (Some (0%nat, true)); RUnit; RUsed true].
Proof. vm_compute. auto. Qed.
(** The contract is not empty of content: it excludes wrong outcomes. *)
Example C48_excludes : ~ pool_admits 1 10 (fun k => if Nat.eqb k 0 then Some 5 else None) (OBorrow 7) (RBorrow (Some (0%nat, false))) (fun k => if Nat.eqb k 0 then Some 7 else None).
Proof.
  intros [r [_ [[_ [H _]] [_ [_ [_ [U [A _]]]]]]]]. specialize (A _ (or_intror (or_introl eq_refl))). cbn [evalb BNe] in A. rewrite U in A.
  change (negb (0 =? ev r no8)) with false in A. cbn iota in A. rewrite H in A. discriminate.
Qed.

(** ** C49 *)

(** No match: admitted exactly when real. *)
Theorem C49_not_found_partial : forall kb, 0 < kb -> kb * 8 < 2 ^ 64 -> forall t, table_ok kb t -> forall key, key < 2 ^ (kb * 8) ->
  lpm_admits kb t key None <-> lpm_result kb t key None.
Proof. exact lpm_none. Qed.
Print Assumptions C49_not_found_partial.
(** Found: admitted if the longest match was entered with the very key looked up. *)
Theorem C49_exact_entry_partial : forall kb, 0 < kb -> kb * 8 < 2 ^ 64 -> forall t, table_ok kb t -> forall key, key < 2 ^ (kb * 8) ->
  forall w v, In ((key, w), v) t ->
  (forall k' w' v', In ((k', w'), v') t -> same_prefix (kb * 8) w' k' key -> w' < w \/ v' = v) ->
  lpm_admits kb t key (Some v).
Proof. exact lpm_exact. Qed.
Print Assumptions C49_exact_entry_partial.
(** What the contract admits is real. *)
Theorem C49_admitted_is_real_partial : forall kb, 0 < kb -> kb * 8 < 2 ^ 64 -> forall t, table_ok kb t -> forall key, key < 2 ^ (kb * 8) ->
  forall v, lpm_admits kb t key (Some v) -> lpm_result kb t key (Some v).
Proof. exact lpm_sound. Qed.
Print Assumptions C49_admitted_is_real_partial.
(** 10.0.0.0/8 -> 7 and 10.0.0.1/32 -> 8. *)
Definition routes : table := [((10 * 2 ^ 24, 8), 7); ((10 * 2 ^ 24 + 1, 32), 8)].
Example routes_ok : table_ok 4 routes.
Proof.
  split; [repeat constructor; cbn; intuition discriminate|]. intros k w v [E|[E|[]]]; injection E as <- <- <-; split; reflexivity || discriminate.
Qed.
Example C49_example : lpm_admits 4 routes (10 * 2 ^ 24 + 1) (Some 8).
Proof.
  apply lpm_exact with (w := 32); try reflexivity; [apply routes_ok|right; left; reflexivity|].
  intros k w v [E|[E|[]]] S; injection E as <- <- <-; [left; reflexivity|right; reflexivity].
Qed.
(** 10.0.0.2 is routed to 7 by the /8, and the contract has no execution for that. *)
Theorem C49_found_refuted : exists t key v, table_ok 4 t /\ key < 2 ^ 32 /\ lpm_result 4 t key (Some v) /\ forall v', ~ lpm_admits 4 t key (Some v').
Proof.
  exists routes, (10 * 2 ^ 24 + 2), 7. split; [apply routes_ok|]. split; [reflexivity|]. split.
  - exists (10 * 2 ^ 24), 8. split; [left; reflexivity|]. split.
    + apply (item_match 4 eq_refl eq_refl routes routes_ok (10 * 2 ^ 24 + 2) eq_refl _ _ 7 0); [left; reflexivity|vm_compute; reflexivity].
    + intros k w v [E|[E|[]]] S; injection E as <- <- <-; [reflexivity|]. exfalso.
      apply (item_match 4 eq_refl eq_refl routes routes_ok (10 * 2 ^ 24 + 2) eq_refl _ _ 8 0) in S; [vm_compute in S; discriminate|right; left; reflexivity].
  - intros v' [_ [w [_ [I _]]]]. destruct I as [E|[E|[]]]; discriminate E.
Qed.
Print Assumptions C49_found_refuted.

(** ** C50 *)

(** For keys of [kb] bytes, items being [k] and [w] concatenated. *)
Theorem C50_prefix_match : forall r kb item key k w, 0 < kb -> kb * 8 < 2 ^ 64 -> width item = kb * 8 + 64 -> width key = kb * 8 ->
  ev r item = k * 2 ^ 64 + w -> w < 2 ^ 64 -> w <= kb * 8 ->
  eb r (matches kb item key) = true <->
  (forall i, kb * 8 - w <= i -> i < kb * 8 -> N.testbit k i = N.testbit (ev r key) i).
Proof. exact matches_prefix. Qed.
Print Assumptions C50_prefix_match.
(** Keys of 4, 8 and 16 bytes: shorter than, as long as and longer than the width. *)
Example C50_example :
  map (fun kb => map (fun w => eb env0 (matches kb (BVV (kb * 8 + 64) ((2 ^ (kb * 8 - 3)) * 2 ^ 64 + w)) (BVV (kb * 8) 0))) [0; 2; 3; 8])
      [4; 8; 16] = [[true; true; false; false]; [true; true; false; false]; [true; true; false; false]].
Proof. vm_compute. reflexivity. Qed.

(** ** C51 *)
Theorem C51_cht_contract_partial : forall h c data hash p time size, prime (Z.of_nat h) -> cht_alloc h c = Some data ->
  N.of_nat c < 2 ^ 16 -> N.of_nat size < 2 ^ 64 -> (forall j, (size <= j)%nat -> pool_abs p j = None) ->
  (forall b v, (b < c)%nat -> pool_abs p b = Some v -> young time (expiry p) v) ->
  cht_admits (N.of_nat c) (pool_abs p) (cht_find data h c hash p time).
Proof. exact cht_admitted. Qed.
Print Assumptions C51_cht_contract_partial.
(** A pool of 3 backends whose expiry is 10; backend 0 was seen at time 5. *)
Definition one_backend : pool := fst (pool_run (pool_alloc 3 10) [OBorrow 5]).
Example C51_example : exists data, cht_alloc 5 3 = Some data /\ cht_find data 5 3 7 one_backend 8 = Some 0%nat /\
  (forall b v, (b < 3)%nat -> pool_abs one_backend b = Some v -> young 8 10 v).
Proof.
  eexists. split; [vm_compute; reflexivity|]. split; [vm_compute; reflexivity|].
  intros b v B H. destruct b as [|[|[|b]]]; [vm_compute in H; injection H as <-; left; reflexivity|vm_compute in H; discriminate|vm_compute in H; discriminate|lia].
Qed.
(** At time 20 it has expired: the C lookup finds nothing, and the contract says that
    something is found, as the pool still lists it. *)
Theorem C51_expired_refuted : exists data, cht_alloc 5 3 = Some data /\ pool_reach 3 10 one_backend /\
  cht_find data 5 3 7 one_backend 20 = None /\ ~ cht_admits 3 (pool_abs one_backend) None.
Proof.
  eexists. split; [vm_compute; reflexivity|]. split; [exists [OBorrow 5]; eexists; split; [reflexivity|vm_compute; reflexivity]|].
  split; [vm_compute; reflexivity|]. intros G. cbn [cht_admits] in G. specialize (G 0%nat ltac:(vm_compute; discriminate)). vm_compute in G. discriminate.
Qed.
Print Assumptions C51_expired_refuted.

(** ** C82 *)

(** Every block the C allocator hands out satisfies the address constraints of the
    contract; [mult] is the contract's fresh symbol. *)
Theorem C82_allocation_contract_partial : forall base total ops st, 0 < base -> base + total < SIZE_MAX ->
  arun base total ainit ops = Some st -> forall b, In b (ablocks st) -> bsize b <= SIZE_MAX - 64 ->
  forall r addr count size mult, describes_block r b addr count size -> width mult = 64 ->
  ev r mult = baddr b / (bsize b + 64 - bsize b mod 64) ->
  holds r (memory_alloc_adds addr count size mult).
Proof.
  intros base total ops st B T H b I SM r addr count size mult D W M.
  destruct (alloc_history base total ops st B ltac:(lia) H) as [OK _]. eapply block_admitted; eauto.
Qed.
Print Assumptions C82_allocation_contract_partial.
Example C82_example : exists st b, arun 4096 10000 ainit [AAlloc 3 100; AAlloc 10 8] = Some st /\ In b (ablocks st) /\
  b = mkBlock 4416 80 10 8 /\ 4416 / (8 + 64 - 8 mod 64) = 69.
Proof. eexists. eexists. split; [vm_compute; reflexivity|]. split; [left; reflexivity|]. split; reflexivity. Qed.
(** A block that ends at the last address is ruled out by the contract, though the
    header allows it. *)
Theorem C82_last_address_refuted : exists st b, arun (2 ^ 64 - 64) 63 ainit [AAlloc 63 1] = Some st /\ In b (ablocks st) /\
  forall r addr count size mult, describes_block r b addr count size -> ~ holds r (memory_alloc_adds addr count size mult).
Proof.
  eexists. eexists. split; [vm_compute; reflexivity|]. split; [left; reflexivity|].
  intros r addr count size mult [W1 [W2 [W3 [A [C S]]]]] H. specialize (H _ (or_intror (or_introl eq_refl))).
  cbn [evalb evalv width] in H. rewrite W2, A, C, S in H. vm_compute in H. discriminate.
Qed.
Print Assumptions C82_last_address_refuted.
