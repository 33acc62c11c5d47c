(** Property theorems C151: the contracts in the headers of the C structures, and the lemmas behind their proofs. *)

From Coq Require Import NArith ZArith Znumtheory List Bool Lia Arith.
From Verif Require Import IndexPool HashMap Cht Headers.
Import ListNotations.

(** For all sizes and expiration times and all histories of calls that meet the requires clauses of index_pool.h: every call meets its ensures
    clause, on the ghost map that the clauses of the calls before it define. *)
Theorem C151_pool : forall size exp ops, forallb (pop_ok size) ops = true ->
  exists items, pool_header size exp [] ops (snd (pool_run (pool_alloc size exp) ops)) items.
Proof.
  intros size exp ops OK. destruct (pool_header_run size ops (pool_alloc size exp) []) as (l & H & _); [|exact OK|exists l; exact H].
  split; [apply pool_alloc_wf|]. split; [constructor|]. intros i. rewrite pool_alloc_abs. reflexivity.
Qed.
Print Assumptions C151_pool.
(** The clauses leave no freedom but the index that is lent: with the same results, the same ghost map. *)
Theorem C151_pool_determined : forall size exp l ops outs l1 l2, pool_header size exp l ops outs l1 -> pool_header size exp l ops outs l2 -> l1 = l2.
Proof.
  intros size exp l ops outs l1 l2 H. revert l2. induction H as [|l o out l1' ops outs l2' E H IH]; intros l2 H2; inversion_clear H2 as [|? ? ? l1'' ? ? ? E2 H2']; [reflexivity|].
  assert (Q : l1'' = l1').
  { destruct o, out as [r| |b]; cbn [pool_ensures] in E, E2; try contradiction; try congruence; [|destruct E, E2; congruence]. destruct r as [[i u]|]; destruct E as [_ E], E2 as [_ E2]; [|congruence]. destruct E as [-> _], E2 as [-> _]. reflexivity. }
  subst l1''. apply IH. exact H2'.
Qed.
Print Assumptions C151_pool_determined.
Example C151_pool_example :
  let ops := [OBorrow 10; OBorrow 11; OBorrow 12; OUsed 12 0; OBorrow 16; OReturn 1; OUsed 16 1; ORefresh 17 0; OUsed 17 9]%N in
  forallb (pop_ok 2) ops = true /\
  snd (pool_run (pool_alloc 2 5) ops) = [RBorrow (Some (0%nat, false)); RBorrow (Some (1%nat, false)); RBorrow None; RUsed true; RBorrow (Some (0%nat, true)); RUnit; RUsed false; RUnit; RUsed false].
Proof. vm_compute. split; reflexivity. Qed.

(** For all hash functions, sizes of keys, capacities that meet the requires clause of map_alloc, and all histories of calls that meet the
    requires clauses of map.h: every call returns what its ensures clause says. *)
Theorem C151_map : forall hash ksize capacity ops outs, (capacity * 64 <= 2 ^ 64 - 1)%N ->
  map_header ksize capacity [] [] ops outs -> map_run hash (map_alloc ksize capacity) ops = outs.
Proof. intros hash ksize capacity ops outs C H. apply map_history; [lia|]. eapply map_header_frun; [apply same_nil|exact H]. Qed.
Print Assumptions C151_map.
Example C151_map_example : let mem (a : N) := [a; 7%N] in
  map_header 2 2 [] [] [(mem, MSet 1 100); (mem, MSet 2 200); (mem, MGet 2); (mem, MRemove 1); (mem, MGet 1); (mem, MSet 3 300)]%N
    [MDone true; MDone true; MVal (Some 200%N); MDone true; MVal None; MDone true].
Proof.
  intros mem.
  eapply mh_cons; [apply mc_set; [intros ? ? []|discriminate|reflexivity|reflexivity|reflexivity|reflexivity]|].
  eapply mh_cons; [apply mc_set; [intros ? ? X; vm_compute in X; repeat destruct X as [X|X]; try contradiction; injection X as <- <-; reflexivity|discriminate|reflexivity|reflexivity|reflexivity|reflexivity]|].
  eapply mh_cons; [change (MVal (Some 200%N)) with (MVal (ghostmap_get beq (ghostmap_set beq (ghostmap_set beq [] (mem 1%N) 100%N) (mem 2%N) 200%N) (mem 2%N))); apply mc_get; [intros ? ? X; vm_compute in X; repeat destruct X as [X|X]; try contradiction; injection X as <- <-; reflexivity|discriminate|reflexivity]|].
  eapply mh_cons; [apply mc_remove; [intros ? ? X; vm_compute in X; repeat destruct X as [X|X]; try contradiction; injection X as <- <-; reflexivity|discriminate|reflexivity|vm_compute; discriminate|reflexivity]|].
  eapply mh_cons; [change (MVal None) with (MVal (ghostmap_get beq (ghostmap_remove beq (ghostmap_set beq (ghostmap_set beq [] (mem 1%N) 100%N) (mem 2%N) 200%N) (mem 1%N)) (mem 1%N))); apply mc_get; [intros ? ? X; vm_compute in X; repeat destruct X as [X|X]; try contradiction; injection X as <- <-; reflexivity|discriminate|reflexivity]|].
  eapply mh_cons; [apply mc_set; [intros ? ? X; vm_compute in X; repeat destruct X as [X|X]; try contradiction; injection X as <- <-; reflexivity|discriminate|reflexivity|reflexivity|reflexivity|reflexivity]|].
  apply mh_nil.
Qed.

(** ** cht.h *)
(** 42-49, the ensures clause: [l] is the ghost map of the pool of backends. *)
Definition cht_ensures (capacity : nat) (l : items) (r : option nat) : Prop :=
  if ghostmap_forall l (fun index (_ : N) => negb (index <? capacity)%nat) then r = None
  else exists index, r = Some index /\ (index < capacity)%nat /\ ghostmap_get Nat.eq_dec l index <> None.
Lemma cht_pool : forall size p l b, poolp size p l -> forall time, avail p time b -> ghostmap_get Nat.eq_dec l b <> None.
Proof. intros size p l b (_ & _ & G) time (v & A & _). rewrite G, A. discriminate. Qed.
(** With a prime height, every call meets the clause as long as no backend that is in the pool is too old. *)
Theorem C151_cht_partial : forall height capacity, prime (Z.of_nat height) -> exists data, cht_alloc height capacity = Some data /\
  forall hash size p l time, poolp size p l -> (forall b v, (b < capacity)%nat -> ghostmap_get Nat.eq_dec l b = Some v -> pool_young time (expiry p) b v = true) ->
  cht_ensures capacity l (cht_find data height capacity hash p time).
Proof.
  intros height capacity P. destruct (cht_find_complete height capacity P) as (data & A & F). exists data. split; [exact A|]. intros hash size p l time R Y. specialize (F hash p time).
  unfold cht_ensures. destruct (ghostmap_forall l _) eqn:E.
  - destruct (cht_find data height capacity hash p time) as [b|]; [|reflexivity]. exfalso. destruct F as (B & before & after & _ & AV & _).
    pose proof (cht_pool size p l b R time AV) as G. destruct (ghostmap_get Nat.eq_dec l b) as [v|] eqn:GE; [|contradiction].
    pose proof (forall_pred Nat.eq_dec l _ b v E GE) as X. cbv beta in X. apply negb_true_iff, Nat.ltb_ge in X. lia.
  - destruct (cht_find data height capacity hash p time) as [b|].
    + destruct F as (B & before & after & _ & AV & _). exists b. split; [reflexivity|]. split; [exact B|]. exact (cht_pool size p l b R time AV).
    + exfalso. apply Bool.not_true_iff_false in E. apply E. destruct R as (W & D & G). apply (forall_all Nat.eq_dec); [exact D|]. intros b v GE. apply negb_true_iff, Nat.ltb_ge.
      destruct (Nat.le_gt_cases capacity b) as [X|X]; [exact X|]. exfalso. apply (F b X). exists v. split; [rewrite <- G; exact GE|]. apply (young_iff _ _ b). exact (Y b v X GE).
Qed.
Print Assumptions C151_cht_partial.
(** But the clause does not speak of time: with a backend that is too old, it promises a backend where none is found. *)
Theorem C151_cht_refuted : exists data p l, cht_alloc 5 3 = Some data /\ poolp 3 p l /\ p = fst (pool_run (pool_alloc 3 10) [OBorrow 5%N]) /\
  forall hash, (hash < 5)%nat -> cht_find data 5 3 hash p 20 = None /\ ~ cht_ensures 3 l (cht_find data 5 3 hash p 20).
Proof.
  destruct (cht_alloc 5 3) as [data|] eqn:A; [|vm_compute in A; discriminate].
  destruct (pool_header_run 3 [OBorrow 5%N] (pool_alloc 3 10) []) as (l & H & R); [split; [apply pool_alloc_wf|]; split; [constructor|intros i; rewrite pool_alloc_abs; reflexivity]|reflexivity|].
  set (p := fst (pool_run (pool_alloc 3 10) [OBorrow 5%N])) in *. exists data, p, l. split; [reflexivity|]. split; [exact R|]. split; [reflexivity|].
  assert (N0 : forall hash, (hash < 5)%nat -> cht_find data 5 3 hash p 20 = None).
  { vm_compute in A. injection A as <-. intros hash X. do 5 (destruct hash as [|hash]; [vm_compute; reflexivity|]). lia. }
  intros hash X. split; [apply N0; exact X|]. rewrite (N0 hash X). unfold cht_ensures. destruct R as (_ & _ & G).
  assert (E : ghostmap_forall l (fun index (_ : N) => negb (index <? 3)%nat) = false).
  { eapply (notpred_notforall Nat.eq_dec l _ 0%nat 5%N); [rewrite G; vm_compute; reflexivity|reflexivity]. }
  rewrite E. intros (i & Y & _). discriminate.
Qed.
Print Assumptions C151_cht_refuted.
Example C151_cht_example : prime (Z.of_nat 5) /\ let p := fst (pool_run (pool_alloc 3 10) [OBorrow 5; OBorrow 6]%N) in
  (forall hash, (hash < 5)%nat -> exists data b, cht_alloc 5 3 = Some data /\ cht_find data 5 3 hash p 8 = Some b /\ (b < 2)%nat).
Proof.
  split; [exact prime_5|]. intros p hash X. do 5 (destruct hash as [|hash]; [do 2 eexists; split; [vm_compute; reflexivity|]; split; [vm_compute; reflexivity|lia]|]). lia.
Qed.

(** All lemmas of ghost_map.gh 70-383, in order, for all types of keys with equality and of values. *)
Theorem C151_ghostmap_lemmas : forall (K V : Type) (keq : forall a b : K, {a = b} + {a <> b}) (m : list (K * V)) (key other : K) (value : V) (pred : K -> V -> bool),
  let get := ghostmap_get keq in let set := ghostmap_set keq in let remove := ghostmap_remove keq in
  (~ In value (map snd m) -> get m key <> Some value) /\
  (get m key <> None -> In key (map fst m)) /\
  (get m key = None -> ~ In key (map fst m)) /\
  (get m key = None -> length (set m key value) = (length m + 1)%nat) /\
  get (set m key value) key = Some value /\
  (other <> key -> get (set m key value) other = get m other) /\
  (~ In other (map fst m) -> other <> key -> ~ In other (map fst (set m key value))) /\
  (ghostmap_distinct m -> ghostmap_distinct (set m key value)) /\
  get (remove m key) key = None /\
  (key <> other -> set (remove m other) key value = remove (set m key value) other) /\
  (other <> key -> get (remove m key) other = get m other) /\
  (ghostmap_distinct m -> ghostmap_distinct (remove m key)) /\
  (get m key = None -> remove m key = m) /\
  (length (remove m key) <= length m)%nat /\
  (get m key <> None -> (length (remove m key) < length m)%nat) /\
  (ghostmap_distinct m -> get m key <> None -> length (remove m key) = (length m - 1)%nat) /\
  remove (remove m key) other = remove (remove m other) key /\
  (get m key = None -> remove (set m key value) key = m) /\
  (~ In value (map snd m) -> ~ In value (map snd (remove m key))) /\
  (ghostmap_forall m pred = true -> ghostmap_forall (remove m key) pred = true) /\
  (ghostmap_forall m pred = true -> get m key = Some value -> pred key value = true) /\
  (get m key = Some value -> pred key value = false -> ghostmap_forall m pred = false) /\
  (ghostmap_forall (remove m key) pred = true -> get m key = Some value -> length (remove m key) = (length m - 1)%nat -> pred key value = true -> ghostmap_forall m pred = true).
Proof.
  intros K V keq m key other value pred get set remove. unfold get, set, remove.
  repeat match goal with |- _ /\ _ => split end.
  - apply value_notmem.
  - apply get_mem.
  - intros H I. apply (get_mem keq) in I. contradiction.
  - intros H. rewrite set_length by exact H. lia.
  - apply set_get.
  - apply set_other.
  - apply set_notmem.
  - apply set_distinct.
  - apply remove_get.
  - apply set_remove.
  - apply remove_other.
  - apply remove_distinct.
  - apply remove_missing.
  - apply remove_length_le.
  - apply remove_length_lt.
  - apply remove_length.
  - apply remove_swap.
  - apply remove_set.
  - apply remove_notmem.
  - apply remove_forall.
  - apply forall_pred.
  - apply notpred_notforall.
  - apply extra_forall.
Qed.
Print Assumptions C151_ghostmap_lemmas.
Open Scope Z_scope.
(** Those with quantified facts, 391-473. *)
Theorem C151_array_lemmas : forall (V : Type) (m : list (Z * V)) (size i missing : Z), let has := ghostmap_has (V := V) Z.eq_dec in let remove := ghostmap_remove (V := V) Z.eq_dec in
  ((forall key, has m key = false) -> m = []) /\
  ((forall n, bounds_check (i + 1) n size = has m n \/ n = i) -> forall n, bounds_check (i + 1) n size = has (remove m i) n \/ n = i) /\
  ((forall n, bounds_check 0 n size = has m n) -> ghostmap_distinct m -> size >= 0 -> Z.of_nat (length m) = size) /\
  ((forall n, has m n = false \/ bounds_check (i + 1) n size = true \/ n = i) -> forall n, has (remove m i) n = false \/ bounds_check (i + 1) n size = true \/ n = i) /\
  ((forall n, has m n = false \/ bounds_check 0 n size = true) -> ghostmap_distinct m -> size >= 0 -> ghostmap_get Z.eq_dec m missing = None -> 0 <= missing -> missing < size -> Z.of_nat (length m) < size).
Proof.
  intros V m size i missing has remove. unfold has, remove. split; [|split; [|split; [|split]]].
  - apply has_nothing.
  - intros H. apply array_size_hack; [exact H|reflexivity].
  - intros H D P. apply array_keys; [lia|exact H|exact D].
  - intros H n. destruct (Z.eq_dec n i) as [->|NE]; [auto|]. destruct (H n) as [X|X]; [|auto]. left. unfold ghostmap_has in *. rewrite remove_other by auto. exact X.
  - intros H D P G A B. eapply array_max; eauto. intros n N. destruct (H n) as [X|X]; [congruence|exact X].
Qed.
Print Assumptions C151_array_lemmas.
(** All lemmas of arith.gh and modulo.gh, in order; C's division and remainder round to zero. *)
Theorem C151_arithmetic_lemmas : forall a b c g k l n q r x y : Z,
  (0 <= a -> 0 < b -> 0 <= c -> a * b = c -> a <= c) /\
  (0 <= x -> 0 <= y -> 0 <= x * y) /\
  (x <= n -> 0 <= a -> x * a <= n * a) /\
  (0 < a -> 0 < b -> 0 < a * b) /\
  (0 <= x -> x < n -> 0 < a -> 0 <= x * a /\ x * a < n * a) /\
  (0 <= x -> x <= a -> 0 <= y -> y <= b -> 0 <= x * y /\ x * y <= a * b) /\
  (x = y -> 0 <= a -> a * x = a * y) /\
  (a < b -> a <> b) /\
  (g = Z.rem k l -> l > 0 -> - l <= g /\ g < l) /\
  (g = Z.rem k l -> l > 0 -> k >= 0 -> 0 <= g /\ g < l) /\
  (a >= 0 -> b >= 0 -> l > 0 -> Z.rem (Z.rem a l + b) l = Z.rem (a + b) l) /\
  (0 < c -> 0 <= loop_fp k c /\ loop_fp k c < c) /\
  (0 <= a -> a < b -> 0 <= r -> a = q * b + r -> r < b -> q = 0) /\
  (- b < a -> a <= 0 -> - b < r -> a = q * b + r -> r <= 0 -> q = 0) /\
  (- b < a -> a < b -> Z.quot a b = 0) /\
  (0 <= a -> 0 < b -> Z.quot (a + b) b = Z.quot a b + 1) /\
  (0 <= k -> k < c -> loop_fp k c = k) /\
  (0 <= a -> 0 < b -> Z.rem (a + b) b = Z.rem a b) /\
  (0 <= k -> 0 < c -> loop_fp (k + c) c = loop_fp k c) /\
  (0 <= k -> 0 < c -> 0 <= k + n * c -> loop_fp (k + n * c) c = loop_fp k c) /\
  (0 <= k -> 0 < c -> loop_fp k c = loop_fp (loop_fp k c) c) /\
  (- y < x -> x < y -> x = Z.rem x y) /\
  (0 <= x -> x < c -> 0 <= y -> y < c -> exists z, 0 <= z /\ z < c /\ loop_fp (z + y) c = x) /\
  (0 <= a -> 0 < c -> loop_fp (loop_fp a c + 1) c = loop_fp (a + 1) c) /\
  (0 <= a -> 0 < b -> Z.quot (a * b) b = a) /\
  (0 <= a -> 0 < b -> Z.quot a b * b <= a) /\
  (0 <= a -> 0 < b -> 0 < c -> a < b * c -> Z.quot a c < Z.quot (b * c) c) /\
  (0 <= a -> 0 < c -> a <= b -> Z.quot a c <= Z.quot b c) /\
  (0 <= k -> 0 < c -> loop_fp k c = Z.rem k c) /\
  (0 <= a -> 0 < b -> 0 <= k -> Z.rem (a + b * k) b = Z.rem a b) /\
  (0 < a -> 0 < b -> Z.quot (a * b - 1) b = a - 1) /\
  (0 < a -> 1 < b -> Z.quot (a * b + 1) b = a) /\
  (0 <= a -> 0 < b -> Z.rem (a * b) b = 0) /\
  (a >= 0 -> l > 0 -> Z.rem (a + (l - Z.rem a l)) l = 0).
Proof.
  intros a b c g k l n q r x y.
  repeat match goal with |- _ /\ _ => split end; intros;
    try (rewrite !loop_mod by lia); try (split; nia); try nia.
  - subst g. pose proof (Z.rem_bound_abs k l ltac:(lia)). lia.
  - subst g. pose proof (Z.rem_bound_pos k l ltac:(lia) ltac:(lia)). lia.
  - rewrite !Z.rem_mod_nonneg by (try apply Z.add_nonneg_nonneg; try apply Z.rem_nonneg; lia). apply Z.add_mod_idemp_l. lia.
  - pose proof (Z.mod_pos_bound k c ltac:(lia)). lia.
  - destruct (Z.le_gt_cases 0 a); [apply Z.quot_small; lia|]. rewrite <- (Z.opp_involutive a), Z.quot_opp_l by lia. rewrite Z.quot_small by lia. reflexivity.
  - rewrite !Z.quot_div_nonneg by lia. rewrite <- (Z.mul_1_l b) at 1. rewrite Z.div_add by lia. reflexivity.
  - apply Z.mod_small. lia.
  - rewrite !Z.rem_mod_nonneg by lia. rewrite <- (Z.mul_1_l b) at 1. apply Z.mod_add. lia.
  - rewrite <- (Z.mul_1_l c) at 1. apply Z.mod_add. lia.
  - apply Z.mod_add. lia.
  - symmetry. apply Z.mod_mod. lia.
  - symmetry. destruct (Z.le_gt_cases 0 x); [apply Z.rem_small; lia|]. rewrite <- (Z.opp_involutive x), Z.rem_opp_l by lia. rewrite Z.rem_small by lia. lia.
  - exists ((x - y) mod c). pose proof (Z.mod_pos_bound (x - y) c ltac:(lia)). split; [lia|]. split; [lia|]. rewrite loop_mod by lia. rewrite Z.add_mod_idemp_l by lia.
    replace (x - y + y) with x by lia. apply Z.mod_small. lia.
  - apply Z.add_mod_idemp_l. lia.
  - apply Z.quot_mul. lia.
  - rewrite Z.quot_div_nonneg by lia. rewrite Z.mul_comm. apply Z.mul_div_le. lia.
  - rewrite Z.quot_mul by lia. rewrite Z.quot_div_nonneg by lia. apply Z.div_lt_upper_bound; nia.
  - rewrite !Z.quot_div_nonneg by lia. apply Z.div_le_mono; lia.
  - symmetry. apply Z.rem_mod_nonneg; lia.
  - rewrite !Z.rem_mod_nonneg by nia. rewrite (Z.mul_comm b k). apply Z.mod_add. lia.
  - rewrite Z.quot_div_nonneg by nia. symmetry. apply Z.div_unique with (r := b - 1); nia.
  - rewrite Z.quot_div_nonneg by nia. symmetry. apply Z.div_unique with (r := 1); nia.
  - apply Z.rem_mul. lia.
  - pose proof (Z.rem_bound_pos a l ltac:(lia) ltac:(lia)). rewrite Z.rem_mod_nonneg by lia. rewrite (Z.rem_mod_nonneg a l) by lia.
    replace (a + (l - a mod l)) with (0 + (a / l + 1) * l) by (pose proof (Z.div_mod a l ltac:(lia)); nia). rewrite Z.mod_add by lia. apply Z.mod_0_l. lia.
Qed.
Print Assumptions C151_arithmetic_lemmas.
(** All lemmas of mod-pow2.gh. *)
Theorem C151_power_lemmas :
  (forall x m, is_pow2 x m <> None -> exists r, x = pow2 r /\ (r <= m)%nat) /\
  (forall x n m, x = pow2 n -> (n <= m)%nat -> is_pow2 x m = Some n) /\
  (forall k capacity m, 0 <= k -> k < pow2 64 -> 0 < capacity -> capacity = pow2 m -> (m < 64)%nat ->
     Z.rem k capacity = Z.land k (capacity - 1) /\ Z.rem k capacity = loop_fp k capacity) /\
  (forall x, 0 < x -> x < pow2 64 -> Z.land x (x - 1) = 0 -> is_pow2 x 63 <> None).
Proof.
  split; [|split; [|split]].
  - intros x m H. destruct (is_pow2 x m) as [r|] eqn:E; [|contradiction]. exists r. apply is_pow2_sound. exact E.
  - intros x n m -> L. apply is_pow2_complete. exact L.
  - intros k c m K1 K2 C -> M. rewrite loop_mod by exact C. rewrite mask by exact K1. rewrite Z.rem_mod_nonneg by lia. auto.
  - intros x P B L. destruct (pow2_check x (conj P B) L) as (n & N & ->). rewrite is_pow2_complete by exact N. discriminate.
Qed.
Print Assumptions C151_power_lemmas.
Example C151_lemmas_example : is_pow2 (pow2 40) 63 = Some 40%nat /\ is_pow2 12 63 = None /\ loop_fp (-5) 8 = 3 /\ Z.land 77 (pow2 4 - 1) = 13 /\
  ghostmap_set Z.eq_dec [(1, true); (2, false); (1, false)] 1 true = [(2, false); (1, true)].
Proof. vm_compute. repeat split; reflexivity. Qed.
