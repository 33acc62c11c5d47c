(** Property theorems C37-C45: the C data structures, allocator and configuration. *)

From Coq Require Import NArith ZArith List Bool Arith Lia Permutation Znumtheory.
From Verif Require Import IndexPool HashMap Cht MemAlloc Config.
Import ListNotations.
Open Scope N_scope.

(** C37: borrow, from any pool reached by calls that respect the preconditions. *)
Theorem C37_borrow : forall size exp p time,
  pool_reach size exp p -> time < TIME_MAX ->
  match pool_borrow p time with
  | (Some (i, used), p') =>
      (i < size)%nat /\
      (if used then exists old, pool_abs p i = Some old /\ ~ young time exp old
       else pool_abs p i = None) /\
      pool_abs p' i = Some time /\
      (forall j, j <> i -> pool_abs p' j = pool_abs p j)
  | (None, p') =>
      (forall i, (i < size)%nat -> exists v, pool_abs p i = Some v /\ young time exp v) /\ p' = p
  end.
Proof. exact pool_borrow_contract. Qed.
Print Assumptions C37_borrow.

(** A pool of two with expiry 5: both indices borrowed, the third borrow fails while
    they are young and reuses index 0 once it has expired. *)
Example C37_example :
  let ops := [OBorrow 10; OBorrow 11; OBorrow 12; OBorrow 16] in
  forallb (pop_ok 2) ops = true /\
  snd (pool_run (pool_alloc 2 5) ops) =
  [RBorrow (Some (0%nat, false)); RBorrow (Some (1%nat, false)); RBorrow None; RBorrow (Some (0%nat, true))].
Proof. vm_compute. split; reflexivity. Qed.

(** C38: any history behaves as the finite map of the contract. *)
Theorem C38_history : forall size exp ops p outs,
  forallb (pop_ok size) ops = true ->
  pool_run (pool_alloc size exp) ops = (p, outs) ->
  spec_run size exp (fun _ => None) ops outs (pool_abs p).
Proof. exact pool_history. Qed.
Print Assumptions C38_history.

Example C38_example :
  let ops := [OBorrow 10; ORefresh 14 0; OUsed 19 0; OUsed 20 0; OReturn 0; OUsed 14 0] in
  forallb (pop_ok 1) ops = true /\
  snd (pool_run (pool_alloc 1 5) ops) =
  [RBorrow (Some (0%nat, false)); RUnit; RUsed true; RUsed false; RUnit; RUsed false].
Proof. vm_compute. split; reflexivity. Qed.

(** C39: the hash map answers as the association list of the specification. *)
Theorem C39_finite_map : forall hash ksize capacity ops outs,
  capacity <= 2 ^ 63 ->
  frun ksize capacity [] ops = Some outs ->
  map_run hash (map_alloc ksize capacity) ops = outs.
Proof. exact map_history. Qed.
Print Assumptions C39_finite_map.

(** Three two-byte keys that all collide; the middle one is removed and the last is
    still found, then an absent key is looked up. *)
Definition C39_mem (a : N) : list N := [a; 7].
Example C39_example :
  let m := C39_mem in
  let ops := [(m, MSet 1 100); (m, MSet 2 200); (m, MSet 3 300); (m, MGet 3); (m, MRemove 2);
              (m, MGet 3); (m, MGet 2); (m, MSet 2 201); (m, MGet 2); (m, MGet 1)] in
  let outs := [MDone true; MDone true; MDone true; MVal (Some 300); MDone true;
               MVal (Some 300); MVal None; MDone true; MVal (Some 201); MVal (Some 100)] in
  frun 2 3 [] ops = Some outs /\ map_run (fun _ => 3) (map_alloc 2 3) ops = outs.
Proof. vm_compute. split; reflexivity. Qed.

(** C40: below capacity, inserting an absent key reports that it was stored. *)
Theorem C40_room : forall hash ksize capacity before m key value,
  capacity <= 2 ^ 63 ->
  frun ksize capacity [] (before ++ [(m, MSet key value)]) <> None ->
  last (map_run hash (map_alloc ksize capacity) (before ++ [(m, MSet key value)])) (MVal None) = MDone true.
Proof. exact map_set_room. Qed.
Print Assumptions C40_room.

Example C40_example :
  let m := C39_mem in
  frun 2 3 [] ([(m, MSet 1 100); (m, MSet 2 200); (m, MRemove 1); (m, MSet 3 1)] ++ [(m, MSet 4 5)]) <> None.
Proof. vm_compute. discriminate. Qed.

(** C41: the real capacity. *)
Theorem C41_real_capacity : forall capacity, 0 < capacity -> capacity <= 2 ^ 63 ->
  (exists k, get_real_capacity capacity = 2 ^ k) /\
  capacity <= get_real_capacity capacity /\
  (1 < get_real_capacity capacity -> get_real_capacity capacity < 2 * capacity).
Proof. exact get_real_capacity_least. Qed.
Print Assumptions C41_real_capacity.

Example C41_example : map get_real_capacity [0; 1; 2; 3; 5; 1025; 2 ^ 58 - 1] = [0; 1; 2; 4; 8; 2048; 2 ^ 58].
Proof. vm_compute. reflexivity. Qed.

(** C42: rows are permutations when the height is prime; the precondition of
    cht_alloc does not ask for a prime, and the claim fails without it: building a
    table of height 4 for 2 backends writes outside the table. *)
Theorem C42_rows_partial : forall h c, prime (Z.of_nat h) ->
  exists data, cht_alloc h c = Some data /\ length data = (h * c)%nat /\
    forall b, (b < h)%nat -> Permutation (cht_row c data b) (seq 0 c).
Proof. exact cht_rows_prime. Qed.
Print Assumptions C42_rows_partial.

Theorem C42_any_height_refuted :
  exists h c, (0 < c)%nat /\ (c < h)%nat /\ N.of_nat h < 40000 /\ cht_alloc h c = None.
Proof. exact cht_height_4. Qed.
Print Assumptions C42_any_height_refuted.

Example C42_example : prime (Z.of_nat 5) /\
  option_map (fun d => map (cht_row 3 d) (seq 0 5)) (cht_alloc 5 3) =
  Some [[0; 2; 1]; [1; 0; 2]; [2; 0; 1]; [1; 2; 0]; [0; 1; 2]]%nat.
Proof. split; [exact prime_5|vm_compute; reflexivity]. Qed.

(** C43: lookup. For any table of the right size the result is the first available
    backend of the row; when the height is prime, failure means no backend at all is
    available. *)
Theorem C43_first_in_row : forall h c data hash p time, (0 < h)%nat -> length data = (h * c)%nat ->
  match cht_find data h c hash p time with
  | Some b => first_avail p time (cht_row c data (hash mod h)) b
  | None => forall x, In x (cht_row c data (hash mod h)) -> ~ avail p time x
  end.
Proof. exact cht_find_spec. Qed.
Print Assumptions C43_first_in_row.

Theorem C43_complete_partial : forall h c, prime (Z.of_nat h) ->
  exists data, cht_alloc h c = Some data /\
  forall hash p time,
    match cht_find data h c hash p time with
    | Some b => (b < c)%nat /\ first_avail p time (cht_row c data (hash mod h)) b
    | None => forall b, (b < c)%nat -> ~ avail p time b
    end.
Proof. exact cht_find_complete. Qed.
Print Assumptions C43_complete_partial.

(** With a height of 8 and 4 backends the table is built without leaving its bounds, but
    backend 2 is missing from row 2: the lookup fails although it is available. *)
Theorem C43_composite_height_refuted : exists h c hash ops p data,
  (0 < c)%nat /\ (c < h)%nat /\ cht_alloc h c = Some data /\
  p = fst (pool_run (pool_alloc c 100) ops) /\
  cht_find data h c hash p 2 = None /\ exists b, (b < c)%nat /\ avail p 2 b.
Proof.
  exists 8%nat, 4%nat, 2%nat, [OBorrow 1; OBorrow 1; OBorrow 1; OReturn 0; OReturn 1]. do 2 eexists.
  split; [lia|]. split; [lia|]. split; [vm_compute; reflexivity|]. split; [reflexivity|]. split; [vm_compute; reflexivity|].
  exists 2%nat. split; [lia|]. apply pool_used_avail. vm_compute. reflexivity.
Qed.
Print Assumptions C43_composite_height_refuted.

(** Backend 1 of 3 is the only one in the pool: bucket 0 prefers 0, 2, 1 and still
    finds it. *)
Example C43_example :
  let p := fst (pool_run (pool_alloc 3 100) [OBorrow 1; OBorrow 1; OReturn 0]) in
  option_map (fun d => map (fun h => cht_find d 5 3 h p 2) [0; 1; 7]%nat) (cht_alloc 5 3)
  = Some [Some 1; Some 1; Some 1]%nat.
Proof. vm_compute. reflexivity. Qed.

(** C44: allocation histories. *)
Theorem C44_allocator : forall base total ops st, 0 < base -> base + total <= SIZE_MAX ->
  arun base total ainit ops = Some st ->
  (forall b, In b (ablocks st) -> block_ok base total b) /\
  ForallOrdPairs disjoint (ablocks st) /\
  (forall count size st', astep base total st (AAlloc count size) = Some st' ->
     exists b, ablocks st' = b :: ablocks st /\ zeroed st' b /\ bcount b = count /\ bsize b = size) /\
  (forall count size, count * size <= SIZE_MAX -> size <= SIZE_MAX - 64 ->
     astep base total st (AAlloc count size) = None ->
     forall a, base + aused st <= a -> a mod (size + 64 - size mod 64) = 0 -> base + total < a + count * size).
Proof. exact alloc_history. Qed.
Print Assumptions C44_allocator.

Example C44_example :
  option_map (fun st => map (fun b => (baddr b, blen b)) (ablocks st))
    (arun 1000 4096 ainit [AAlloc 3 8; AWrite 1030 5; AAlloc 1 100; AAlloc 10 16])
  = Some [(1280, 160); (1152, 100); (1024, 24)] /\
  arun 1000 200 ainit [AAlloc 3 8; AAlloc 1 100] = None.
Proof. vm_compute. split; reflexivity. Qed.

(** C45: the typed getters return exactly the configured values in their range. *)
Theorem C45_getters_partial : forall items name v, config_ok items -> cstr_ok name ->
  (os_config_get_u64 items name = Some v <-> configured items name v) /\
  (os_config_get_u32 items name = Some v <-> configured items name v /\ v <= 4294967295) /\
  (os_config_get_u16 items name = Some v <-> configured items name v /\ v <= 65535) /\
  (os_config_get_size items name = Some v <-> configured items name v /\ v <= (2 ^ 64 - 1) / 64) /\
  (os_config_get_time items name = Some v <-> configured items name v) /\
  (forall devices_count, 0 < devices_count <= 65536 ->
     (os_config_get_device items name devices_count = Some v <-> configured items name v /\ v < devices_count)).
Proof. exact getters_spec. Qed.
Print Assumptions C45_getters_partial.

(** The general range check, for bounds below 2^63 and values below 2^63 (or a zero
    minimum). *)
Theorem C45_range_partial : forall items name min max v, config_ok items -> cstr_ok name ->
  min < 2 ^ 63 ->
  os_config_get items name min max = Some v <->
  configured items name v /\ min <= v <= max /\ (min <> 0 -> v < 2 ^ 63).
Proof. exact get_spec. Qed.
Print Assumptions C45_range_partial.

(** Without those bounds it both accepts a value below the minimum and rejects one
    inside the range; with no devices at all the device getter accepts any value and
    returns it truncated. *)
Theorem C45_any_range_refuted :
  (exists items name min max v, config_ok items /\ cstr_ok name /\ min <= max /\ max < 2 ^ 64 /\
     os_config_get items name min max = Some v /\ v < min) /\
  (exists items name min max v, config_ok items /\ cstr_ok name /\
     configured items name v /\ min <= v <= max /\ max < 2 ^ 64 /\ os_config_get items name min max = None) /\
  (exists items name v v', config_ok items /\ cstr_ok name /\ configured items name v /\
     os_config_get_device items name 0 = Some v' /\ v' <> v).
Proof. exact any_range_fails. Qed.
Print Assumptions C45_any_range_refuted.

Example C45_example :
  let items := [([97; 98], 7); ([97], 300); ([97; 98], 9)] in
  os_config_get_u16 items [97; 98] = Some 7 /\ os_config_get items [97] 10 299 = None /\
  os_config_get_device items [97; 98] 8 = Some 7 /\ os_config_get_device items [97; 98] 7 = None.
Proof. vm_compute. repeat split; reflexivity. Qed.
