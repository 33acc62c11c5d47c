(** * Properties of the heap and of key ownership (C31-C36, C81) *)

From Coq Require Import NArith List Bool Lia.
From Verif Require Import Solver Heap HeapOwn.
Import ListNotations.
Open Scope N_scope.

(** ** Concrete memories used in the examples *)

(** 4 elements of 16 bits, all owned, holding 0x1111, 0x2222, ... *)
Definition els (i : N) : N * bool := ((i + 1) * 4369, i <? 4).
Definition heap4 : hobj := mkH 16 (fun i => if i <? 4 then els i else (0, false)) (Some (fun i => (if i <? 4 then 100 else 0, i <? 4))).
Definition stack4 : hobj := mkH 16 (fun i => if i <? 4 then els i else (0, false)) None.
Example heap4_sized : sized_el heap4 /\ sized_el stack4.
Proof.
  assert (H : forall i, fst (if i <? 4 then els i else (0, false)) < 2 ^ 16).
  { intros i. destruct (N.ltb_spec i 4); [|reflexivity]. cbn. apply N.le_lt_trans with (4 * 4369); [nia|reflexivity]. }
  split; exact H.
Qed.
Example heap4_bounded : bounded heap4 4 /\ bounded stack4 4.
Proof.
  assert (H : forall i, snd (if i <? 4 then els i else (0, false)) = (i <? 4)) by (intros i; unfold els; destruct (i <? 4) eqn:E; cbn [snd]; auto).
  split; split; try exact H; cbn; auto.
Qed.

(** ** C31 *)

(** Store [v] ([size] bytes) at bit [off] of element [i], then load it. The range may
    span several elements. *)
Theorem C31_read_back : forall pw o i off v size o', sized_el o -> size <> 0 ->
  i * hes o + off + size * 8 <= 2 ^ pw * hes o -> v < 2 ^ (size * 8) ->
  hwrite pw o i off v (size * 8) false = Ok o' -> hread pw o' i off size false = Ok v.
Proof. exact write_read. Qed.
Print Assumptions C31_read_back.

(** A load returns the bits of memory at its range. *)
Theorem C31_load_is_memory : forall pw o i off size v, sized_el o -> i * hes o + off + size * 8 <= 2 ^ pw * hes o -> hes o <> 0 ->
  hread pw o i off size false = Ok v ->
  v < 2 ^ (size * 8) /\ forall b, b < size * 8 -> N.testbit v b = bit_at o (i * hes o + off + b).
Proof. exact read_bits. Qed.
Print Assumptions C31_load_is_memory.
(** 4 bytes from byte 1 of element 1: three elements. *)
Example C31_example : exists o', hwrite 64 heap4 1 8 3735928559 32 false = Ok o' /\ hread 64 o' 1 8 4 false = Ok 3735928559 /\
  fst (hel o' 1) = 61218 /\ fst (hel o' 2) = 44478 /\ fst (hel o' 3) = 17630.
Proof. eexists. split; [vm_compute; reflexivity|]. repeat split; vm_compute; reflexivity. Qed.

(** ** C32 *)

(** Memory after a store: the stored bits in the range, the old ones elsewhere, and
    ownership as it was. *)
Theorem C32_store_only_its_range : forall pw o i off v w o', sized_el o -> i * hes o + off + w <= 2 ^ pw * hes o -> hes o <> 0 ->
  hwrite pw o i off v w false = Ok o' ->
  let start := i * hes o + off in
  forall p, bit_at o' p = if (start <=? p) && (p <? start + w) then N.testbit v (p - start) else bit_at o p.
Proof. exact write_bits. Qed.
Print Assumptions C32_store_only_its_range.
(** And the elements that do not meet the range are not even written. *)
Theorem C32_other_elements : forall pw o i off v w o' j, sized_el o -> i * hes o + off + w <= 2 ^ pw * hes o ->
  hwrite pw o i off v w false = Ok o' -> (j < i \/ i * hes o + off + w <= j * hes o) -> hel o' j = hel o j /\ hfr o' = hfr o.
Proof.
  intros pw o i off v w o' j SE NW H J. unfold hwrite in H. destruct (write_loop_bits _ _ _ _ _ _ _ _ SE NW H) as [_ [F [_ [_ [_ [K _]]]]]].
  split; [apply K; tauto|exact F].
Qed.
Print Assumptions C32_other_elements.
Example C32_example : exists o', hwrite 64 heap4 1 4 255 8 false = Ok o' /\
  fst (hel o' 1) = 12274 /\ hel o' 0 = hel heap4 0 /\ hel o' 2 = hel heap4 2.
Proof. eexists. split; [vm_compute; reflexivity|]. repeat split; vm_compute; reflexivity. Qed.

(** ** C33 *)
Theorem C33_big_endian_read_back : forall pw o i off v size o', sized_el o -> size <> 0 -> i < 2 ^ pw ->
  off + size * 8 <= hes o -> v < 2 ^ (size * 8) ->
  hwrite pw o i off v (size * 8) true = Ok o' -> hread pw o' i off size true = Ok v.
Proof. exact write_read_reversed. Qed.
Print Assumptions C33_big_endian_read_back.
Example C33_example : exists o', hwrite 64 heap4 1 0 4660 16 true = Ok o' /\ hread 64 o' 1 0 2 true = Ok 4660 /\ fst (hel o' 1) = 13330.
Proof. eexists. split; [vm_compute; reflexivity|]. repeat split; vm_compute; reflexivity. Qed.

(** ** C81 *)

(** A big-endian store of a whole element puts its bytes most significant first. *)
Theorem C81_big_endian_element_partial : forall pw o i v w o', w <> 0 -> v < 2 ^ w -> hes o = w ->
  hwrite pw o i 0 v w true = Ok o' -> fst (hel o' i) = rev8 (N.to_nat (w / 8)) v /\ w mod 8 = 0.
Proof. exact write_whole_reversed. Qed.
Print Assumptions C81_big_endian_element_partial.
Example C81_example : exists o', hwrite 64 heap4 2 0 4660 16 true = Ok o' /\ rev8 (N.to_nat (16 / 8)) 4660 = 13330.
Proof. eexists. split; vm_compute; reflexivity. Qed.
(** One byte stored big-endian at byte 1 of a two-byte element lands in byte 0. *)
Theorem C81_part_of_element_refuted : exists o o', sized_el o /\ hwrite 64 o 1 8 171 8 true = Ok o' /\
  hread 64 o' 1 8 1 false = hread 64 o 1 8 1 false /\ hread 64 o' 1 0 1 false = Ok 171.
Proof. exists heap4. eexists. split; [apply heap4_sized|]. split; [vm_compute; reflexivity|]. split; vm_compute; reflexivity. Qed.
(** Across elements, the load does not even undo the store. *)
Theorem C81_across_elements_refuted : exists o o' v, sized_el o /\ hwrite 64 o 0 0 305419896 32 true = Ok o' /\
  hread 64 o' 0 0 4 true = Ok v /\ v <> 305419896.
Proof. exists heap4. do 2 eexists. split; [apply heap4_sized|]. split; [vm_compute; reflexivity|]. split; [vm_compute; reflexivity|discriminate]. Qed.

(** ** C34 *)

(** An allocation of [n] elements: an accepted load is within it; and so is an accepted
    store, when ownership is tracked. Any endianness. *)
Theorem C34_loads_in_bounds : forall pw o n i off size rev v, bounded o n -> n < 2 ^ pw ->
  hread pw o i off size rev = Ok v -> i * hes o + off + size * 8 <= n * hes o.
Proof. exact read_in_range. Qed.
Print Assumptions C34_loads_in_bounds.
Theorem C34_stores_in_bounds_partial : forall pw o n i off v w rev o', bounded o n -> n < 2 ^ pw -> hfr o <> None -> w <> 0 ->
  hwrite pw o i off v w rev = Ok o' -> i * hes o + off + w <= n * hes o /\ bounded o' n.
Proof. exact write_in_range. Qed.
Print Assumptions C34_stores_in_bounds_partial.
Example C34_example : bounded heap4 4 /\ hread 64 heap4 3 8 1 false = Ok 68 /\ hread 64 heap4 3 8 2 false = Err /\
  hwrite 64 heap4 4 0 1 16 false = Err /\ exists o', hwrite 64 heap4 3 0 1 16 false = Ok o'.
Proof. split; [apply heap4_bounded|]. split; [vm_compute; reflexivity|]. split; [vm_compute; reflexivity|]. split; [vm_compute; reflexivity|]. eexists. vm_compute. reflexivity. Qed.
(** Without ownership (ephemeral allocations, such as packet data), nothing is checked. *)
Theorem C34_ephemeral_store_refuted : exists o o', bounded o 4 /\ hwrite 64 o 9 0 1 16 false = Ok o'.
Proof. exists stack4. eexists. split; [apply heap4_bounded|]. vm_compute. reflexivity. Qed.

(** ** C35 *)

(** Fractions are at most 100 through any accepted sequence. *)
Theorem C35_fractions_stay_percentages : forall o xs o' f i, 
  (forall f i, hfr o = Some f -> snd (f i) = true -> fst (f i) <= 100) ->
  own_run o xs = Ok o' -> hfr o' = Some f -> snd (f i) = true -> fst (f i) <= 100.
Proof. intros o xs o' f i OK H F P. exact (own_run_ok xs o o' OK H f i F P). Qed.
Print Assumptions C35_fractions_stay_percentages.
(** In any state so reached, an accepted take had what it asked for, leaves the
    difference, reports what there was and changes nothing else. *)
Theorem C35_take_needs_ownership : forall o xs o1 x i o2 got,
  (forall f i, hfr o = Some f -> snd (f i) = true -> fst (f i) <= 100) ->
  own_run o xs = Ok o1 -> x < 256 -> take o1 (Some x) i = Ok (o2, got) ->
  exists f f', hfr o1 = Some f /\ hfr o2 = Some f' /\ snd (f i) = true /\ got = fst (f i) /\
    x <= fst (f i) /\ fst (f' i) = fst (f i) - x /\ (forall j, j <> i -> f' j = f j) /\ hel o2 = hel o1.
Proof.
  intros o xs o1 x i o2 got OK R X T. pose proof (own_run_ok _ _ _ OK R) as OK1.
  destruct (take_spec _ _ _ _ _ OK1 T) as [f [f' [H1 [H2 [H3 [H4 [H5 [_ [_ [_ [H6 [H7 _]]]]]]]]]]]].
  destruct (H5 x eq_refl X). exists f, f'. tauto.
Qed.
Print Assumptions C35_take_needs_ownership.
Example C35_example : exists o1 o2 f, own_run heap4 [Take (Some 25) 1; Take None 2; Give 25 1; Take (Some 60) 1; Give 10 2] = Ok o1 /\
  take o1 (Some 40) 1 = Ok (o2, 40) /\ hfr o2 = Some f /\ f 1 = (0, true) /\ f 2 = (10, true) /\
  own_run o1 [Take (Some 41) 1] = Err /\ own_run o1 [Give 61 1] = Err.
Proof.
  do 3 eexists. split; [vm_compute; reflexivity|]. split; [vm_compute; reflexivity|]. split; [cbn; reflexivity|].
  split; [vm_compute; reflexivity|]. split; [vm_compute; reflexivity|]. split; vm_compute; reflexivity.
Qed.

(** ** C36 *)

(** Any number of maps, keys of one element, any history of insertions, removals and
    program writes: fractions plus 25 per map holding the element's key make 100; and
    every key in a map is still in memory, at an address that cannot be written. *)
Theorem C36_keys_are_owned_partial : forall pw ksz st xs st' n, kstart pw ksz st n -> krun pw ksz st xs = Ok st' ->
  exists f, hfr (kheap st') = Some f /\
  (forall i, i < n -> fst (f i) + 25 * holders st' i = 100) /\
  (forall k key a, In k (kmaps st') -> kaddrs k key = Some a ->
     a < n /\ fst (hel (kheap st') a) = key /\ can_write (kheap st') a = false).
Proof. exact key_conservation. Qed.
Print Assumptions C36_keys_are_owned_partial.
(** Insertion followed by removal of a key restores the ownership. *)
Theorem C36_set_then_remove_partial : forall pw ksz st0 xs st m i v st1 st2 n f f2, kstart pw ksz st0 n -> krun pw ksz st0 xs = Ok st ->
  hfr (kheap st) = Some f -> kset pw ksz st m i v = Ok st1 -> kremove pw ksz st1 m i = Ok st2 -> hfr (kheap st2) = Some f2 ->
  (forall f1, hfr (kheap st1) = Some f1 -> fst (f1 i) = fst (f i) - 25) /\ 25 <= fst (f i) /\ (forall j, j < n -> fst (f2 j) = fst (f j)) /\
  (forall k2, nth_error (kmaps st2) m = Some k2 -> kaddrs k2 (fst (hel (kheap st) i)) = None).
Proof.
  intros pw ksz st0 xs st m i v st1 st2 n f f2 S R F H1 H2 F2.
  eapply set_remove; eauto. eapply krun_inv; [|exact R]. apply kstart_inv. exact S.
Qed.
Print Assumptions C36_set_then_remove_partial.

Definition no_entries (cap : N) : kmap := mkK (fun _ => None) (fun _ => None) 0 cap.
Definition kstate : kst := mkKst heap4 [no_entries 2; no_entries 1].
Example C36_example : kstart 64 2 kstate 4 /\
  (exists st, krun 64 2 kstate [KSet 0 1 7; KSet 1 1 8; KWrite 2 0 5 16 false; KSet 0 2 9; KRemove 1 1] = Ok st /\
     holders st 1 = 1 /\ kstep 64 2 st (KWrite 1 0 5 8 false) = Err /\
     exists st1, kset 64 2 st 1 3 4 = Ok st1 /\ exists st2, kremove 64 2 st1 1 3 = Ok st2).
Proof.
  split.
  - eexists. split; [reflexivity|]. split; [intros i; reflexivity|]. split; [apply heap4_sized|]. split; [reflexivity|]. split; [discriminate|].
    split; [apply heap4_bounded|]. split; [discriminate|]. repeat constructor.
  - eexists. split; [vm_compute; reflexivity|]. split; [vm_compute; reflexivity|]. split; [vm_compute; reflexivity|].
    eexists. split; [vm_compute; reflexivity|]. eexists. vm_compute. reflexivity.
Qed.
(** A key spanning two elements: only the first is protected. The program changes the
    second while the key is in the map, and then cannot remove it. *)
Theorem C36_long_keys_refuted : exists st st1 st2 k key, 
  kset 64 4 st 0 0 7 = Ok st1 /\ nth_error (kmaps st1) 0 = Some k /\ kaddrs k key = Some 0 /\
  hread 64 (kheap st1) 0 0 4 false = Ok key /\
  kstep 64 4 st1 (KWrite 1 0 5 16 false) = Ok st2 /\ (exists key', hread 64 (kheap st2) 0 0 4 false = Ok key' /\ key' <> key) /\
  kremove 64 4 st2 0 0 = Err.
Proof.
  exists kstate. do 3 eexists. exists 572657937. split; [vm_compute; reflexivity|]. split; [reflexivity|]. split; [vm_compute; reflexivity|].
  split; [vm_compute; reflexivity|]. split; [vm_compute; reflexivity|]. split; [eexists; split; [vm_compute; reflexivity|discriminate]|].
  vm_compute. reflexivity.
Qed.
