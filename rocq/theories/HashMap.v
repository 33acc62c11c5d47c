(** * The hash map (env/src/structs/map.c)

    Keys live in the caller's memory and the table stores their addresses, so every
    operation takes the current memory contents [mem : address -> key bytes].
    The hash function is a parameter. size_t arithmetic is modulo 2^64. *)

From Coq Require Import NArith List Bool Lia Arith.
From Verif Require Import IndexPool.
Import ListNotations.
Open Scope N_scope.

Definition wrap64 (n : N) : N := n mod 2 ^ 64.
Definition bytes := list N.

(** include/os/memory.h 47-68: byte by byte comparison of [n] bytes; reading past the
    end of an object is outside the precondition (chars(a, obj_size)), both objects
    have [n] bytes. *)
Fixpoint os_memory_eq (a b : bytes) (n : nat) : bool :=
  match n with
  | O => true
  | S n' =>
      match a, b with
      | x :: a', y :: b' => if negb (x =? y) then false else os_memory_eq a' b' n'
      | _, _ => false
      end
  end.

(** map.c 31-37; address 0 is NULL. *)
Record mitem := mkItem { key_addr : N; ivalue : N; chain : N; key_hash : N }.
(** map.c: struct map; [capacity] is the length of the items array. *)
Record hmap := mkMap { items : list mitem; key_size : nat }.

Definition item0 : mitem := mkItem 0 0 0 0.

(** map.c 313-336. [fuel] bounds the doublings; 64 suffice (see [real_capacity_fuel]). *)
Fixpoint double_loop (fuel : nat) (real capacity : N) : N :=
  match fuel with
  | O => real
  | S fuel' => if real <? capacity then double_loop fuel' (wrap64 (real * 2)) capacity else real
  end.
Definition get_real_capacity (capacity : N) : N :=
  if capacity =? 0 then 0 else double_loop 64 1 capacity.

(** map.c 338-362. *)
Definition probe (start i capacity : N) : N :=
  let startmod := N.land start (capacity - 1) in
  N.land (wrap64 (startmod + i)) (capacity - 1).

(** map.c 531-611: key addresses are NULL and chains 0; the other fields are whatever
    os_memory_alloc left (zeroes). *)
Definition map_alloc (ksize : nat) (capacity : N) : hmap :=
  mkMap (repeat item0 (N.to_nat (get_real_capacity capacity))) ksize.

Section Ops.
Variable hash : bytes -> N.           (* os_memory_hash *)
Variable mem : N -> bytes.            (* current contents of the keys' memory *)

Definition item_at (its : list mitem) (n : nat) : mitem := nth n its item0.
Definition pidx (its : list mitem) (h : N) (i : nat) : nat :=
  N.to_nat (probe h (N.of_nat i) (N.of_nat (length its))).

(** map.c 1025-1135; iteration [i] with [n] iterations left. *)
Fixpoint get_loop (its : list mitem) (ksize : nat) (key_ptr : N) (i n : nat) : option N :=
  match n with
  | O => None
  | S n' =>
      let h := hash (mem key_ptr) in
      let it := item_at its (pidx its h i) in
      if negb (key_addr it =? 0) && (key_hash it =? h)
      then if os_memory_eq (mem (key_addr it)) (mem key_ptr) ksize
           then Some (ivalue it)
           else get_loop its ksize key_ptr (S i) n'
      else if chain it =? 0 then None else get_loop its ksize key_ptr (S i) n'
  end.
Definition map_get (m : hmap) (key_ptr : N) : option N :=
  get_loop (items m) (key_size m) key_ptr 0 (length (items m)).

(** map.c 1481-1615; the boolean tells whether the item was stored. *)
Fixpoint set_loop (its : list mitem) (key_ptr value : N) (i n : nat) : list mitem * bool :=
  match n with
  | O => (its, false)
  | S n' =>
      let h := hash (mem key_ptr) in
      let index := pidx its h i in
      let it := item_at its index in
      if key_addr it =? 0
      then (set_nth its index (mkItem key_ptr value (chain it) h), true)
      else set_loop (set_nth its index (mkItem (key_addr it) (ivalue it) (wrap64 (chain it + 1)) (key_hash it)))
             key_ptr value (S i) n'
  end.
Definition map_set (m : hmap) (key_ptr value : N) : hmap * bool :=
  let (its, ok) := set_loop (items m) key_ptr value 0 (length (items m)) in (mkMap its (key_size m), ok).

(** map.c 1785-1931. *)
Fixpoint remove_loop (its : list mitem) (ksize : nat) (key_ptr : N) (i n : nat) : list mitem * bool :=
  match n with
  | O => (its, false)
  | S n' =>
      let h := hash (mem key_ptr) in
      let index := pidx its h i in
      let it := item_at its index in
      if (negb (key_addr it =? 0) && (key_hash it =? h)) && os_memory_eq (mem (key_addr it)) (mem key_ptr) ksize
      then (set_nth its index (mkItem 0 (ivalue it) (chain it) (key_hash it)), true)
      else remove_loop (set_nth its index (mkItem (key_addr it) (ivalue it) (wrap64 (chain it + (2 ^ 64 - 1))) (key_hash it)))
             ksize key_ptr (S i) n'
  end.
Definition map_remove (m : hmap) (key_ptr : N) : hmap * bool :=
  let (its, ok) := remove_loop (items m) (key_size m) key_ptr 0 (length (items m)) in (mkMap its (key_size m), ok).
End Ops.

(** ** Histories: each call comes with the memory contents at that time *)
Inductive mop := MGet (key_ptr : N) | MSet (key_ptr value : N) | MRemove (key_ptr : N).
Inductive mout := MVal (r : option N) | MDone (ok : bool).

Definition map_step (hash : bytes -> N) (m : hmap) (o : (N -> bytes) * mop) : hmap * mout :=
  let mem := fst o in
  match snd o with
  | MGet k => (m, MVal (map_get hash mem m k))
  | MSet k v => let (m', ok) := map_set hash mem m k v in (m', MDone ok)
  | MRemove k => let (m', ok) := map_remove hash mem m k in (m', MDone ok)
  end.
Fixpoint map_run (hash : bytes -> N) (m : hmap) (ops : list ((N -> bytes) * mop)) : list mout :=
  match ops with
  | [] => []
  | o :: ops' => let (m', out) := map_step hash m o in out :: map_run hash m' ops'
  end.

(** * Specification: an association list from key bytes to (address, value) *)
Definition fmap := list (bytes * (N * N)).
Definition beqb (a b : bytes) : bool := if list_eq_dec N.eq_dec a b then true else false.
Definition flookup (s : fmap) (k : bytes) : option (N * N) :=
  match find (fun p => beqb (fst p) k) s with Some p => Some (snd p) | None => None end.

(** One call; [None] when the caller breaks a requires clause of include/structs/map.h,
    changes the memory of a key held by the map, or passes a key of the wrong size. *)
Definition fstep (ksize : nat) (capacity : N) (s : fmap) (o : (N -> bytes) * mop) : option (fmap * mout) :=
  let mem := fst o in
  if forallb (fun p => beqb (mem (fst (snd p))) (fst p)) s then
    match snd o with
    | MGet k =>
        if (k =? 0) || negb (Nat.eqb (length (mem k)) ksize) then None
        else Some (s, MVal (option_map snd (flookup s (mem k))))
    | MSet k v =>
        if (k =? 0) || negb (Nat.eqb (length (mem k)) ksize) then None
        else if negb (N.of_nat (length s) <? capacity) then None
        else match flookup s (mem k) with
             | Some _ => None
             | None => Some ((mem k, (k, v)) :: s, MDone true)
             end
    | MRemove k =>
        if (k =? 0) || negb (Nat.eqb (length (mem k)) ksize) then None
        else match flookup s (mem k) with
             | Some (a, _) => if a =? k then Some (filter (fun p => negb (beqb (fst p) (mem k))) s, MDone true) else None
             | None => None
             end
    end
  else None.
Fixpoint frun (ksize : nat) (capacity : N) (s : fmap) (ops : list ((N -> bytes) * mop)) : option (list mout) :=
  match ops with
  | [] => Some []
  | o :: ops' =>
      match fstep ksize capacity s o with
      | None => None
      | Some (s', out) => option_map (cons out) (frun ksize capacity s' ops')
      end
  end.

(** * Proofs *)

Lemma os_memory_eq_spec : forall a b, length a = length b ->
  os_memory_eq a b (length b) = true <-> a = b.
Proof.
  induction a as [|x a IH]; destruct b as [|y b]; cbn; intros H; try discriminate; [tauto|].
  injection H as H. destruct (N.eqb_spec x y); cbn.
  - subst y. rewrite IH by auto. split; intros E; congruence.
  - split; [discriminate|]. intros E. congruence.
Qed.

Lemma beqb_eq : forall a b, beqb a b = true <-> a = b.
Proof. intros. unfold beqb. destruct (list_eq_dec N.eq_dec a b); split; congruence. Qed.

(** ** Capacity *)
Lemma double_loop_pow : forall fuel k capacity,
  2 ^ k <= 2 ^ 63 -> capacity <= 2 ^ 63 -> capacity <= 2 ^ (k + N.of_nat fuel) ->
  (k = 0 \/ 2 ^ k < 2 * capacity) -> 0 < capacity ->
  exists k', double_loop fuel (2 ^ k) capacity = 2 ^ k' /\ k <= k' /\ 2 ^ k' <= 2 ^ 63 /\
             capacity <= 2 ^ k' /\ (k' = 0 \/ 2 ^ k' < 2 * capacity).
Proof.
  induction fuel as [|fuel IH]; intros k capacity Hk Hc Hf Hl Hp; cbn [double_loop].
  - exists k. rewrite N.add_0_r in Hf. repeat split; auto. lia.
  - destruct (N.ltb_spec (2 ^ k) capacity).
    + assert (k < 63).
      { apply (N.pow_lt_mono_r_iff 2); [lia|]. lia. }
      assert (E : wrap64 (2 ^ k * 2) = 2 ^ (k + 1)).
      { unfold wrap64. rewrite N.pow_add_r. change (2 ^ 1) with 2.
        apply N.mod_small. assert (2 ^ k * 2 <= 2 ^ 63 * 2) by (apply N.mul_le_mono_r; auto).
        change (2 ^ 64) with (2 ^ 63 * 2). 
        assert (2 ^ k < 2 ^ 63) by (apply N.pow_lt_mono_r; lia). lia. }
      rewrite E.
      destruct (IH (k + 1) capacity) as [k' [E' [H1 [H2 [H3 H4]]]]].
      * apply N.pow_le_mono_r; lia.
      * auto.
      * replace (k + 1 + N.of_nat fuel) with (k + N.of_nat (S fuel)) by lia. auto.
      * right. rewrite N.pow_add_r. change (2 ^ 1) with 2. lia.
      * auto.
      * exists k'. repeat split; auto. lia.
    + exists k. repeat split; auto. lia.
Qed.

Lemma get_real_capacity_spec : forall capacity, 0 < capacity -> capacity <= 2 ^ 63 ->
  exists k, get_real_capacity capacity = 2 ^ k /\ capacity <= 2 ^ k /\ 2 ^ k <= 2 ^ 63 /\
            (get_real_capacity capacity = 1 \/ 2 ^ k < 2 * capacity).
Proof.
  intros capacity Hp Hc. unfold get_real_capacity.
  destruct (N.eqb_spec capacity 0); [lia|].
  destruct (double_loop_pow 64 0 capacity) as [k [E [H1 [H2 [H3 H4]]]]]; auto.
  - change (2 ^ 0) with 1. apply N.lt_le_incl. apply N.pow_gt_1; lia.
  - etransitivity; [exact Hc|]. apply N.pow_le_mono_r; lia.
  - change (2 ^ 0) with 1 in E. exists k. repeat split; auto.
    destruct H4 as [->|H4]; [left; rewrite E; reflexivity|right; auto].
Qed.

Lemma probe_mod : forall start i k, k <= 63 -> i < 2 ^ k ->
  probe start i (2 ^ k) = (start mod 2 ^ k + i) mod 2 ^ k.
Proof.
  intros. unfold probe.
  assert (M : forall a, N.land a (2 ^ k - 1) = a mod 2 ^ k).
  { intros a. rewrite <- N.land_ones. rewrite N.ones_equiv, <- N.sub_1_r. reflexivity. }
  rewrite !M. unfold wrap64. f_equal. apply N.mod_small.
  assert (start mod 2 ^ k < 2 ^ k) by (apply N.mod_lt, N.pow_nonzero; lia).
  assert (2 ^ k <= 2 ^ 63) by (apply N.pow_le_mono_r; lia).
  change (2 ^ 64) with (2 * 2 ^ 63). lia.
Qed.

(** ** Probing geometry on [nat] indices *)
Section Geo.
Variable cap : nat.
Hypothesis Cpos : (0 < cap)%nat.

Definition at_off (h i : nat) : nat := ((h + i) mod cap)%nat.
Definition dist (h j : nat) : nat := ((j + (cap - h)) mod cap)%nat.

Lemma at_off_lt : forall h i, (at_off h i < cap)%nat.
Proof. intros. apply Nat.mod_upper_bound. lia. Qed.
Lemma dist_lt : forall h j, (dist h j < cap)%nat.
Proof. intros. apply Nat.mod_upper_bound. lia. Qed.

Lemma mod_cases : forall x, (x < 2 * cap)%nat ->
  (x mod cap = if x <? cap then x else x - cap)%nat.
Proof.
  intros. destruct (Nat.ltb_spec x cap); [apply Nat.mod_small; auto|].
  replace x with (x - cap + 1 * cap)%nat at 1 by lia.
  rewrite Nat.mod_add by lia. apply Nat.mod_small. lia.
Qed.

Lemma dist_at_off : forall h i, (h < cap)%nat -> (i < cap)%nat -> dist h (at_off h i) = i.
Proof.
  intros. unfold dist, at_off. rewrite (mod_cases (h + i)) by lia.
  destruct (Nat.ltb_spec (h + i) cap).
  - replace (h + i + (cap - h))%nat with (i + 1 * cap)%nat by lia.
    rewrite Nat.mod_add by lia. apply Nat.mod_small; auto.
  - replace (h + i - cap + (cap - h))%nat with i by lia. apply Nat.mod_small; auto.
Qed.
Lemma at_off_dist : forall h j, (h < cap)%nat -> (j < cap)%nat -> at_off h (dist h j) = j.
Proof.
  intros. unfold dist, at_off. rewrite (mod_cases (j + (cap - h))) by lia.
  destruct (Nat.ltb_spec (j + (cap - h)) cap).
  - replace (h + (j + (cap - h)))%nat with (j + 1 * cap)%nat by lia.
    rewrite Nat.mod_add by lia. apply Nat.mod_small; auto.
  - replace (h + (j + (cap - h) - cap))%nat with j by lia. apply Nat.mod_small; auto.
Qed.
End Geo.

Lemma pidx_at_off : forall its h i k,
  N.of_nat (length its) = 2 ^ k -> k <= 63 -> (i < length its)%nat ->
  pidx its h i = at_off (length its) (N.to_nat (h mod 2 ^ k)) i.
Proof.
  intros its h i k HL Hk Hi. unfold pidx. rewrite HL. rewrite probe_mod by lia.
  unfold at_off. rewrite <- HL.
  assert (length its <> O) by lia.
  apply Nat2N.inj. rewrite N2Nat.id. 
  assert (M : forall a b, b <> O -> N.of_nat (a mod b) = N.of_nat a mod N.of_nat b).
  { intros a b Hb. apply N.mod_unique with (q := N.of_nat (a / b)).
    - pose proof (Nat.mod_upper_bound a b Hb). lia.
    - rewrite <- Nat2N.inj_mul, <- Nat2N.inj_add. f_equal. apply Nat.div_mod. auto. }
  rewrite M by auto. rewrite Nat2N.inj_add, N2Nat.id. reflexivity.
Qed.

(** ** The table invariant *)
Definition occ (it : mitem) : bool := negb (key_addr it =? 0).
Definition home (its : list mitem) (it : mitem) : nat :=
  N.to_nat (key_hash it mod N.of_nat (length its)).
(** Slot [s] holds a key whose probe sequence passes over slot [j]. *)
Definition passes (its : list mitem) (j s : nat) : bool :=
  let it := item_at its s in
  occ it && (dist (length its) (home its it) j <? dist (length its) (home its it) s)%nat.
Definition nslots (its : list mitem) (f : nat -> bool) : nat := length (filter f (seq 0 (length its))).

Record tinv (hash : bytes -> N) (mem : N -> bytes) (its : list mitem) : Prop := mkInv {
  inv_cap : exists k, N.of_nat (length its) = 2 ^ k /\ k <= 63;
  inv_hash : forall s, (s < length its)%nat -> occ (item_at its s) = true ->
     key_hash (item_at its s) = hash (mem (key_addr (item_at its s)));
  inv_dist : forall s s', (s < length its)%nat -> (s' < length its)%nat ->
     occ (item_at its s) = true -> occ (item_at its s') = true ->
     mem (key_addr (item_at its s)) = mem (key_addr (item_at its s')) -> s = s';
  inv_chain : forall j, (j < length its)%nat ->
     chain (item_at its j) = N.of_nat (nslots its (passes its j)) }.

Lemma filter_length_le_seq : forall A (f : A -> bool) l, (length (filter f l) <= length l)%nat.
Proof. induction l; cbn; auto. destruct (f a); cbn; lia. Qed.
Lemma nslots_le : forall its f, (nslots its f <= length its)%nat.
Proof.
  intros. unfold nslots. etransitivity; [apply filter_length_le_seq|]. rewrite seq_length. auto.
Qed.

Lemma filter_ext_len : forall A (f g : A -> bool) l, (forall x, In x l -> f x = g x) ->
  length (filter f l) = length (filter g l).
Proof.
  induction l as [|a l IH]; cbn; intros H; auto.
  rewrite (H a) by auto. destruct (g a); cbn; rewrite IH; auto.
Qed.

Lemma filter_one : forall (f g : nat -> bool) s l, NoDup l -> In s l ->
  (forall x, In x l -> x <> s -> f x = g x) -> f s = false ->
  length (filter g l) = (length (filter f l) + if g s then 1 else 0)%nat.
Proof.
  induction l as [|a l IH]; intros ND Hin Hext Hs; [destruct Hin|].
  inversion ND as [|? ? Hna ND']; subst. cbn. destruct (Nat.eq_dec a s) as [->|Ha].
  - assert (E : length (filter g l) = length (filter f l)).
    { apply filter_ext_len. intros x Hx. symmetry. apply Hext; [right; auto|]. intros ->. contradiction. }
    rewrite Hs. destruct (g s); cbn; lia.
  - destruct Hin as [->|Hin]; [contradiction|].
    rewrite (Hext a) by (auto; left; auto).
    assert (E : length (filter g l) = (length (filter f l) + if g s then 1 else 0)%nat).
    { apply IH; auto. intros; apply Hext; auto. right; auto. }
    destruct (g a); cbn; lia.
Qed.

Lemma nslots_one : forall its its' (f g : nat -> bool) s,
  length its = length its' -> (s < length its)%nat ->
  (forall x, (x < length its)%nat -> x <> s -> f x = g x) -> f s = false ->
  nslots its' g = (nslots its f + if g s then 1 else 0)%nat.
Proof.
  intros. unfold nslots. rewrite <- H. apply filter_one with (s := s); auto.
  - apply seq_NoDup.
  - apply in_seq. lia.
  - intros x Hx. apply in_seq in Hx. apply H1. lia.
Qed.

Lemma nslots_pos : forall its f s, (s < length its)%nat -> f s = true -> (0 < nslots its f)%nat.
Proof.
  intros. unfold nslots.
  assert (In s (filter f (seq 0 (length its)))) by (apply filter_In; split; [apply in_seq; lia|auto]).
  destruct (filter f _); [destruct H1|cbn; lia].
Qed.

Lemma home_lt : forall its it, (0 < length its)%nat -> (home its it < length its)%nat.
Proof.
  intros. unfold home.
  pose proof (N.mod_lt (key_hash it) (N.of_nat (length its))). lia.
Qed.

(** ** Lookup *)
Section Loops.
Variable hash : bytes -> N.
Variable mem : N -> bytes.
Variable ksize : nat.

Definition khome (its : list mitem) (kp : N) : nat := N.to_nat (hash (mem kp) mod N.of_nat (length its)).

(** All keys in the table have [ksize] bytes. *)
Definition sized (its : list mitem) : Prop :=
  forall s, (s < length its)%nat -> occ (item_at its s) = true -> length (mem (key_addr (item_at its s))) = ksize.

Definition slot_has (its : list mitem) (kp : N) (s : nat) : bool :=
  let it := item_at its s in
  (negb (key_addr it =? 0) && (key_hash it =? hash (mem kp))) && os_memory_eq (mem (key_addr it)) (mem kp) ksize.

Lemma slot_has_spec : forall its kp s, tinv hash mem its -> sized its -> length (mem kp) = ksize ->
  (s < length its)%nat ->
  slot_has its kp s = true <-> occ (item_at its s) = true /\ mem (key_addr (item_at its s)) = mem kp.
Proof.
  intros its kp s I SZ HK Hs. unfold slot_has. fold (occ (item_at its s)).
  destruct (occ (item_at its s)) eqn:O; cbn [andb]; [|split; [discriminate|intros [? _]; congruence]].
  rewrite (inv_hash _ _ _ I s Hs O).
  pose proof (SZ s Hs O) as HZ. rewrite andb_true_iff, N.eqb_eq.
  rewrite <- HK. rewrite os_memory_eq_spec by congruence.
  split; [tauto|]. intros [_ E]. rewrite E. auto.
Qed.

Lemma pidx_khome : forall its kp i, tinv hash mem its -> (i < length its)%nat ->
  pidx its (hash (mem kp)) i = at_off (length its) (khome its kp) i.
Proof.
  intros its kp i I Hi. destruct (inv_cap _ _ _ I) as [k [HL Hk]].
  rewrite (pidx_at_off its _ i k HL Hk Hi). unfold khome. rewrite HL. reflexivity.
Qed.

(** A key stored at distance [d] keeps every slot before it on its path chained. *)
Lemma chain_pos : forall its kp s i, tinv hash mem its -> (s < length its)%nat ->
  occ (item_at its s) = true -> mem (key_addr (item_at its s)) = mem kp ->
  (i < dist (length its) (khome its kp) s)%nat ->
  chain (item_at its (at_off (length its) (khome its kp) i)) <> 0.
Proof.
  intros its kp s i I Hs O E Hi.
  assert (C : (0 < length its)%nat) by lia.
  assert (HH : (khome its kp < length its)%nat).
  { unfold khome. pose proof (N.mod_lt (hash (mem kp)) (N.of_nat (length its))). lia. }
  assert (Hc : (i < length its)%nat) by (pose proof (dist_lt (length its) C (khome its kp) s); lia).
  rewrite (inv_chain _ _ _ I) by (apply at_off_lt; auto).
  assert (P : (0 < nslots its (passes its (at_off (length its) (khome its kp) i)))%nat); [|lia].
  apply nslots_pos with (s := s); [auto|]. unfold passes. rewrite O. cbn [andb].
  unfold home. rewrite (inv_hash _ _ _ I s Hs O), E. fold (khome its kp).
  rewrite dist_at_off by auto. apply Nat.ltb_lt. auto.
Qed.

Lemma get_loop_found : forall its kp s, tinv hash mem its -> sized its -> length (mem kp) = ksize ->
  (s < length its)%nat -> occ (item_at its s) = true -> mem (key_addr (item_at its s)) = mem kp ->
  forall n i, (i + n = length its)%nat -> (i <= dist (length its) (khome its kp) s)%nat ->
  get_loop hash mem its ksize kp i n = Some (ivalue (item_at its s)).
Proof.
  intros its kp s I SZ HK Hs O E.
  assert (C : (0 < length its)%nat) by lia.
  assert (HH : (khome its kp < length its)%nat).
  { unfold khome. pose proof (N.mod_lt (hash (mem kp)) (N.of_nat (length its))). lia. }
  pose proof (dist_lt (length its) C (khome its kp) s) as DL.
  induction n as [|n IH]; intros i Hi Hd; [lia|].
  cbn [get_loop]. rewrite pidx_khome by (auto; lia).
  set (j := at_off (length its) (khome its kp) i).
  assert (Hj : (j < length its)%nat) by (apply at_off_lt; auto).
  pose proof (slot_has_spec its kp j I SZ HK Hj) as SH. unfold slot_has in SH.
  destruct (Nat.eq_dec i (dist (length its) (khome its kp) s)) as [Ei|Ni].
  - assert (j = s) by (unfold j; rewrite Ei; apply at_off_dist; auto). rewrite H in *.
    destruct SH as [_ SH]. specialize (SH (conj O E)).
    apply andb_true_iff in SH as [S1 S2]. rewrite S1, S2. reflexivity.
  - destruct (negb (key_addr (item_at its j) =? 0) && (key_hash (item_at its j) =? hash (mem kp))) eqn:B.
    + destruct (os_memory_eq _ _ ksize) eqn:Q.
      * destruct SH as [SH _]. destruct (SH eq_refl) as [O' E'].
        assert (j = s).
        { apply (inv_dist _ _ _ I j s Hj Hs O' O). congruence. }
        exfalso. apply Ni. rewrite <- H. unfold j. symmetry. apply dist_at_off; auto. lia.
      * apply IH; lia.
    + assert (chain (item_at its j) <> 0).
      { unfold j. apply chain_pos with (s := s); auto. lia. }
      destruct (N.eqb_spec (chain (item_at its j)) 0); [contradiction|]. apply IH; lia.
Qed.

Lemma get_loop_absent : forall its kp, tinv hash mem its -> sized its -> length (mem kp) = ksize ->
  (forall s, (s < length its)%nat -> occ (item_at its s) = true -> mem (key_addr (item_at its s)) <> mem kp) ->
  forall n i, (i + n = length its)%nat -> get_loop hash mem its ksize kp i n = None.
Proof.
  intros its kp I SZ HK A. induction n as [|n IH]; intros i Hi; [reflexivity|].
  cbn [get_loop]. rewrite pidx_khome by (auto; lia).
  set (j := at_off (length its) (khome its kp) i).
  assert (Hj : (j < length its)%nat) by (apply at_off_lt; lia).
  pose proof (slot_has_spec its kp j I SZ HK Hj) as SH. unfold slot_has in SH.
  destruct (negb (key_addr (item_at its j) =? 0) && (key_hash (item_at its j) =? hash (mem kp))).
  - destruct (os_memory_eq _ _ ksize).
    + destruct SH as [SH _]. destruct (SH eq_refl) as [O E]. destruct (A j Hj O E).
    + apply IH. lia.
  - destruct (chain _ =? 0); [reflexivity|]. apply IH. lia.
Qed.

(** ** Insertion *)
Definition inc (it : mitem) : mitem := mkItem (key_addr it) (ivalue it) (wrap64 (chain it + 1)) (key_hash it).
Definition dec (it : mitem) : mitem := mkItem (key_addr it) (ivalue it) (wrap64 (chain it + (2 ^ 64 - 1))) (key_hash it).

Lemma item_at_set : forall its n a j, (n < length its)%nat ->
  item_at (set_nth its n a) j = if Nat.eqb j n then a else item_at its j.
Proof. intros. unfold item_at. apply set_nth_nth. auto. Qed.

Lemma set_loop_spec : forall kp v c k h d,
  N.of_nat c = 2 ^ k -> k <= 63 -> h = N.to_nat (hash (mem kp) mod 2 ^ k) -> (d < c)%nat ->
  forall n i its, length its = c -> (i + n = c)%nat -> (i <= d)%nat ->
  (forall e, (i <= e < d)%nat -> occ (item_at its (at_off c h e)) = true) ->
  occ (item_at its (at_off c h d)) = false ->
  exists its', set_loop hash mem its kp v i n = (its', true) /\ length its' = c /\
    forall j, (j < c)%nat ->
      item_at its' j =
        if (dist c h j =? d)%nat then mkItem kp v (chain (item_at its j)) (hash (mem kp))
        else if ((i <=? dist c h j) && (dist c h j <? d))%nat then inc (item_at its j)
        else item_at its j.
Proof.
  intros kp v c k h d HC Hk Hh Hd.
  assert (C : (0 < c)%nat) by lia.
  assert (HH : (h < c)%nat).
  { subst h. rewrite <- HC. pose proof (N.mod_lt (hash (mem kp)) (N.of_nat c)). lia. }
  induction n as [|n IH]; intros i its HL Hi Hid Hocc Hemp; [lia|].
  cbn [set_loop].
  assert (PI : pidx its (hash (mem kp)) i = at_off c h i).
  { rewrite (pidx_at_off its _ i k); try congruence. lia. }
  rewrite PI.
  assert (HJ : (at_off c h i < c)%nat) by (apply at_off_lt; auto).
  destruct (Nat.eq_dec i d) as [->|Nid].
  - unfold occ in Hemp. apply negb_false_iff in Hemp. rewrite Hemp.
    eexists. split; [reflexivity|]. split; [rewrite set_nth_length; auto|].
    intros j Hj. rewrite item_at_set by lia.
    destruct (Nat.eqb_spec j (at_off c h d)) as [->|Nj].
    + rewrite dist_at_off by auto. rewrite Nat.eqb_refl. reflexivity.
    + destruct (Nat.eqb_spec (dist c h j) d) as [Ej|_].
      * exfalso. apply Nj. rewrite <- Ej. symmetry. apply at_off_dist; auto.
      * destruct (Nat.leb_spec d (dist c h j)), (Nat.ltb_spec (dist c h j) d); cbn; try lia; reflexivity.
  - pose proof (Hocc i ltac:(lia)) as O. unfold occ in O. apply negb_true_iff in O. rewrite O.
    fold (inc (item_at its (at_off c h i))).
    set (its1 := set_nth its (at_off c h i) (inc (item_at its (at_off c h i)))).
    assert (NE : forall e, (i < e)%nat -> (e < c)%nat -> at_off c h e <> at_off c h i).
    { intros e He Hec X. apply (f_equal (dist c h)) in X. rewrite !dist_at_off in X by (auto; lia). lia. }
    destruct (IH (S i) its1) as [its' [E [HL' HI]]].
    + unfold its1. rewrite set_nth_length. auto.
    + lia.
    + lia.
    + intros e He. unfold its1. rewrite item_at_set by lia.
      destruct (Nat.eqb_spec (at_off c h e) (at_off c h i)) as [X|_]; [exfalso; apply (NE e); auto; lia|].
      apply Hocc. lia.
    + unfold its1. rewrite item_at_set by lia.
      destruct (Nat.eqb_spec (at_off c h d) (at_off c h i)) as [X|_]; [exfalso; apply (NE d); auto; lia|auto].
    + exists its'. split; [exact E|]. split; [auto|]. intros j Hj. rewrite HI by auto.
      unfold its1. rewrite item_at_set by lia.
      destruct (Nat.eqb_spec j (at_off c h i)) as [->|Nj].
      * rewrite dist_at_off by (auto; lia).
        destruct (Nat.eqb_spec i d); [lia|].
        destruct (Nat.leb_spec (S i) i), (Nat.leb_spec i i), (Nat.ltb_spec i d); cbn; try lia; reflexivity.
      * assert (dist c h j <> i). { intros X. apply Nj. rewrite <- X. symmetry. apply at_off_dist; auto. }
        destruct (Nat.eqb_spec (dist c h j) d); [reflexivity|].
        destruct (Nat.leb_spec (S i) (dist c h j)), (Nat.leb_spec i (dist c h j)); cbn; try lia; reflexivity.
Qed.

(** Some slot on the probe path is empty when the table is not full. *)
Lemma first_empty : forall its h, (h < length its)%nat ->
  (exists s, (s < length its)%nat /\ occ (item_at its s) = false) ->
  exists d, (d < length its)%nat /\ occ (item_at its (at_off (length its) h d)) = false /\
    forall e, (e < d)%nat -> occ (item_at its (at_off (length its) h e)) = true.
Proof.
  intros its h HH [s [Hs O]].
  assert (C : (0 < length its)%nat) by lia.
  assert (G : forall n, (exists d, (d < n)%nat /\ occ (item_at its (at_off (length its) h d)) = false /\
      forall e, (e < d)%nat -> occ (item_at its (at_off (length its) h e)) = true) \/
      (forall e, (e < n)%nat -> occ (item_at its (at_off (length its) h e)) = true)).
  { induction n as [|n [[d [H1 H2]]|IH]].
    - right. intros; lia.
    - left. exists d. split; [lia|auto].
    - destruct (occ (item_at its (at_off (length its) h n))) eqn:On.
      + right. intros e He. destruct (Nat.eq_dec e n) as [->|]; [auto|apply IH; lia].
      + left. exists n. split; [lia|auto]. }
  destruct (G (length its)) as [[d H]|H]; [exists d; tauto|].
  exfalso. rewrite <- (at_off_dist (length its) C h s HH Hs) in O.
  rewrite H in O by (apply dist_lt; auto). discriminate.
Qed.

(** ** Removal *)
Lemma remove_loop_spec : forall kp c k h d,
  N.of_nat c = 2 ^ k -> k <= 63 -> h = N.to_nat (hash (mem kp) mod 2 ^ k) -> (d < c)%nat ->
  forall n i its, length its = c -> (i + n = c)%nat -> (i <= d)%nat ->
  (forall e, (i <= e < d)%nat -> slot_has its kp (at_off c h e) = false) ->
  slot_has its kp (at_off c h d) = true ->
  exists its', remove_loop hash mem its ksize kp i n = (its', true) /\ length its' = c /\
    forall j, (j < c)%nat ->
      item_at its' j =
        if (dist c h j =? d)%nat then mkItem 0 (ivalue (item_at its j)) (chain (item_at its j)) (key_hash (item_at its j))
        else if ((i <=? dist c h j) && (dist c h j <? d))%nat then dec (item_at its j)
        else item_at its j.
Proof.
  intros kp c k h d HC Hk Hh Hd.
  assert (C : (0 < c)%nat) by lia.
  assert (HH : (h < c)%nat).
  { subst h. rewrite <- HC. pose proof (N.mod_lt (hash (mem kp)) (N.of_nat c)). lia. }
  induction n as [|n IH]; intros i its HL Hi Hid Hno Hyes; [lia|].
  cbn [remove_loop].
  assert (PI : pidx its (hash (mem kp)) i = at_off c h i).
  { rewrite (pidx_at_off its _ i k); try congruence. lia. }
  rewrite PI.
  assert (HJ : (at_off c h i < c)%nat) by (apply at_off_lt; auto).
  fold (slot_has its kp (at_off c h i)).
  destruct (Nat.eq_dec i d) as [->|Nid].
  - rewrite Hyes.
    eexists. split; [reflexivity|]. split; [rewrite set_nth_length; auto|].
    intros j Hj. rewrite item_at_set by lia.
    destruct (Nat.eqb_spec j (at_off c h d)) as [->|Nj].
    + rewrite dist_at_off by auto. rewrite Nat.eqb_refl. reflexivity.
    + destruct (Nat.eqb_spec (dist c h j) d) as [Ej|_].
      * exfalso. apply Nj. rewrite <- Ej. symmetry. apply at_off_dist; auto.
      * destruct (Nat.leb_spec d (dist c h j)), (Nat.ltb_spec (dist c h j) d); cbn; try lia; reflexivity.
  - rewrite (Hno i) by lia.
    fold (dec (item_at its (at_off c h i))).
    set (its1 := set_nth its (at_off c h i) (dec (item_at its (at_off c h i)))).
    assert (NE : forall e, (i < e)%nat -> (e < c)%nat -> at_off c h e <> at_off c h i).
    { intros e He Hec X. apply (f_equal (dist c h)) in X. rewrite !dist_at_off in X by (auto; lia). lia. }
    assert (SH : forall e, (i < e)%nat -> (e < c)%nat -> slot_has its1 kp (at_off c h e) = slot_has its kp (at_off c h e)).
    { intros e He Hec. unfold slot_has, its1. rewrite item_at_set by lia.
      destruct (Nat.eqb_spec (at_off c h e) (at_off c h i)) as [X|_]; [exfalso; apply (NE e); auto; lia|reflexivity]. }
    destruct (IH (S i) its1) as [its' [E [HL' HI]]].
    + unfold its1. rewrite set_nth_length. auto.
    + lia.
    + lia.
    + intros e He. rewrite SH by lia. apply Hno. lia.
    + rewrite SH by lia. auto.
    + exists its'. split; [exact E|]. split; [auto|]. intros j Hj. rewrite HI by auto.
      unfold its1. rewrite item_at_set by lia.
      destruct (Nat.eqb_spec j (at_off c h i)) as [->|Nj].
      * rewrite dist_at_off by (auto; lia).
        destruct (Nat.eqb_spec i d); [lia|].
        destruct (Nat.leb_spec (S i) i), (Nat.leb_spec i i), (Nat.ltb_spec i d); cbn; try lia; reflexivity.
      * assert (dist c h j <> i). { intros X. apply Nj. rewrite <- X. symmetry. apply at_off_dist; auto. }
        destruct (Nat.eqb_spec (dist c h j) d); [reflexivity|].
        destruct (Nat.leb_spec (S i) (dist c h j)), (Nat.leb_spec i (dist c h j)); cbn; try lia; reflexivity.
Qed.
End Loops.

(** ** Preservation of the invariant *)
Lemma tinv_pos : forall hash mem its, tinv hash mem its -> (0 < length its)%nat.
Proof.
  intros hash mem its I. destruct (inv_cap _ _ _ I) as [k [H _]].
  assert (0 < 2 ^ k) by (apply N.neq_0_lt_0, N.pow_nonzero; lia). lia.
Qed.
Lemma tinv_len64 : forall hash mem its, tinv hash mem its -> N.of_nat (length its) <= 2 ^ 63.
Proof.
  intros hash mem its I. destruct (inv_cap _ _ _ I) as [k [H Hk]]. rewrite H. apply N.pow_le_mono_r; lia.
Qed.

Lemma khome_lt : forall hash mem its kp, (0 < length its)%nat -> (khome hash mem its kp < length its)%nat.
Proof.
  intros. unfold khome. pose proof (N.mod_lt (hash (mem kp)) (N.of_nat (length its))). lia.
Qed.

Lemma tinv_set : forall hash mem its its' kp v d,
  tinv hash mem its -> kp <> 0 ->
  let c := length its in let h := khome hash mem its kp in
  (d < c)%nat -> length its' = c ->
  occ (item_at its (at_off c h d)) = false ->
  (forall s, (s < c)%nat -> occ (item_at its s) = true -> mem (key_addr (item_at its s)) <> mem kp) ->
  (forall j, (j < c)%nat ->
      item_at its' j =
        if (dist c h j =? d)%nat then mkItem kp v (chain (item_at its j)) (hash (mem kp))
        else if ((0 <=? dist c h j) && (dist c h j <? d))%nat then inc (item_at its j)
        else item_at its j) ->
  tinv hash mem its'.
Proof.
  intros hash mem its its' kp v d I Hkp c h Hd HL Hemp Habs HI.
  pose proof (tinv_pos _ _ _ I) as C. fold c in C.
  assert (HH : (h < c)%nat) by (apply khome_lt; auto).
  set (s0 := at_off c h d). assert (Hs0 : (s0 < c)%nat) by (apply at_off_lt; auto).
  assert (D0 : dist c h s0 = d) by (apply dist_at_off; auto).
  assert (I0 : item_at its' s0 = mkItem kp v (chain (item_at its s0)) (hash (mem kp))).
  { rewrite HI by auto. rewrite D0, Nat.eqb_refl. reflexivity. }
  assert (IO : forall j, (j < c)%nat -> j <> s0 ->
     key_addr (item_at its' j) = key_addr (item_at its j) /\ key_hash (item_at its' j) = key_hash (item_at its j)).
  { intros j Hj Nj. rewrite HI by auto.
    destruct (Nat.eqb_spec (dist c h j) d) as [E|_].
    - exfalso. apply Nj. unfold s0. rewrite <- E. symmetry. apply at_off_dist; auto.
    - destruct (_ && _); auto. }
  assert (OO : forall j, (j < c)%nat -> j <> s0 -> occ (item_at its' j) = occ (item_at its j)).
  { intros j Hj Nj. unfold occ. rewrite (proj1 (IO j Hj Nj)). reflexivity. }
  constructor.
  - rewrite HL. exact (inv_cap _ _ _ I).
  - rewrite HL. intros s Hs O. destruct (Nat.eq_dec s s0) as [->|Ns].
    + rewrite I0. reflexivity.
    + destruct (IO s Hs Ns) as [-> ->]. apply (inv_hash _ _ _ I); auto. rewrite <- OO; auto.
  - rewrite HL. intros s s' Hs Hs' O O' E.
    destruct (Nat.eq_dec s s0) as [->|Ns]; destruct (Nat.eq_dec s' s0) as [->|Ns']; auto.
    + rewrite I0 in E. cbn [key_addr] in E. destruct (IO s' Hs' Ns') as [EA _]. rewrite EA in E.
      exfalso. eapply Habs; [exact Hs'| |symmetry; exact E]. rewrite <- OO; auto.
    + rewrite I0 in E. cbn [key_addr] in E. destruct (IO s Hs Ns) as [EA _]. rewrite EA in E.
      exfalso. eapply Habs; [exact Hs| |exact E]. rewrite <- OO; auto.
    + destruct (IO s Hs Ns) as [EA _]. destruct (IO s' Hs' Ns') as [EA' _]. rewrite EA, EA' in E.
      apply (inv_dist _ _ _ I); auto; rewrite <- OO; auto.
  - rewrite HL. intros j Hj.
    assert (CNT : nslots its' (passes its' j) = (nslots its (passes its j) + if (dist c h j <? d)%nat then 1 else 0)%nat).
    { rewrite (nslots_one its its' (passes its j) (passes its' j) s0); auto.
      - f_equal. unfold passes at 1. rewrite I0. unfold home. rewrite HL. cbn [key_hash].
        assert (occ (mkItem kp v (chain (item_at its s0)) (hash (mem kp))) = true).
        { unfold occ. cbn. apply negb_true_iff. apply N.eqb_neq. auto. }
        rewrite H. cbn [andb]. fold c. fold c in h. change (N.to_nat (hash (mem kp) mod N.of_nat c)) with h.
        rewrite D0. reflexivity.
      - intros x Hx Nx. unfold passes. rewrite OO by auto. unfold home. rewrite HL.
        rewrite (proj2 (IO x Hx Nx)). reflexivity.
      - unfold passes. fold s0 in Hemp. rewrite Hemp. reflexivity. }
    rewrite CNT. rewrite HI by auto.
    pose proof (inv_chain _ _ _ I j Hj) as CJ.
    pose proof (nslots_le its (passes its j)) as LE.
    pose proof (tinv_len64 _ _ _ I) as L64.
    destruct (Nat.eqb_spec (dist c h j) d) as [E|NE].
    + cbn [chain]. rewrite E. rewrite Nat.ltb_irrefl. rewrite Nat.add_0_r. exact CJ.
    + cbn [Nat.leb andb]. destruct (Nat.ltb_spec (dist c h j) d).
      * cbn [inc chain]. rewrite CJ. unfold wrap64. rewrite N.mod_small.
        -- lia.
        -- assert (2 ^ 63 + 1 < 2 ^ 64) by (vm_compute; reflexivity). lia.
      * rewrite Nat.add_0_r. exact CJ.
Qed.

Lemma tinv_remove : forall hash mem its its' kp d,
  tinv hash mem its ->
  let c := length its in let h := khome hash mem its kp in
  (d < c)%nat -> length its' = c ->
  occ (item_at its (at_off c h d)) = true ->
  key_hash (item_at its (at_off c h d)) = hash (mem kp) ->
  (forall j, (j < c)%nat ->
      item_at its' j =
        if (dist c h j =? d)%nat then mkItem 0 (ivalue (item_at its j)) (chain (item_at its j)) (key_hash (item_at its j))
        else if ((0 <=? dist c h j) && (dist c h j <? d))%nat then dec (item_at its j)
        else item_at its j) ->
  tinv hash mem its'.
Proof.
  intros hash mem its its' kp d I c h Hd HL Hocc Hhash HI.
  pose proof (tinv_pos _ _ _ I) as C. fold c in C.
  assert (HH : (h < c)%nat) by (apply khome_lt; auto).
  set (s0 := at_off c h d) in *. assert (Hs0 : (s0 < c)%nat) by (apply at_off_lt; auto).
  assert (D0 : dist c h s0 = d) by (apply dist_at_off; auto).
  assert (I0 : occ (item_at its' s0) = false).
  { rewrite HI by auto. rewrite D0, Nat.eqb_refl. reflexivity. }
  assert (IO : forall j, (j < c)%nat -> j <> s0 ->
     key_addr (item_at its' j) = key_addr (item_at its j) /\ key_hash (item_at its' j) = key_hash (item_at its j)).
  { intros j Hj Nj. rewrite HI by auto.
    destruct (Nat.eqb_spec (dist c h j) d) as [E|_].
    - exfalso. apply Nj. unfold s0. rewrite <- E. symmetry. apply at_off_dist; auto.
    - destruct (_ && _); auto. }
  assert (OO : forall j, (j < c)%nat -> j <> s0 -> occ (item_at its' j) = occ (item_at its j)).
  { intros j Hj Nj. unfold occ. rewrite (proj1 (IO j Hj Nj)). reflexivity. }
  constructor.
  - rewrite HL. exact (inv_cap _ _ _ I).
  - rewrite HL. intros s Hs O. destruct (Nat.eq_dec s s0) as [->|Ns]; [congruence|].
    destruct (IO s Hs Ns) as [-> ->]. apply (inv_hash _ _ _ I); auto. rewrite <- OO; auto.
  - rewrite HL. intros s s' Hs Hs' O O' E.
    destruct (Nat.eq_dec s s0) as [->|Ns]; [congruence|].
    destruct (Nat.eq_dec s' s0) as [->|Ns']; [congruence|].
    destruct (IO s Hs Ns) as [EA _]. destruct (IO s' Hs' Ns') as [EA' _]. rewrite EA, EA' in E.
    apply (inv_dist _ _ _ I); auto; rewrite <- OO; auto.
  - rewrite HL. intros j Hj.
    assert (CNT : nslots its (passes its j) = (nslots its' (passes its' j) + if (dist c h j <? d)%nat then 1 else 0)%nat).
    { rewrite (nslots_one its' its (passes its' j) (passes its j) s0); auto.
      - f_equal. unfold passes at 1. rewrite Hocc. cbn [andb]. unfold home. rewrite Hhash.
        fold c. change (N.to_nat (hash (mem kp) mod N.of_nat c)) with h.
        rewrite D0. reflexivity.
      - rewrite HL. auto.
      - intros x Hx Nx. rewrite HL in Hx. unfold passes. rewrite OO by auto. unfold home. rewrite HL.
        rewrite (proj2 (IO x Hx Nx)). reflexivity.
      - unfold passes. rewrite I0. reflexivity. }
    rewrite HI by auto.
    pose proof (inv_chain _ _ _ I j Hj) as CJ. rewrite CNT in CJ.
    pose proof (nslots_le its (passes its j)) as LE.
    pose proof (tinv_len64 _ _ _ I) as L64.
    destruct (Nat.eqb_spec (dist c h j) d) as [E|NE].
    + cbn [chain]. rewrite E in CJ. rewrite Nat.ltb_irrefl in CJ. rewrite Nat.add_0_r in CJ. exact CJ.
    + cbn [Nat.leb andb]. destruct (Nat.ltb_spec (dist c h j) d).
      * cbn [dec chain]. rewrite CJ. unfold wrap64.
        replace (N.of_nat (nslots its' (passes its' j) + 1) + (2 ^ 64 - 1))
          with (N.of_nat (nslots its' (passes its' j)) + 1 * 2 ^ 64).
        2:{ assert (0 < 2 ^ 64) by (vm_compute; reflexivity). lia. }
        rewrite N.mod_add by (vm_compute; discriminate). apply N.mod_small.
        assert (2 ^ 63 + 1 < 2 ^ 64) by (vm_compute; reflexivity). lia.
      * rewrite Nat.add_0_r in CJ. exact CJ.
Qed.

(** ** Refinement *)
Record rel (hash : bytes -> N) (mem : N -> bytes) (ksize : nat) (s : fmap) (its : list mitem) : Prop := mkRel {
  rel_inv : tinv hash mem its;
  rel_sized : sized mem ksize its;
  rel_to : forall j, (j < length its)%nat -> occ (item_at its j) = true ->
     In (mem (key_addr (item_at its j)), (key_addr (item_at its j), ivalue (item_at its j))) s;
  rel_from : forall k a v, In (k, (a, v)) s ->
     exists j, (j < length its)%nat /\ occ (item_at its j) = true /\
               key_addr (item_at its j) = a /\ ivalue (item_at its j) = v /\ mem a = k;
  rel_count : length s = nslots its (fun j => occ (item_at its j));
  rel_nodup : NoDup (map fst s) }.

Lemma flookup_in : forall s k a v, flookup s k = Some (a, v) -> In (k, (a, v)) s.
Proof.
  intros s k a v H. unfold flookup in H. destruct (find _ s) as [p|] eqn:F; [|discriminate].
  injection H as H. apply find_some in F as [Hin E]. apply beqb_eq in E.
  destruct p as [k' av]. cbn in *. subst. auto.
Qed.
Lemma flookup_none : forall s k, flookup s k = None -> forall av, ~ In (k, av) s.
Proof.
  intros s k H av Hin. unfold flookup in H. destruct (find _ s) as [p|] eqn:F; [discriminate|].
  eapply find_none in F; [|exact Hin]. cbn in F.
  assert (beqb k k = true) by (apply beqb_eq; auto). congruence.
Qed.

Lemma rel_mem : forall hash mem mem' ksize s its,
  rel hash mem ksize s its ->
  forallb (fun p => beqb (mem' (fst (snd p))) (fst p)) s = true ->
  rel hash mem' ksize s its.
Proof.
  intros hash mem mem' ksize s its R F. rewrite forallb_forall in F.
  assert (E : forall j, (j < length its)%nat -> occ (item_at its j) = true ->
            mem' (key_addr (item_at its j)) = mem (key_addr (item_at its j))).
  { intros j Hj O. pose proof (rel_to _ _ _ _ _ R j Hj O) as Hin.
    apply F in Hin. cbn in Hin. apply beqb_eq in Hin. auto. }
  destruct R as [I SZ T Fr Cn ND]. constructor.
  - constructor.
    + exact (inv_cap _ _ _ I).
    + intros j Hj O. rewrite E by auto. apply (inv_hash _ _ _ I); auto.
    + intros j j' Hj Hj' O O' Q. rewrite !E in Q by auto. apply (inv_dist _ _ _ I); auto.
    + exact (inv_chain _ _ _ I).
  - intros j Hj O. rewrite E by auto. apply SZ; auto.
  - intros j Hj O. rewrite E by auto. apply T; auto.
  - intros k a v Hin. destruct (Fr k a v Hin) as [j [Hj [O [A [V K]]]]].
    exists j. repeat split; auto. rewrite <- A, E, A by auto. auto.
  - auto.
  - auto.
Qed.

Lemma rel_get : forall hash mem ksize s its k, rel hash mem ksize s its ->
  length (mem k) = ksize ->
  map_get hash mem (mkMap its ksize) k = option_map snd (flookup s (mem k)).
Proof.
  intros hash mem ksize s its k R HK. unfold map_get. cbn [items key_size].
  destruct (flookup s (mem k)) as [[a v]|] eqn:L.
  - apply flookup_in in L. destruct (rel_from _ _ _ _ _ R _ _ _ L) as [j [Hj [O [A [V K]]]]].
    cbn [option_map snd]. rewrite (get_loop_found hash mem ksize its k j); auto.
    + congruence.
    + apply (rel_inv _ _ _ _ _ R).
    + apply (rel_sized _ _ _ _ _ R).
    + congruence.
    + lia.
  - apply get_loop_absent; auto.
    + apply (rel_inv _ _ _ _ _ R).
    + apply (rel_sized _ _ _ _ _ R).
    + intros j Hj O E. pose proof (rel_to _ _ _ _ _ R j Hj O) as Hin. rewrite E in Hin.
      eapply flookup_none; eauto.
Qed.

Lemma not_full : forall its n, nslots its (fun j => occ (item_at its j)) = n -> (n < length its)%nat ->
  exists j, (j < length its)%nat /\ occ (item_at its j) = false.
Proof.
  intros its n E H.
  destruct (forallb (fun j => occ (item_at its j)) (seq 0 (length its))) eqn:F.
  - exfalso. rewrite forallb_forall in F.
    assert (nslots its (fun j => occ (item_at its j)) = length its); [|lia].
    unfold nslots. rewrite (filter_ext_len _ _ (fun _ => true)) by auto.
    rewrite <- (seq_length (length its) 0) at 2. f_equal.
    clear. induction (seq 0 (length its)); cbn; congruence.
  - apply Bool.not_true_iff_false in F. 
    assert (~ (forall x, In x (seq 0 (length its)) -> occ (item_at its x) = true)).
    { intros X. apply F. apply forallb_forall. auto. }
    destruct (existsb (fun j => negb (occ (item_at its j))) (seq 0 (length its))) eqn:X.
    + apply existsb_exists in X as [j [Hj O]]. exists j. apply in_seq in Hj. split; [lia|].
      apply negb_true_iff. auto.
    + exfalso. apply H0. intros x Hx.
      destruct (occ (item_at its x)) eqn:O; [reflexivity|].
      assert (existsb (fun j => negb (occ (item_at its j))) (seq 0 (length its)) = true); [|congruence].
      apply existsb_exists. exists x. split; [auto|]. rewrite O. reflexivity.
Qed.

Lemma rel_set : forall hash mem ksize s its k v, rel hash mem ksize s its ->
  k <> 0 -> length (mem k) = ksize -> flookup s (mem k) = None -> (length s < length its)%nat ->
  exists its', map_set hash mem (mkMap its ksize) k v = (mkMap its' ksize, true) /\
               length its' = length its /\ rel hash mem ksize ((mem k, (k, v)) :: s) its'.
Proof.
  intros hash mem ksize s its k v R Hk HK L Hlen.
  pose proof (rel_inv _ _ _ _ _ R) as I. pose proof (tinv_pos _ _ _ I) as C.
  set (h := khome hash mem its k).
  assert (HH : (h < length its)%nat) by (apply khome_lt; auto).
  destruct (first_empty its h HH) as [d [Hd [Hemp Hocc]]].
  { apply not_full with (n := length s); [symmetry; apply (rel_count _ _ _ _ _ R)|auto]. }
  destruct (inv_cap _ _ _ I) as [q [HQ Hq]].
  destruct (set_loop_spec hash mem k v (length its) q h d HQ Hq) with (n := length its) (i := O) (its := its)
    as [its' [E [HL HI]]]; auto; try lia.
  { unfold h, khome. rewrite HQ. reflexivity. }
  { intros e He. apply Hocc. lia. }
  exists its'. unfold map_set. cbn [items key_size]. rewrite E. split; [reflexivity|]. split; [auto|].
  assert (Habs : forall j, (j < length its)%nat -> occ (item_at its j) = true -> mem (key_addr (item_at its j)) <> mem k).
  { intros j Hj O X. pose proof (rel_to _ _ _ _ _ R j Hj O) as Hin. rewrite X in Hin.
    eapply flookup_none; eauto. }
  set (s0 := at_off (length its) h d) in *. assert (Hs0 : (s0 < length its)%nat) by (apply at_off_lt; auto).
  assert (D0 : dist (length its) h s0 = d) by (apply dist_at_off; auto).
  assert (I0 : item_at its' s0 = mkItem k v (chain (item_at its s0)) (hash (mem k))).
  { rewrite HI by auto. rewrite D0, Nat.eqb_refl. reflexivity. }
  assert (IO : forall j, (j < length its)%nat -> j <> s0 ->
     key_addr (item_at its' j) = key_addr (item_at its j) /\ ivalue (item_at its' j) = ivalue (item_at its j)).
  { intros j Hj Nj. rewrite HI by auto.
    destruct (Nat.eqb_spec (dist (length its) h j) d) as [X|_].
    - exfalso. apply Nj. unfold s0. rewrite <- X. symmetry. apply at_off_dist; auto.
    - destruct (_ && _); auto. }
  assert (OO : forall j, (j < length its)%nat -> j <> s0 -> occ (item_at its' j) = occ (item_at its j)).
  { intros j Hj Nj. unfold occ. rewrite (proj1 (IO j Hj Nj)). reflexivity. }
  assert (O0 : occ (item_at its' s0) = true).
  { rewrite I0. unfold occ. cbn. apply negb_true_iff, N.eqb_neq. auto. }
  constructor.
  - eapply tinv_set with (its := its) (d := d); eauto.
  - intros j Hj O. rewrite HL in Hj. destruct (Nat.eq_dec j s0) as [->|Nj].
    + rewrite I0. cbn. auto.
    + rewrite (proj1 (IO j Hj Nj)). apply (rel_sized _ _ _ _ _ R); auto. rewrite <- OO; auto.
  - intros j Hj O. rewrite HL in Hj. destruct (Nat.eq_dec j s0) as [->|Nj].
    + left. rewrite I0. reflexivity.
    + right. destruct (IO j Hj Nj) as [-> ->]. apply (rel_to _ _ _ _ _ R); auto. rewrite <- OO; auto.
  - intros k' a v' [X|Hin].
    + injection X as <- <- <-. exists s0. rewrite HL. repeat split; auto; rewrite I0; reflexivity.
    + destruct (rel_from _ _ _ _ _ R _ _ _ Hin) as [j [Hj [O [A [V K]]]]].
      assert (Nj : j <> s0) by (intros ->; congruence).
      destruct (IO j Hj Nj) as [EA EV].
      exists j. rewrite HL. repeat split; auto; try congruence. rewrite OO; auto.
  - cbn [length]. rewrite (nslots_one its its' (fun j => occ (item_at its j)) (fun j => occ (item_at its' j)) s0); auto.
    + rewrite O0. rewrite <- (rel_count _ _ _ _ _ R). lia.
    + intros x Hx Nx. symmetry. auto.
  - cbn [map fst]. constructor; [|apply (rel_nodup _ _ _ _ _ R)].
    intros Hin. apply in_map_iff in Hin as [[k' av] [X Hin]]. cbn in X. subst k'.
    eapply flookup_none; eauto.
Qed.

Lemma NoDup_fst_unique : forall A B (s : list (A * B)) k b b',
  NoDup (map fst s) -> In (k, b) s -> In (k, b') s -> b = b'.
Proof.
  induction s as [|[k0 b0] s IH]; cbn; intros k b b' ND H H'; [destruct H|].
  inversion ND as [|? ? Hn ND']; subst.
  destruct H as [H|H]; destruct H' as [H'|H'].
  - congruence.
  - injection H as -> ->. exfalso. apply Hn. apply in_map_iff. exists (k, b'). auto.
  - injection H' as -> ->. exfalso. apply Hn. apply in_map_iff. exists (k, b). auto.
  - eauto.
Qed.

Lemma filter_key_length : forall (s : fmap) k av, NoDup (map fst s) -> In (k, av) s ->
  length s = S (length (filter (fun p => negb (beqb (fst p) k)) s)).
Proof.
  induction s as [|[k0 b0] s IH]; cbn [map fst]; intros k av ND H; [destruct H|].
  inversion ND as [|? ? Hn ND']; subst. cbn [filter fst].
  destruct (beqb k0 k) eqn:E; cbn [negb length].
  - apply beqb_eq in E. subst k0. f_equal.
    assert (filter (fun p : bytes * (N * N) => negb (beqb (fst p) k)) s = s) as ->; [|reflexivity].
    clear - Hn. induction s as [|[k1 b1] s IH]; cbn; [reflexivity|].
    destruct (beqb k1 k) eqn:E; cbn.
    + apply beqb_eq in E. subst. exfalso. apply Hn. left. reflexivity.
    + f_equal. apply IH. intros X. apply Hn. right. auto.
  - f_equal. destruct H as [H|H].
    + injection H as -> ->. assert (beqb k k = true) by (apply beqb_eq; auto). congruence.
    + eapply IH; eauto.
Qed.

Lemma rel_remove : forall hash mem ksize s its k v, rel hash mem ksize s its ->
  k <> 0 -> length (mem k) = ksize -> flookup s (mem k) = Some (k, v) ->
  exists its', map_remove hash mem (mkMap its ksize) k = (mkMap its' ksize, true) /\
    length its' = length its /\
    rel hash mem ksize (filter (fun p => negb (beqb (fst p) (mem k))) s) its'.
Proof.
  intros hash mem ksize s its k v R Hk HK L.
  pose proof (rel_inv _ _ _ _ _ R) as I. pose proof (tinv_pos _ _ _ I) as C.
  set (h := khome hash mem its k).
  assert (HH : (h < length its)%nat) by (apply khome_lt; auto).
  apply flookup_in in L.
  destruct (rel_from _ _ _ _ _ R _ _ _ L) as [s0 [Hs0 [O0 [A0 [V0 _]]]]].
  set (d := dist (length its) h s0).
  assert (Hd : (d < length its)%nat) by (apply dist_lt; auto).
  assert (S0 : at_off (length its) h d = s0) by (apply at_off_dist; auto).
  assert (SHs : forall j, (j < length its)%nat -> slot_has hash mem ksize its k j = true <-> j = s0).
  { intros j Hj. rewrite slot_has_spec; auto; [|apply (rel_sized _ _ _ _ _ R)]. split.
    - intros [O E]. apply (inv_dist _ _ _ I); auto. congruence.
    - intros ->. split; congruence. }
  destruct (inv_cap _ _ _ I) as [q [HQ Hq]].
  destruct (remove_loop_spec hash mem ksize k (length its) q h d HQ Hq) with (n := length its) (i := O) (its := its)
    as [its' [E [HL HI]]]; auto; try lia.
  { unfold h, khome. rewrite HQ. reflexivity. }
  { intros e He. destruct (slot_has hash mem ksize its k (at_off (length its) h e)) eqn:X; [|reflexivity].
    apply SHs in X; [|apply at_off_lt; auto]. 
    assert (e = d); [|lia]. unfold d. rewrite <- X. symmetry. apply dist_at_off; auto. lia. }
  { rewrite S0. apply SHs; auto. }
  exists its'. unfold map_remove. cbn [items key_size]. rewrite E. split; [reflexivity|]. split; [auto|].
  assert (I0 : occ (item_at its' s0) = false).
  { rewrite HI by auto. fold d. rewrite Nat.eqb_refl. reflexivity. }
  assert (IO : forall j, (j < length its)%nat -> j <> s0 ->
     key_addr (item_at its' j) = key_addr (item_at its j) /\ ivalue (item_at its' j) = ivalue (item_at its j)).
  { intros j Hj Nj. rewrite HI by auto.
    destruct (Nat.eqb_spec (dist (length its) h j) d) as [X|_].
    - exfalso. apply Nj. rewrite <- S0, <- X. symmetry. apply at_off_dist; auto.
    - destruct (_ && _); auto. }
  assert (OO : forall j, (j < length its)%nat -> j <> s0 -> occ (item_at its' j) = occ (item_at its j)).
  { intros j Hj Nj. unfold occ. rewrite (proj1 (IO j Hj Nj)). reflexivity. }
  constructor.
  - eapply tinv_remove with (its := its) (d := d) (kp := k); eauto.
    + fold h. rewrite S0. auto.
    + fold h. rewrite S0. rewrite (inv_hash _ _ _ I s0 Hs0 O0). congruence.
  - intros j Hj O. rewrite HL in Hj. destruct (Nat.eq_dec j s0) as [->|Nj]; [congruence|].
    rewrite (proj1 (IO j Hj Nj)). apply (rel_sized _ _ _ _ _ R); auto. rewrite <- OO; auto.
  - intros j Hj O. rewrite HL in Hj. destruct (Nat.eq_dec j s0) as [->|Nj]; [congruence|].
    destruct (IO j Hj Nj) as [EA EV]. rewrite OO in O by auto. rewrite EA, EV. apply filter_In. split.
    + apply (rel_to _ _ _ _ _ R); auto.
    + cbn [fst]. apply negb_true_iff. destruct (beqb _ (mem k)) eqn:X; [|reflexivity].
      apply beqb_eq in X. exfalso. apply Nj. apply (inv_dist _ _ _ I); auto. congruence.
  - intros k' a v' Hin. apply filter_In in Hin as [Hin X]. cbn [fst] in X.
    destruct (rel_from _ _ _ _ _ R _ _ _ Hin) as [j [Hj [O [A [V K]]]]].
    assert (Nj : j <> s0).
    { intros ->. apply negb_true_iff in X. 
      assert (beqb k' (mem k) = true); [|congruence]. apply beqb_eq. congruence. }
    destruct (IO j Hj Nj) as [EA EV].
    exists j. rewrite HL. repeat split; auto; try congruence. rewrite OO; auto.
  - pose proof (filter_key_length s (mem k) (k, v) (rel_nodup _ _ _ _ _ R) L) as FL.
    pose proof (nslots_one its' its (fun j => occ (item_at its' j)) (fun j => occ (item_at its j)) s0) as NO.
    rewrite HL, O0 in NO. rewrite <- (rel_count _ _ _ _ _ R) in NO.
    specialize (NO eq_refl Hs0 (fun x Hx Nx => OO x Hx Nx) I0). lia.
  - pose proof (rel_nodup _ _ _ _ _ R) as ND. clear - ND.
    induction s as [|p s IH]; cbn; [constructor|]. cbn in ND. inversion ND; subst.
    destruct (negb _); cbn; [constructor|]; auto.
    intros X. apply H1. apply in_map_iff in X as [q [<- Hq]]. apply filter_In in Hq.
    apply in_map. tauto.
Qed.

Lemma map_step_refines : forall hash mem ksize capacity s its o s' out,
  rel hash mem ksize s its -> capacity <= N.of_nat (length its) ->
  fstep ksize capacity s o = Some (s', out) ->
  exists its', map_step hash (mkMap its ksize) o = (mkMap its' ksize, out) /\
    length its' = length its /\ rel hash (fst o) ksize s' its'.
Proof.
  intros hash mem ksize capacity s its [mem' o] s' out R HC H. unfold fstep in H. cbn [fst snd] in *.
  destruct (forallb _ s) eqn:F; [|discriminate].
  apply (rel_mem _ _ mem') in R; [|auto]. clear F.
  unfold map_step. cbn [fst snd].
  destruct o as [k|k v|k].
  - destruct (N.eqb_spec k 0); [discriminate|]. cbn [orb] in H.
    destruct (Nat.eqb_spec (length (mem' k)) ksize); [|discriminate]. cbn [negb] in H.
    injection H as <- <-. exists its. split; [|auto]. erewrite rel_get; eauto.
  - destruct (N.eqb_spec k 0); [discriminate|]. cbn [orb] in H.
    destruct (Nat.eqb_spec (length (mem' k)) ksize); [|discriminate]. cbn [negb] in H.
    destruct (N.ltb_spec (N.of_nat (length s)) capacity); [|discriminate]. cbn [negb] in H.
    destruct (flookup s (mem' k)) eqn:L; [discriminate|]. injection H as <- <-.
    destruct (rel_set hash mem' ksize s its k v R) as [its' [E [HL R']]]; auto; [lia|].
    exists its'. rewrite E. auto.
  - destruct (N.eqb_spec k 0); [discriminate|]. cbn [orb] in H.
    destruct (Nat.eqb_spec (length (mem' k)) ksize); [|discriminate]. cbn [negb] in H.
    destruct (flookup s (mem' k)) as [[a v]|] eqn:L; [|discriminate].
    destruct (N.eqb_spec a k); [subst a|discriminate]. injection H as <- <-.
    destruct (rel_remove hash mem' ksize s its k v R) as [its' [E [HL R']]]; auto.
    exists its'. rewrite E. auto.
Qed.

Lemma map_run_refines : forall hash ksize capacity ops mem s its outs,
  rel hash mem ksize s its -> capacity <= N.of_nat (length its) ->
  frun ksize capacity s ops = Some outs ->
  map_run hash (mkMap its ksize) ops = outs.
Proof.
  induction ops as [|o ops IH]; intros mem s its outs R HC H; cbn [frun map_run] in *.
  - congruence.
  - destruct (fstep ksize capacity s o) as [[s' out]|] eqn:S; [|discriminate].
    destruct (map_step_refines hash mem ksize capacity s its o s' out R HC S) as [its' [E [HL R']]].
    rewrite E. destruct (frun ksize capacity s' ops) as [outs'|] eqn:Fr; [|discriminate].
    injection H as <-. f_equal. eapply IH; eauto. rewrite HL. auto.
Qed.

Lemma item_at_repeat : forall n j, item_at (repeat item0 n) j = item0.
Proof. intros. unfold item_at. apply nth_repeat_same. Qed.

Lemma nslots_none : forall its f, (forall j, f j = false) -> nslots its f = O.
Proof.
  intros. unfold nslots. induction (seq 0 (length its)); cbn; [auto|]. rewrite H. auto.
Qed.

Lemma map_alloc_rel : forall hash mem ksize capacity, 0 < capacity -> capacity <= 2 ^ 63 ->
  rel hash mem ksize [] (items (map_alloc ksize capacity)) /\
  capacity <= N.of_nat (length (items (map_alloc ksize capacity))).
Proof.
  intros hash mem ksize capacity Hp Hc.
  destruct (get_real_capacity_spec capacity Hp Hc) as [k [E [H1 [H2 _]]]].
  unfold map_alloc. cbn [items]. rewrite repeat_length, E.
  assert (Hk : k <= 63) by (apply (N.pow_le_mono_r_iff 2); [lia|auto]).
  split; [|lia].
  constructor.
  - constructor.
    + exists k. rewrite repeat_length. split; [lia|auto].
    + intros s _ O. rewrite item_at_repeat in O. discriminate.
    + intros s s' _ _ O. rewrite item_at_repeat in O. discriminate.
    + intros j _. rewrite item_at_repeat. rewrite nslots_none; [reflexivity|].
      intros s. unfold passes. rewrite item_at_repeat. reflexivity.
  - intros s _ O. rewrite item_at_repeat in O. discriminate.
  - intros s _ O. rewrite item_at_repeat in O. discriminate.
  - intros ? ? ? [].
  - cbn. symmetry. apply nslots_none. intros. rewrite item_at_repeat. reflexivity.
  - constructor.
Qed.

Lemma map_run_empty : forall hash ksize ops outs,
  frun ksize 0 [] ops = Some outs -> map_run hash (mkMap [] ksize) ops = outs.
Proof.
  induction ops as [|[mem o] ops IH]; cbn; intros outs H; [congruence|].
  unfold fstep in H. cbn [forallb fst snd] in H. unfold map_step. cbn [fst snd].
  destruct o as [k|k v|k].
  - destruct ((k =? 0) || _); [discriminate|]. cbn in H. cbn.
    destruct (frun ksize 0 [] ops) as [outs'|] eqn:F; [|discriminate].
    injection H as <-. f_equal. auto.
  - destruct ((k =? 0) || _); discriminate.
  - destruct ((k =? 0) || _); discriminate.
Qed.

Theorem map_history : forall hash ksize capacity ops outs,
  capacity <= 2 ^ 63 ->
  frun ksize capacity [] ops = Some outs ->
  map_run hash (map_alloc ksize capacity) ops = outs.
Proof.
  intros hash ksize capacity ops outs Hc H.
  destruct (N.eq_dec capacity 0) as [->|Hp].
  - apply map_run_empty. auto.
  - destruct (map_alloc_rel hash (fun _ => []) ksize capacity) as [R HC]; [lia|auto|].
    unfold map_alloc in *. cbn [items] in *. eapply map_run_refines; eauto.
Qed.

Lemma get_real_capacity_least : forall capacity, 0 < capacity -> capacity <= 2 ^ 63 ->
  (exists k, get_real_capacity capacity = 2 ^ k) /\
  capacity <= get_real_capacity capacity /\
  (1 < get_real_capacity capacity -> get_real_capacity capacity < 2 * capacity).
Proof.
  intros c Hp Hc. destruct (get_real_capacity_spec c Hp Hc) as [k [E [H1 [H2 H3]]]].
  split; [eauto|]. rewrite E in *. split; [auto|]. intros. destruct H3; lia.
Qed.

Lemma frun_app_last : forall ksize capacity ops s o outs,
  frun ksize capacity s (ops ++ [o]) = Some outs ->
  exists s' s'' out, fstep ksize capacity s' o = Some (s'', out) /\ last outs (MVal None) = out.
Proof.
  induction ops as [|o' ops IH]; intros s o outs H; cbn [app frun] in H.
  - destruct (fstep ksize capacity s o) as [[s' out]|] eqn:E; [|discriminate].
    cbn in H. injection H as <-. exists s, s', out. split; auto.
  - destruct (fstep ksize capacity s o') as [[s1 out]|]; [|discriminate].
    destruct (frun ksize capacity s1 (ops ++ [o])) as [l|] eqn:E; [|discriminate].
    cbn in H. injection H as <-. destruct (IH s1 o l E) as [s' [s'' [o2 [H1 H2]]]].
    exists s', s'', o2. split; [auto|]. destruct l; [|exact H2].
    destruct ops; cbn [app frun] in E; destruct (fstep ksize capacity s1 _) as [[? ?]|]; try discriminate;
      destruct (frun ksize capacity _ _); discriminate.
Qed.

Lemma map_set_room : forall hash ksize capacity before m key value,
  capacity <= 2 ^ 63 ->
  frun ksize capacity [] (before ++ [(m, MSet key value)]) <> None ->
  last (map_run hash (map_alloc ksize capacity) (before ++ [(m, MSet key value)])) (MVal None) = MDone true.
Proof.
  intros hash ksize capacity before m key value Hc H.
  destruct (frun ksize capacity [] (before ++ [(m, MSet key value)])) as [outs|] eqn:E; [|congruence].
  rewrite (map_history hash ksize capacity _ outs Hc E).
  destruct (frun_app_last _ _ _ _ _ _ E) as [s' [s'' [out [H1 ->]]]].
  unfold fstep in H1. cbn [fst snd] in H1.
  repeat (match type of H1 with context [if ?b then _ else _] => destruct b end; try discriminate).
  all: try (destruct (flookup s' (m key)); try discriminate); congruence.
Qed.
