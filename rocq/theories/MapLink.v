(** * Programs on the C map and on its contract

    The map contract (tool/klint/externals/structs/map.py 49-139, with the ownership of
    keys, HeapOwn.v) and the C implementation (HashMap.v) on the same calls. *)

From Coq Require Import NArith List Bool Lia Arith.
From Verif Require Import Solver Heap HeapOwn HashMap.
Import ListNotations.
Open Scope N_scope.

(** What the program does: calls on map number [m] with the key in element [i] of an array
    of keys, and writes to that array. *)
Inductive pcall := PGet (m : nat) (i : N) | PSet (m : nat) (i value : N) | PRemove (m : nat) (i : N)
| PWrite (i off v w : N) (reverse : bool).
(** A call on a map: which map, the memory at that time, the call, and its result. *)
Record made := mkMade { c_map : nat; c_mem : N -> list N; c_op : mop; c_out : mout }.

Section Link.
Variable pw ksz : N.
Variable base : N. (* the address of the array *)
Variable esz : N. (* the size of its elements, in bytes *)
Definition pointer (i : N) : N := base + i * esz.
(** The byte at an address, and the bytes from an address on, as many as a key has. *)
Definition byte_at (h : hobj) (p : N) : N := (fst (hel h ((p - base) / esz)) / 256 ^ ((p - base) mod esz)) mod 256.
Definition memory_of (h : hobj) (p : N) : list N := map (fun j => byte_at h (p + N.of_nat j)) (seq 0 (N.to_nat ksz)).

(** map_get, map.py 54-72: the value, if any. *)
Definition kget (st : kst) (m : nat) (i : N) : res (option N) :=
  match nth_error (kmaps st) m with
  | None => Err
  | Some k => do key <- hread pw (kheap st) i 0 ksz false; Ok (kvals k key)
  end.
(** One call under the contract: the state after it, and what was called with which
    result. *)
Definition contract_step (st : kst) (x : pcall) : res (kst * list made) :=
  let mem := memory_of (kheap st) in
  match x with
  | PGet m i => do v <- kget st m i; Ok (st, [mkMade m mem (MGet (pointer i)) (MVal v)])
  | PSet m i v => do st' <- kset pw ksz st m i v; Ok (st', [mkMade m mem (MSet (pointer i) v) (MDone true)])
  | PRemove m i => do st' <- kremove pw ksz st m i; Ok (st', [mkMade m mem (MRemove (pointer i)) (MDone true)])
  | PWrite i off v w rev => do h <- hwrite pw (kheap st) i off v w rev; Ok (mkKst h (kmaps st), [])
  end.
Fixpoint contract_run (st : kst) (xs : list pcall) : res (kst * list made) :=
  match xs with
  | [] => Ok (st, [])
  | x :: xs => do (st1, t1) <- contract_step st x; do (st2, t2) <- contract_run st1 xs; Ok (st2, t1 ++ t2)
  end.
(** The calls on one map. *)
Definition calls_of (m : nat) (tr : list made) : list made := filter (fun c => Nat.eqb (c_map c) m) tr.

(** ** Proofs *)
End Link.

(** The bytes of a key in memory, lowest first. *)
Fixpoint kbytes (n : nat) (x : N) : list N :=
  match n with O => [] | S n => x mod 256 :: kbytes n (x / 256) end.

Lemma kbytes_length : forall n x, length (kbytes n x) = n.
Proof. induction n; intros x; cbn [kbytes length]; [reflexivity|]. rewrite IHn. reflexivity. Qed.
Lemma kbytes_inj : forall n x y, x < 256 ^ N.of_nat n -> y < 256 ^ N.of_nat n -> kbytes n x = kbytes n y -> x = y.
Proof.
  induction n as [|n IH]; intros x y Hx Hy E.
  - cbn in Hx, Hy. lia.
  - cbn [kbytes] in E. injection E as E1 E2. rewrite Nat2N.inj_succ, N.pow_succ_r' in Hx, Hy.
    assert (x / 256 = y / 256) by (apply IH; [apply N.div_lt_upper_bound; lia|apply N.div_lt_upper_bound; lia|exact E2]).
    rewrite (N.div_mod' x 256), (N.div_mod' y 256). congruence.
Qed.
Lemma kbytes_seq : forall n x lo, map (fun j => (x / 256 ^ N.of_nat j) mod 256) (seq lo n) = kbytes n (x / 256 ^ N.of_nat lo).
Proof.
  induction n as [|n IH]; intros x lo; [reflexivity|]. cbn [seq map kbytes]. f_equal. rewrite IH. f_equal.
  rewrite Nat2N.inj_succ, N.pow_succ_r', N.mul_comm, <- N.div_div; [reflexivity|apply N.pow_nonzero; discriminate|discriminate].
Qed.

(** Keys of one element. *)
Section One.
Variable pw ksz base : N.
Local Notation pointer := (pointer base ksz).
Local Notation memory_of := (memory_of ksz base ksz).
Local Notation contract_step := (contract_step pw ksz base ksz).
Local Notation contract_run := (contract_run pw ksz base ksz).
Lemma pow_key : 2 ^ (ksz * 8) = 256 ^ N.of_nat (N.to_nat ksz).
Proof. rewrite N2Nat.id, N.mul_comm, N.pow_mul_r. reflexivity. Qed.
Local Notation kb := (kbytes (N.to_nat ksz)).
Lemma kb_inj : forall x y, x < 2 ^ (ksz * 8) -> y < 2 ^ (ksz * 8) -> kb x = kb y -> x = y.
Proof. intros x y. rewrite pow_key. apply kbytes_inj. Qed.

Lemma memory_of_pointer : forall h i, ksz <> 0 -> memory_of h (pointer i) = kb (fst (hel h i)).
Proof.
  intros h i H. unfold MapLink.memory_of, MapLink.pointer. rewrite <- (N.div_1_r (fst (hel h i))). change 1 with (256 ^ N.of_nat 0) at 1. rewrite <- kbytes_seq.
  apply map_ext_in. intros j Hj. apply in_seq in Hj. unfold byte_at. replace (base + i * ksz + N.of_nat j - base) with (N.of_nat j + i * ksz) by lia.
  assert (N.of_nat j < ksz) by lia.
  rewrite N.div_add, N.mod_add, (N.div_small (N.of_nat j) ksz), (N.mod_small (N.of_nat j) ksz) by lia. reflexivity.
Qed.
Lemma pointer_inj : forall i j, ksz <> 0 -> pointer i = pointer j -> i = j.
Proof. intros i j H E. unfold MapLink.pointer in E. apply (N.mul_cancel_r i j ksz); [exact H|lia]. Qed.

(** The map of the contract and the association list of HashMap.v. *)
Record same (k : kmap) (s : fmap) : Prop := mkSame {
  sm_vals : forall key, key < 2 ^ (ksz * 8) -> kvals k key = option_map snd (flookup s (kb key));
  sm_addrs : forall key, key < 2 ^ (ksz * 8) -> option_map pointer (kaddrs k key) = option_map fst (flookup s (kb key));
  sm_len : klen k = N.of_nat (length s);
  sm_keys : NoDup (map fst s);
  sm_from : Forall (fun p => exists key, key < 2 ^ (ksz * 8) /\ fst p = kb key) s }.

Lemma flookup_in : forall (s : fmap) p, NoDup (map fst s) -> In p s -> flookup s (fst p) = Some (snd p).
Proof.
  induction s as [|q s IH]; intros p D H; [contradiction|]. cbn [map] in D. inversion D as [|? ? D1 D2]; subst. unfold flookup. cbn [find].
  destruct (beqb (fst q) (fst p)) eqn:E.
  - apply beqb_eq in E. destruct H as [->|H]; [reflexivity|]. exfalso. apply D1. rewrite E. apply in_map. exact H.
  - destruct H as [->|H]; [|apply (IH p D2 H)]. rewrite (proj2 (beqb_eq _ _) eq_refl) in E. discriminate.
Qed.
Lemma flookup_none : forall s b, flookup s b = None -> ~ In b (map fst s).
Proof.
  intros s b H C. apply in_map_iff in C as (p & <- & H2). unfold flookup in H. destruct (find (fun q => beqb (fst q) (fst p)) s) eqn:F; [discriminate|].
  apply (find_none _ _ F) in H2. rewrite (proj2 (beqb_eq _ _) eq_refl) in H2. discriminate.
Qed.
Lemma flookup_some : forall s b x, flookup s b = Some x -> In (b, x) s.
Proof.
  intros s b x H. unfold flookup in H. destruct (find (fun q => beqb (fst q) b) s) as [p|] eqn:F; [|discriminate]. injection H as <-.
  apply find_some in F as [F1 F2]. apply beqb_eq in F2. subst b. destruct p; exact F1.
Qed.
Lemma flookup_cons : forall s b x b', flookup ((b, x) :: s) b' = if beqb b b' then Some x else flookup s b'.
Proof. intros s b x b'. unfold flookup. cbn [find fst]. destruct (beqb b b'); reflexivity. Qed.
Lemma flookup_filter : forall s b b', flookup (filter (fun p => negb (beqb (fst p) b)) s) b' = if beqb b b' then None else flookup s b'.
Proof.
  induction s as [|[c x] s IH]; intros b b'; cbn [filter fst]; [unfold flookup; cbn; destruct (beqb b b'); reflexivity|].
  destruct (beqb c b) eqn:E; cbn [negb].
  - rewrite IH, flookup_cons. apply beqb_eq in E. subst c. destruct (beqb b b'); reflexivity.
  - rewrite !flookup_cons, IH. destruct (beqb c b') eqn:E2; [|reflexivity]. apply beqb_eq in E2. subst c.
    destruct (beqb b b') eqn:E3; [|reflexivity]. apply beqb_eq in E3. subst b'. rewrite (proj2 (beqb_eq _ _) eq_refl) in E. discriminate.
Qed.
Lemma filter_all : forall {A} (f : A -> bool) l, (forall x, In x l -> f x = true) -> filter f l = l.
Proof. induction l as [|a l IH]; intros H; [reflexivity|]. cbn [filter]. rewrite H by (left; reflexivity). f_equal. apply IH. intros; apply H; right; assumption. Qed.
Lemma filter_length : forall (s : fmap) b, NoDup (map fst s) -> In b (map fst s) ->
  S (length (filter (fun p => negb (beqb (fst p) b)) s)) = length s.
Proof.
  induction s as [|[c x] s IH]; intros b D H; [contradiction|]. cbn [map] in D. inversion D as [|? ? D1 D2]; subst. cbn [filter fst length].
  destruct (beqb c b) eqn:E; cbn [negb].
  - apply beqb_eq in E. subst c. f_equal. rewrite filter_all; [reflexivity|]. intros p Hp. apply negb_true_iff. destruct (beqb (fst p) b) eqn:E2; [|reflexivity].
    apply beqb_eq in E2. exfalso. apply D1. cbn [fst]. rewrite <- E2. apply in_map. exact Hp.
  - cbn [length]. f_equal. apply IH; [exact D2|]. cbn [map fst] in H. destruct H as [H|H]; [|exact H]. subst c. rewrite (proj2 (beqb_eq _ _) eq_refl) in E. discriminate.
Qed.
Lemma filter_nodup : forall (f : bytes * (N * N) -> bool) (s : fmap), NoDup (map fst s) -> NoDup (map fst (filter f s)).
Proof.
  induction s as [|p s IH]; intros D; [constructor|]. cbn [map] in D. inversion D as [|? ? D1 D2]; subst. cbn [filter]. destruct (f p); [|apply IH; exact D2].
  cbn [map]. constructor; [|apply IH; exact D2]. intros C. apply D1. apply in_map_iff in C as (q & <- & C). apply filter_In in C as [C _]. apply in_map. exact C.
Qed.

Lemma same_set : forall k s key i v, key < 2 ^ (ksz * 8) -> same k s -> flookup s (kb key) = None ->
  same (mkK (kupd (kvals k) key (Some v)) (kupd (kaddrs k) key (Some i)) (klen k + 1) (kcap k)) ((kb key, (pointer i, v)) :: s).
Proof.
  intros k s key i v Hk [S1 S2 S3 S4 S5] F. constructor; cbn [kvals kaddrs klen].
  - intros key' H'. rewrite flookup_cons. unfold kupd. destruct (N.eqb_spec key' key) as [->|E].
    + rewrite (proj2 (beqb_eq _ _) eq_refl). reflexivity.
    + destruct (beqb (kb key) (kb key')) eqn:B; [apply beqb_eq, kb_inj in B; congruence|]. apply S1; exact H'.
  - intros key' H'. rewrite flookup_cons. unfold kupd. destruct (N.eqb_spec key' key) as [->|E].
    + rewrite (proj2 (beqb_eq _ _) eq_refl). reflexivity.
    + destruct (beqb (kb key) (kb key')) eqn:B; [apply beqb_eq, kb_inj in B; congruence|]. apply S2; exact H'.
  - cbn [length]. rewrite S3. lia.
  - cbn [map fst]. constructor; [apply flookup_none; exact F|exact S4].
  - constructor; [|exact S5]. exists key. split; [exact Hk|reflexivity].
Qed.
Lemma same_remove : forall k s key x, key < 2 ^ (ksz * 8) -> same k s -> flookup s (kb key) = Some x ->
  same (mkK (kupd (kvals k) key None) (kupd (kaddrs k) key None) (klen k - 1) (kcap k)) (filter (fun p => negb (beqb (fst p) (kb key))) s).
Proof.
  intros k s key x Hk [S1 S2 S3 S4 S5] F. constructor; cbn [kvals kaddrs klen].
  - intros key' H'. rewrite flookup_filter. unfold kupd. destruct (N.eqb_spec key' key) as [->|E].
    + rewrite (proj2 (beqb_eq _ _) eq_refl). reflexivity.
    + destruct (beqb (kb key) (kb key')) eqn:B; [apply beqb_eq, kb_inj in B; congruence|]. apply S1; exact H'.
  - intros key' H'. rewrite flookup_filter. unfold kupd. destruct (N.eqb_spec key' key) as [->|E].
    + rewrite (proj2 (beqb_eq _ _) eq_refl). reflexivity.
    + destruct (beqb (kb key) (kb key')) eqn:B; [apply beqb_eq, kb_inj in B; congruence|]. apply S2; exact H'.
  - assert (L := filter_length s (kb key) S4). rewrite S3. rewrite <- L; [lia|]. apply flookup_some in F. apply (in_map fst) in F. exact F.
  - apply filter_nodup. exact S4.
  - rewrite Forall_forall in *. intros p Hp. apply filter_In in Hp as [Hp _]. apply S5. exact Hp.
Qed.

(** What the state of the contract says of the memory. *)
Lemma memory_kept : forall st n k s m, kinv pw ksz st n -> nth_error (kmaps st) m = Some k -> same k s -> ksz <> 0 ->
  forallb (fun p => beqb (memory_of (kheap st) (fst (snd p))) (fst p)) s = true.
Proof.
  intros st n k s m (f & _ & _ & _ & _ & _ & _ & _ & KM) Hn [S1 S2 S3 S4 S5] Z. apply forallb_forall. intros p Hp. apply beqb_eq.
  rewrite Forall_forall in S5. destruct (S5 p Hp) as (key & Hk & E). assert (L : flookup s (kb key) = Some (snd p)) by (etransitivity; [|exact (flookup_in s p S4 Hp)]; f_equal; symmetry; exact E).
  specialize (S2 key Hk). rewrite L in S2. cbn [option_map] in S2. destruct (kaddrs k key) as [a|] eqn:A; [|discriminate]. cbn [option_map] in S2. injection S2 as <-.
  rewrite memory_of_pointer by exact Z. etransitivity; [|symmetry; exact E]. f_equal. rewrite Forall_forall in KM. apply nth_error_In in Hn. destruct (KM k Hn) as [KA _]. apply (KA key a A).
Qed.
Lemma nth_set_same : forall {A} n (l : list A) x y, nth_error l n = Some x -> nth_error (set_nth n y l) n = Some y.
Proof. intros A n l x y H. unfold set_nth. rewrite nth_error_app2; rewrite firstn_length; [|lia]. assert (n < length l)%nat by (apply nth_error_Some; congruence). replace (n - Nat.min n (length l))%nat with 0%nat by lia. reflexivity. Qed.
Lemma nth_set_other : forall {A} n n' (l : list A) x y, nth_error l n = Some x -> n <> n' -> nth_error (set_nth n y l) n' = nth_error l n'.
Proof.
  intros A n n' l x y H NE. apply nth_error_split in H as (a & b & -> & L). subst n. unfold set_nth.
  rewrite firstn_app, Nat.sub_diag, firstn_all. cbn [firstn]. rewrite app_nil_r. rewrite skipn_app, skipn_all2 by lia. rewrite app_nil_l.
  replace (S (length a) - length a)%nat with 1%nat by lia. cbn [skipn]. destruct (Nat.lt_ge_cases n' (length a)).
  - rewrite !nth_error_app1 by lia. reflexivity.
  - rewrite !nth_error_app2 by lia. replace (n' - length a)%nat with (S (n' - S (length a)))%nat by lia. reflexivity.
Qed.

(** One call on map [m]: the association list accepts it, with the same result. *)
Lemma step_same : forall st x st' tr n m k s, 0 < base -> kinv pw ksz st n -> contract_step st x = Ok (st', tr) -> nth_error (kmaps st) m = Some k -> same k s ->
  exists k' s', nth_error (kmaps st') m = Some k' /\ same k' s' /\ kcap k' = kcap k /\ kinv pw ksz st' n /\
    forall rest outs, frun (N.to_nat ksz) (kcap k) s' rest = Some outs ->
      frun (N.to_nat ksz) (kcap k) s (map (fun c => (c_mem c, c_op c)) (calls_of m tr) ++ rest) = Some (map c_out (calls_of m tr) ++ outs).
Proof.
  intros st x st' tr n m k s Hb KI H Hn Sm. assert (KI0 := KI). destruct KI as (f & F & FP & SE & ES & KZ & NP & CO & KM).
  assert (MK := memory_kept st n k s m KI0 Hn Sm KZ).
  assert (HB : forall i, fst (hel (kheap st) i) < 2 ^ (ksz * 8)) by (intros i; rewrite <- ES; apply SE).
  assert (NZ : forall i, (pointer i =? 0) || negb (Nat.eqb (length (memory_of (kheap st) (pointer i))) (N.to_nat ksz)) = false).
  { intros i. replace (pointer i =? 0) with false by (symmetry; apply N.eqb_neq; unfold MapLink.pointer; lia). rewrite memory_of_pointer, kbytes_length, Nat.eqb_refl by exact KZ. reflexivity. }
  destruct x as [m' i|m' i v|m' i|i off v w rev]; cbn [MapLink.contract_step] in H.
  - unfold kget in H. destruct (nth_error (kmaps st) m') as [k1|] eqn:E1; [|discriminate]. cbn [bindr] in H. apply bindr_ok in H as (w & H & H'). injection H' as <- <-.
    apply bindr_ok in H as (key & HR & H). injection H as <-. destruct (hread_whole pw ksz _ _ _ SE ES KZ HR) as [-> _].
    exists k, s. split; [exact Hn|]. split; [exact Sm|]. split; [reflexivity|]. split; [exact KI0|]. intros rest outs R. unfold calls_of. cbn [filter c_map].
    destruct (Nat.eqb_spec m' m) as [->|NE]; [|exact R]. rewrite Hn in E1. injection E1 as <-. cbn [map c_mem c_op c_out app frun]. unfold fstep. cbn [fst snd].
    rewrite MK, NZ. rewrite memory_of_pointer by exact KZ. rewrite R. cbn [option_map]. rewrite (sm_vals _ _ Sm) by apply HB. reflexivity.
  - apply bindr_ok in H as (st1 & H & H'). injection H' as <- <-. assert (KI' : kinv pw ksz st1 n) by (apply (kstep_inv pw ksz st (KSet m' i v) st1 n KI0); exact H).
    unfold kset in H. destruct (nth_error (kmaps st) m') as [k1|] eqn:E1; [|discriminate]. apply bindr_ok in H as (key & HR & H). apply bindr_ok in H as ([h got] & HT & H).
    destruct (hread_whole pw ksz _ _ _ SE ES KZ HR) as [-> _]. destruct (kvals k1 _) eqn:V; [discriminate|]. destruct (kaddrs k1 _) eqn:A; [discriminate|].
    destruct (N.ltb_spec (klen k1) (kcap k1)) as [L|]; [|discriminate]. injection H as <-. cbn [kmaps] in KI' |- *. unfold calls_of. cbn [filter c_map].
    destruct (Nat.eqb_spec m' m) as [->|NE].
    + rewrite Hn in E1. injection E1 as <-. assert (FN : flookup s (kb (fst (hel (kheap st) i))) = None).
      { assert (V' := sm_vals _ _ Sm _ (HB i)). rewrite V in V'. destruct (flookup s _); [discriminate|reflexivity]. }
      eexists. eexists. split; [apply (nth_set_same _ _ _ _ Hn)|]. split; [apply same_set; [apply HB|exact Sm|exact FN]|]. split; [reflexivity|]. split; [exact KI'|].
      intros rest outs R. cbn [map c_mem c_op c_out app frun]. unfold fstep. cbn [fst snd]. rewrite MK, NZ, memory_of_pointer by exact KZ.
      rewrite <- (sm_len _ _ Sm), (proj2 (N.ltb_lt _ _) L). cbn [negb]. rewrite FN. exact (f_equal (option_map (cons (MDone true))) R).
    + exists k, s. split; [rewrite (nth_set_other m' m _ _ _ E1 NE); exact Hn|]. split; [exact Sm|]. split; [reflexivity|]. split; [exact KI'|]. intros rest outs R. exact R.
  - apply bindr_ok in H as (st1 & H & H'). injection H' as <- <-. assert (KI' : kinv pw ksz st1 n) by (apply (kstep_inv pw ksz st (KRemove m' i) st1 n KI0); exact H).
    unfold kremove in H. destruct (nth_error (kmaps st) m') as [k1|] eqn:E1; [|discriminate]. apply bindr_ok in H as (key & HR & H). apply bindr_ok in H as ([h got] & HT & H).
    destruct (hread_whole pw ksz _ _ _ SE ES KZ HR) as [-> _]. destruct (kvals k1 _) eqn:V; [|discriminate]. destruct (kaddrs k1 _) as [a|] eqn:A; [|discriminate].
    destruct (negb (got =? 0) && (a =? i)) eqn:CK; [|discriminate]. apply andb_prop in CK as [_ CK]. apply N.eqb_eq in CK. subst a.
    apply bindr_ok in H as (h' & HG & H). injection H as <-. cbn [kmaps] in KI' |- *. unfold calls_of. cbn [filter c_map].
    destruct (Nat.eqb_spec m' m) as [->|NE].
    + rewrite Hn in E1. injection E1 as <-. assert (A' := sm_addrs _ _ Sm _ (HB i)). rewrite A in A'. cbn [option_map] in A'.
      destruct (flookup s (kb (fst (hel (kheap st) i)))) as [[a x]|] eqn:FL; [|discriminate]. cbn [option_map fst] in A'. injection A' as <-.
      eexists. eexists. split; [apply (nth_set_same _ _ _ _ Hn)|]. split; [apply (same_remove _ _ _ _ (HB i) Sm FL)|]. split; [reflexivity|]. split; [exact KI'|].
      intros rest outs R. cbn [map c_mem c_op c_out app frun]. unfold fstep. cbn [fst snd]. rewrite MK, NZ, memory_of_pointer by exact KZ.
      rewrite FL, N.eqb_refl. exact (f_equal (option_map (cons (MDone true))) R).
    + exists k, s. split; [rewrite (nth_set_other m' m _ _ _ E1 NE); exact Hn|]. split; [exact Sm|]. split; [reflexivity|]. split; [exact KI'|]. intros rest outs R. exact R.
  - apply bindr_ok in H as (h & H & H'). injection H' as <- <-.
    assert (KI' : kinv pw ksz (mkKst h (kmaps st)) n) by (apply (kstep_inv pw ksz st (KWrite i off v w rev) _ n KI0); cbn [kstep]; rewrite H; reflexivity).
    exists k, s. split; [exact Hn|]. split; [exact Sm|]. split; [reflexivity|]. split; [exact KI'|]. intros rest outs R. exact R.
Qed.
Lemma run_same : forall xs st st' tr n m k s, 0 < base -> kinv pw ksz st n -> contract_run st xs = Ok (st', tr) -> nth_error (kmaps st) m = Some k -> same k s ->
  frun (N.to_nat ksz) (kcap k) s (map (fun c => (c_mem c, c_op c)) (calls_of m tr)) = Some (map c_out (calls_of m tr)).
Proof.
  induction xs as [|x xs IH]; intros st st' tr n m k s Hb KI H Hn Sm; cbn [MapLink.contract_run] in H.
  - injection H as <- <-. reflexivity.
  - apply bindr_ok in H as ([st1 t1] & H1 & H). apply bindr_ok in H as ([st2 t2] & H2 & H). injection H as <- <-.
    destruct (step_same _ _ _ _ _ _ _ _ Hb KI H1 Hn Sm) as (k' & s' & Hn' & Sm' & Hc & KI' & R).
    assert (R2 := IH _ _ _ _ _ _ _ Hb KI' H2 Hn' Sm'). rewrite Hc in R2. apply R in R2. unfold calls_of in *. rewrite filter_app, !map_app. exact R2.
Qed.
End One.
