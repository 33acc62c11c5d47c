(** * The systems' memory functions (env/include/os/memory.h, env/src/os/linux/memory.c,
      env/src/os/dpdk/memory.c, env/src/os/pci.c)

    Memory is a function from addresses to bytes; the functions also give the addresses they
    read, in order.  Machine words are as in MemAlloc.v. *)

From Coq Require Import NArith ZArith List Bool Lia Arith.
From Verif Require Import HashMap MemAlloc.
Import ListNotations.
Open Scope N_scope.

Definition memory := N -> N.
(** The [n] bytes at [a], and their addresses. *)
Fixpoint contents (m : memory) (a : N) (n : nat) : list N :=
  match n with O => [] | S n => m a :: contents m (a + 1) n end.
Fixpoint addresses (a : N) (n : nat) : list N :=
  match n with O => [] | S n => a :: addresses (a + 1) n end.

(** ** memory.h: comparing, hashing and copying *)

(** memory.h 47-70. *)
Fixpoint mem_eq (m : memory) (a b : N) (n : nat) (i : N) : bool * list N :=
  match n with
  | O => (true, [])
  | S n =>
      if negb (m (w64 (a + i)) =? m (w64 (b + i))) then (false, [w64 (a + i); w64 (b + i)])
      else let (r, l) := mem_eq m a b n (i + 1) in (r, w64 (a + i) :: w64 (b + i) :: l)
  end.
Definition os_memory_eq_at (m : memory) (a b : N) (n : nat) : bool * list N := mem_eq m a b n 0.

(** A little-endian load of [k] bytes, the step of the hash on 32 bits. *)
Fixpoint load (m : memory) (a : N) (k : nat) : N :=
  match k with O => 0 | S k => m (w64 a) + 256 * load m (a + 1) k end.
Definition reads (a : N) (k : nat) : list N := map w64 (addresses a k).
Definition mix (hash value : N) : N := (hash / 2 ^ 5 + hash + value) mod 2 ^ 32.
(** memory.h 88-104: [None] when [fuel] iterations are not enough. *)
Fixpoint hash_loop (fuel : nat) (m : memory) (obj size hash : N) : option (N * N * N * list N) :=
  match fuel with
  | O => None
  | S fuel =>
      if 4 <=? size then
        match hash_loop fuel m (w64 (obj + 4)) (sub64 size 4) (mix hash (load m obj 4)) with
        | Some (o, s, h, l) => Some (o, s, h, reads obj 4 ++ l)
        | None => None
        end
      else Some (obj, size, hash, [])
  end.
(** memory.h 105-127. *)
Definition os_memory_hash (m : memory) (obj size : N) : option (N * list N) :=
  match hash_loop (S (N.to_nat size)) m obj size 0 with
  | None => None
  | Some (obj, size, hash, l) =>
      let '(obj, hash, l) := if negb (N.land size 2 =? 0) then (w64 (obj + 2), mix hash (load m obj 2), l ++ reads obj 2) else (obj, hash, l) in
      let '(hash, l) := if negb (N.land size 1 =? 0) then (mix hash (load m obj 1), l ++ reads obj 1) else (hash, l) in
      Some (hash, l)
  end.

(** memory.h 131-150: the new memory, the addresses read and those written. *)
Fixpoint copy_loop (m : memory) (src dst i : N) (n : nat) : memory * list N * list N :=
  match n with
  | O => (m, [], [])
  | S n =>
      let m' := fun a => if a =? w64 (dst + i) then m (w64 (src + i)) else m a in
      let '(m'', rs, ws) := copy_loop m' src dst (i + 1) n in
      (m'', w64 (src + i) :: rs, w64 (dst + i) :: ws)
  end.
Definition os_memory_copy (m : memory) (src dst : N) (n : nat) : memory * list N * list N := copy_loop m src dst 0 n.

(** ** Specification: the hash of a list of bytes *)
Fixpoint hash_fp (h : N) (l : list N) : N :=
  match l with
  | a :: b :: c :: d :: l => hash_fp (mix h (a + 256 * b + 65536 * c + 16777216 * d)) l
  | [a; b; c] => mix (mix h (a + 256 * b)) c
  | [a; b] => mix h (a + 256 * b)
  | [a] => mix h a
  | [] => h
  end.

(** ** linux/memory.c: physical addresses *)

(** linux/memory.c 67-112, with page sizes, files and their contents as the system gives them:
    [pagemap] has the 8 bytes at an offset, if they can be read.  [None] is abort().
    [off_t] has 64 bits: the conversions and back change nothing. *)
Definition os_memory_pagesize (sysconf : Z) : option N :=
  if (sysconf <? 0)%Z then None else if (sysconf =? 0)%Z then None else Some (Z.to_N sysconf).
Definition virt_to_phys (sysconf : Z) (opened : bool) (pagemap : N -> option N) (addr : N) : option N :=
  match os_memory_pagesize sysconf with
  | None => None
  | Some page_size =>
      let page := addr / page_size in
      let map_offset := w64 (page * 8) in
      if negb opened then None
      else match pagemap map_offset with
      | None => None
      | Some metadata =>
          if N.land metadata 0x8000000000000000 =? 0 then None
          else
            let pfn := N.land metadata 0x7FFFFFFFFFFFFF in
            if pfn =? 0 then None
            else Some (w64 (w64 (pfn * page_size) + addr mod page_size))
      end
  end.

(** ** dpdk/memory.c *)

(** DPDK's rte_align64pow2 (rte_common.h), which is called by dpdk/memory.c 10. *)
Definition combine64ms1b (v : N) : N :=
  let v := N.lor v (N.shiftr v 1) in let v := N.lor v (N.shiftr v 2) in let v := N.lor v (N.shiftr v 4) in
  let v := N.lor v (N.shiftr v 8) in let v := N.lor v (N.shiftr v 16) in N.lor v (N.shiftr v 32).
Definition rte_align64pow2 (v : N) : N := w64 (combine64ms1b (sub64 v 1) + 1).
(** dpdk/memory.c 7-16: the call of rte_calloc: count, size, alignment. *)
Definition dpdk_request (count size : N) : N * N * N :=
  let align := rte_align64pow2 (w64 (count * size)) in
  (count, size, if align <? 64 then 64 else align).
(** What rte_calloc promises (rte_malloc.h): NULL, or an address with the alignment. *)
Definition calloc_ok (calloc : N * N * N -> N) : Prop :=
  forall c s a, calloc (c, s, a) = 0 \/ calloc (c, s, a) mod a = 0.
Definition dpdk_alloc (calloc : N * N * N -> N) (count size : N) : N := calloc (dpdk_request count size).
(** The promise of memory.h 30-31 about the result. *)
Definition alloc_ensures (r size : N) : Prop := r <> 0 /\ r mod (size + 64 - size mod 64) = 0.

(** ** os/pci.c 7-13, on systems with memory_alloc.c *)
(** [table] is the address of the static table of [count] addresses of 8 bytes. *)
Definition pci_enumerate (base total : N) (st : astate) (table : N) (count : nat) : option (N * nat * astate) :=
  match astep base total st (AAlloc (N.of_nat count) 8) with
  | Some st' =>
      match ablocks st' with
      | b :: _ => Some (baddr b, count, mkA (fst (fst (os_memory_copy (amem st') table (baddr b) (count * 8)))) (aused st') (ablocks st'))
      | [] => None
      end
  | None => None
  end.

(** * Proofs *)
Lemma addresses_length : forall n a, length (addresses a n) = n.
Proof. induction n; intros a; cbn; auto. Qed.
Lemma contents_length : forall n m a, length (contents m a n) = n.
Proof. induction n; intros m a; cbn; auto. Qed.
Lemma in_addresses : forall n a x, In x (addresses a n) <-> a <= x < a + N.of_nat n.
Proof.
  induction n as [|n IH]; intros a x; cbn [addresses In]; [lia|]. rewrite IH. lia.
Qed.
Lemma addresses_app : forall n k a, addresses a (n + k) = addresses a n ++ addresses (a + N.of_nat n) k.
Proof.
  induction n as [|n IH]; intros k a; cbn [addresses Nat.add app]; [f_equal; lia|]. rewrite IH. do 3 f_equal. lia.
Qed.
Lemma contents_app : forall n k m a, contents m a (n + k) = contents m a n ++ contents m (a + N.of_nat n) k.
Proof.
  induction n as [|n IH]; intros k m a; cbn [contents Nat.add app]; [f_equal; lia|]. rewrite IH. do 3 f_equal. lia.
Qed.
Lemma contents_nth : forall n m a i, (i < n)%nat -> nth i (contents m a n) 0 = m (a + N.of_nat i).
Proof.
  induction n as [|n IH]; intros m a i H; [lia|]. destruct i as [|i]; cbn [contents nth]; [f_equal; lia|]. rewrite IH by lia. f_equal. lia.
Qed.
Lemma reads_small : forall k a, a + N.of_nat k <= 2 ^ 64 -> reads a k = addresses a k.
Proof.
  unfold reads. induction k as [|k IH]; intros a H; cbn [addresses map]; [reflexivity|]. rewrite IH, w64_small by lia. reflexivity.
Qed.

Lemma mem_eq_list : forall n m a b i, a + i + N.of_nat n <= 2 ^ 64 -> b + i + N.of_nat n <= 2 ^ 64 ->
  fst (mem_eq m a b n i) = HashMap.os_memory_eq (contents m (a + i) n) (contents m (b + i) n) n /\
  forall x, In x (snd (mem_eq m a b n i)) -> In x (addresses (a + i) n) \/ In x (addresses (b + i) n).
Proof.
  induction n as [|n IH]; intros m a b i Ha Hb; cbn [mem_eq contents HashMap.os_memory_eq]; [split; [reflexivity|intros x []]|].
  rewrite !w64_small by lia. destruct (negb _).
  - split; [reflexivity|]. cbn [snd addresses]. intros x [<-|[<-|[]]]; cbn [In]; auto.
  - destruct (IH m a b (i + 1) ltac:(lia) ltac:(lia)) as [E I]. rewrite !N.add_assoc in E. destruct (mem_eq m a b n (i + 1)) as [r l]. cbn [fst snd] in *. split; [exact E|].
    intros x [<-|[<-|Hx]]; cbn [addresses In]; auto. rewrite !N.add_assoc in I. destruct (I x Hx); auto.
Qed.

Lemma load_contents : forall m a k, a + N.of_nat k <= 2 ^ 64 -> load m a k = fold_right (fun b acc => b + 256 * acc) 0 (contents m a k).
Proof.
  intros m a k; revert a. induction k as [|k IH]; intros a H; cbn [load contents fold_right]; [reflexivity|]. rewrite w64_small, IH by lia. reflexivity.
Qed.

(** The words of an object, then the rest. *)
Lemma hash_loop_spec : forall fuel m obj size hash, obj + size < 2 ^ 64 -> (N.to_nat size < fuel)%nat ->
  exists q r h, size = 4 * q + r /\ r < 4 /\
  hash_loop fuel m obj size hash = Some (obj + 4 * q, r, h, addresses obj (N.to_nat (4 * q))) /\
  forall l, hash_fp hash (contents m obj (N.to_nat (4 * q)) ++ l) = hash_fp h l.
Proof.
  induction fuel as [|fuel IH]; intros m obj size hash Ho Hf; [lia|]. cbn [hash_loop]. destruct (N.leb_spec 4 size) as [H4|H4].
  - rewrite sub64_small, w64_small by lia. destruct (IH m (obj + 4) (size - 4) (mix hash (load m obj 4)) ltac:(lia) ltac:(lia)) as (q & r & h & E & Hr & Hl & Hh).
    exists (q + 1), r, h. split; [lia|]. split; [exact Hr|]. rewrite Hl. replace (N.to_nat (4 * (q + 1))) with (4 + N.to_nat (4 * q))%nat by lia. split.
    + rewrite reads_small by lia. rewrite addresses_app. replace (obj + 4 * (q + 1)) with (obj + 4 + 4 * q) by lia. reflexivity.
    + intros l. rewrite contents_app, <- app_assoc. change (N.of_nat 4) with 4. rewrite <- (Hh l). rewrite load_contents by lia. cbn [contents app hash_fp fold_right]. f_equal. f_equal. lia.
  - exists 0, size, hash. split; [lia|]. split; [exact H4|]. split; [|reflexivity]. change (4 * 0) with 0. rewrite N.add_0_r. reflexivity.
Qed.
Lemma load_one : forall m a, a < 2 ^ 64 -> load m a 1 = m a.
Proof. intros m a H. cbn [load]. rewrite w64_small by exact H. lia. Qed.
Lemma load_two : forall m a, a + 1 < 2 ^ 64 -> load m a 2 = m a + 256 * m (a + 1).
Proof. intros m a H. cbn [load]. rewrite !w64_small by lia. lia. Qed.
Lemma hash_spec : forall m obj size, obj + size < 2 ^ 64 ->
  os_memory_hash m obj size = Some (hash_fp 0 (contents m obj (N.to_nat size)), addresses obj (N.to_nat size)).
Proof.
  intros m obj size Ho. unfold os_memory_hash. destruct (hash_loop_spec (S (N.to_nat size)) m obj size 0 Ho ltac:(lia)) as (q & r & h & E & Hr & -> & Hh).
  replace (N.to_nat size) with (N.to_nat (4 * q) + N.to_nat r)%nat by lia. rewrite contents_app, addresses_app, Hh, N2Nat.id. set (o := obj + 4 * q).
  assert (Ho' : o + r < 2 ^ 64) by (unfold o; lia). clearbody o. clear Hh E Ho.
  assert (R : r = 0 \/ r = 1 \/ r = 2 \/ r = 3) by lia. destruct R as [->|[->|[->| ->]]]; cbn [N.land Pos.land N.double N.succ_double Pos.Ndouble Pos.Nsucc_double N.eqb negb Pos.eqb].
  - rewrite app_nil_r. reflexivity.
  - rewrite load_one, reads_small by (cbn; lia). reflexivity.
  - rewrite load_two, reads_small by (cbn; lia). reflexivity.
  - rewrite (w64_small (o + 2)), load_two, load_one, !reads_small, <- app_assoc by (cbn; lia). change (N.to_nat 3) with 3%nat. cbn [contents addresses hash_fp app]. replace (o + 1 + 1) with (o + 2) by lia. reflexivity.
Qed.
Lemma mix_lt : forall h v, mix h v < 2 ^ 32.
Proof. intros. apply N.mod_lt. discriminate. Qed.
Lemma hash_fp_lt : forall l h, h < 2 ^ 32 -> hash_fp h l < 2 ^ 32.
Proof.
  fix IH 1. intros l h H. destruct l as [|a [|b [|c [|d l]]]]; cbn [hash_fp]; try apply mix_lt; [exact H|]. apply IH. apply mix_lt.
Qed.
(** Objects of four bytes: the hash is the word. *)
Lemma hash_four : forall a b c d, a < 256 -> b < 256 -> c < 256 -> d < 256 -> hash_fp 0 [a; b; c; d] = a + 256 * b + 65536 * c + 16777216 * d.
Proof. intros. cbn [hash_fp]. unfold mix. change (0 / 2 ^ 5) with 0. rewrite N.mod_small by lia. lia. Qed.

Lemma copy_spec : forall n m src dst i, src + i + N.of_nat n <= 2 ^ 64 -> dst + i + N.of_nat n <= 2 ^ 64 ->
  src + i + N.of_nat n <= dst \/ dst + i + N.of_nat n <= src \/ (forall j, i <= j < i + N.of_nat n -> forall k, i <= k < i + N.of_nat n -> src + j <> dst + k) ->
  let '(m', rs, ws) := copy_loop m src dst i n in
  (forall a, m' a = if (dst + i <=? a) && (a <? dst + i + N.of_nat n) then m (src + (a - dst)) else m a) /\
  rs = addresses (src + i) n /\ ws = addresses (dst + i) n.
Proof.
  induction n as [|n IH]; intros m src dst i Hs Hd Dj; cbn [copy_loop addresses].
  - split; [|split; reflexivity]. intros a. destruct (N.leb_spec (dst + i) a); [|reflexivity]. destruct (N.ltb_spec a (dst + i + N.of_nat 0)); [lia|reflexivity].
  - rewrite !w64_small by lia. set (m1 := fun a => if a =? dst + i then m (src + i) else m a).
    specialize (IH m1 src dst (i + 1) ltac:(lia) ltac:(lia)). destruct (copy_loop m1 src dst (i + 1) n) as [[m2 rs] ws].
    destruct IH as (H1 & -> & ->).
    { destruct Dj as [D|[D|D]]; [left; lia|right; right; intros; lia|right; right; intros j Hj k Hk; apply D; lia]. }
    rewrite !N.add_assoc in *. split; [|split; reflexivity]. intros a. rewrite H1. unfold m1.
    destruct (N.leb_spec (dst + i) a) as [L|L], (N.leb_spec (dst + i + 1) a) as [L1|L1]; cbn [andb]; try lia.
    + destruct (N.ltb_spec a (dst + i + 1 + N.of_nat n)), (N.ltb_spec a (dst + i + N.of_nat (S n))); try lia; cbn [andb].
      * destruct (N.eqb_spec (src + (a - dst)) (dst + i)) as [E|]; [|reflexivity]. exfalso. destruct Dj as [D|[D|D]]; [lia|lia|]. apply (D (a - dst) ltac:(lia) i ltac:(lia)). exact E.
      * destruct (N.eqb_spec a (dst + i)); [lia|reflexivity].
    + assert (a = dst + i) by lia. subst a. rewrite N.eqb_refl. destruct (N.ltb_spec (dst + i) (dst + i + N.of_nat (S n))); [|lia]. f_equal. lia.
    + destruct (N.eqb_spec a (dst + i)); [lia|reflexivity].
Qed.

(** ** Physical addresses *)
Lemma land_pfn : forall md, N.land md 0x7FFFFFFFFFFFFF = md mod 2 ^ 55.
Proof. intros md. change 0x7FFFFFFFFFFFFF with (N.ones 55). apply N.land_ones. Qed.
Lemma land_present : forall md, (N.land md 0x8000000000000000 =? 0) = negb (N.testbit md 63).
Proof.
  intros md. destruct (N.testbit md 63) eqn:T; cbn [negb].
  - apply N.eqb_neq. intros E. assert (X : N.testbit (N.land md 0x8000000000000000) 63 = false) by (rewrite E; reflexivity).
    rewrite N.land_spec, T in X. discriminate X.
  - apply N.eqb_eq. apply N.bits_inj_0. intros n. rewrite N.land_spec. change 0x8000000000000000 with (2 ^ 63). rewrite N.pow2_bits_eqb. destruct (N.eqb_spec 63 n) as [<-|]; [rewrite T; reflexivity|apply andb_false_r].
Qed.
(** The arena is one page of 2^30 bytes: its small pages have consecutive frames. *)
Record arena_mapped (P base pfn0 : N) (pagemap : N -> option N) : Prop := mkArena {
  am_page : 0 < P; am_base : base mod P = 0; am_frame : 0 < pfn0; am_size : pfn0 + 2 ^ 30 <= 2 ^ 55; am_phys : pfn0 * P + 2 ^ 30 <= 2 ^ 64; am_virt : 8 * (base + 2 ^ 30) <= 2 ^ 64 * P;
  am_map : forall i, i * P < 2 ^ 30 -> exists md, pagemap ((base / P + i) * 8) = Some md /\ N.testbit md 63 = true /\ md mod 2 ^ 55 = pfn0 + i }.
Lemma virt_to_phys_arena : forall P base pfn0 pagemap k, arena_mapped P base pfn0 pagemap -> k < 2 ^ 30 ->
  virt_to_phys (Z.of_N P) true pagemap (base + k) = Some (pfn0 * P + k).
Proof.
  intros P base pfn0 pagemap k [HP HB HF HS HPh HV HM] Hk. unfold virt_to_phys, os_memory_pagesize.
  destruct (Z.ltb_spec (Z.of_N P) 0); [lia|]. destruct (Z.eqb_spec (Z.of_N P) 0); [lia|]. rewrite N2Z.id. cbn [negb].
  pose proof (N.div_mod base P ltac:(lia)) as DB. rewrite HB, N.add_0_r in DB. pose proof (N.div_mod k P ltac:(lia)) as DK. pose proof (N.mod_lt k P ltac:(lia)) as LK.
  assert (ED : (base + k) / P = base / P + k / P) by (rewrite DB at 1; rewrite (N.mul_comm P), N.add_comm, N.div_add by lia; apply N.add_comm).
  assert (EM : (base + k) mod P = k mod P) by (rewrite DB at 1; rewrite (N.mul_comm P), N.add_comm, N.mod_add by lia; reflexivity).
  rewrite ED, EM. rewrite (N.mul_comm P) in DB, DK.
  remember (k / P) as q eqn:Eq. remember (k mod P) as r eqn:Er. remember (base / P) as B eqn:EB. clear Eq Er EB ED EM HB.
  assert (Hq : q * P < 2 ^ 30) by lia.
  assert (HO : (B + q) * 8 < 2 ^ 64).
  { apply (N.mul_lt_mono_pos_r P); [exact HP|]. apply N.lt_le_trans with (8 * (base + 2 ^ 30)); [|exact HV].
    replace ((B + q) * 8 * P) with (8 * (B * P + q * P)) by ring. lia. }
  rewrite w64_small by exact HO. destruct (HM q Hq) as (md & -> & Hb & Hf).
  rewrite land_present, Hb, land_pfn, Hf. cbn [negb]. destruct (N.eqb_spec (pfn0 + q) 0); [lia|]. f_equal.
  rewrite N.mul_add_distr_r. rewrite (w64_small (pfn0 * P + q * P)) by lia. rewrite w64_small by lia. lia.
Qed.

(** ** The smallest power of two that is large enough *)
Lemma spread : forall w v k, (forall n, N.testbit v n = true <-> exists i, i < k /\ N.testbit w (n + i) = true) ->
  forall n, N.testbit (N.lor v (N.shiftr v k)) n = true <-> exists i, i < 2 * k /\ N.testbit w (n + i) = true.
Proof.
  intros w v k H n. rewrite N.lor_spec, orb_true_iff, N.shiftr_spec by lia. rewrite !H. split.
  - intros [(i & Hi & T)|(i & Hi & T)]; [exists i; split; [lia|exact T]|]. exists (k + i). split; [lia|]. rewrite N.add_assoc. exact T.
  - intros (i & Hi & T). destruct (N.lt_ge_cases i k) as [L|L]; [left; exists i; auto|]. right. exists (i - k). split; [lia|]. replace (n + k + (i - k)) with (n + i) by lia. exact T.
Qed.
Lemma combine_bits : forall w n, N.testbit (combine64ms1b w) n = true <-> exists i, i < 64 /\ N.testbit w (n + i) = true.
Proof.
  intros w. unfold combine64ms1b. change 64 with (2 * 32). apply spread. change 32 with (2 * 16). apply spread. change 16 with (2 * 8). apply spread.
  change 8 with (2 * 4). apply spread. change 4 with (2 * 2). apply spread. change 2 with (2 * 1). apply spread.
  intros n. split; [intros T; exists 0; rewrite N.add_0_r; split; [lia|exact T]|]. intros (i & Hi & T). assert (i = 0) by lia. subst i. rewrite N.add_0_r in T. exact T.
Qed.
Lemma combine_ones : forall w, 0 < w -> w < 2 ^ 64 -> combine64ms1b w = N.ones (N.log2 w + 1).
Proof.
  intros w H0 H. apply N.bits_inj. intros n. assert (HL : N.log2 w < 64) by (apply N.log2_lt_pow2; assumption).
  destruct (N.lt_ge_cases n (N.log2 w + 1)) as [L|L].
  - rewrite N.ones_spec_low by exact L. apply combine_bits. exists (N.log2 w - n). split; [lia|]. replace (n + (N.log2 w - n)) with (N.log2 w) by lia. apply N.bit_log2. lia.
  - rewrite N.ones_spec_high by exact L. destruct (N.testbit (combine64ms1b w) n) eqn:E; [|reflexivity]. apply combine_bits in E as (i & _ & T). rewrite N.bits_above_log2 in T by lia. discriminate T.
Qed.
Lemma align_pow2 : forall v, 0 < v -> v <= 2 ^ 63 -> exists k, rte_align64pow2 v = 2 ^ k /\ v <= 2 ^ k /\ k <= 63 /\ forall j, v <= 2 ^ j -> k <= j.
Proof.
  intros v H0 H. unfold rte_align64pow2. rewrite sub64_small by lia. destruct (N.eq_dec v 1) as [->|H1].
  - exists 0. split; [reflexivity|]. split; [cbn; lia|]. split; [lia|]. intros; lia.
  - rewrite combine_ones by lia. assert (HL : N.log2 (v - 1) < 63) by (apply N.log2_lt_pow2; lia). exists (N.log2 (v - 1) + 1).
    destruct (N.log2_spec (v - 1) ltac:(lia)) as [S1 S2]. rewrite <- N.add_1_r in S2. rewrite N.ones_equiv, N.add_1_r, N.succ_pred_pos by (apply N.neq_0_lt_0, N.pow_nonzero; lia).
    split; [|split; [lia|split; [lia|]]].
    + apply w64_small. apply N.pow_lt_mono_r; lia.
    + intros j Hj. destruct (N.lt_ge_cases (N.log2 (v - 1)) j) as [L|L]; [lia|]. exfalso. assert (2 ^ j <= 2 ^ N.log2 (v - 1)) by (apply N.pow_le_mono_r; lia). lia.
Qed.
Lemma pow2_divide : forall j k, j <= k -> forall r, r mod 2 ^ k = 0 -> r mod 2 ^ j = 0.
Proof.
  intros j k H r E. apply N.mod_divide in E; [|apply N.pow_nonzero; lia]. apply N.mod_divide; [apply N.pow_nonzero; lia|].
  apply N.divide_trans with (2 ^ k); [|exact E]. exists (2 ^ (k - j)). rewrite <- N.pow_add_r. f_equal. lia.
Qed.
(** DPDK's allocations have the contract's alignment if it is a power of two and the object
    fills more than half of it. *)
Lemma dpdk_alloc_ok : forall calloc count size, calloc_ok calloc -> 0 < count -> 0 < size -> count * size <= 2 ^ 63 -> size mod 64 <> 0 ->
  (exists k, size + 64 - size mod 64 = 2 ^ k) -> dpdk_alloc calloc count size <> 0 ->
  alloc_ensures (dpdk_alloc calloc count size) size.
Proof.
  intros calloc count size CO Hc Hz Hs Hm (k & Ek) H0. split; [exact H0|]. unfold dpdk_alloc, dpdk_request in *. rewrite (w64_small (count * size)) in * by lia.
  destruct (align_pow2 (count * size) ltac:(nia) Hs) as (j & Ea & Hj & Hj63 & Hmin). rewrite Ea in *. rewrite Ek.
  pose proof (N.mod_lt size 64 ltac:(lia)) as ML. pose proof (N.mod_le size 64 ltac:(lia)) as MLE.
  destruct (N.ltb_spec (2 ^ j) 64) as [L|L].
  - destruct (CO count size 64) as [Z|Z]; [contradiction|]. change 64 with (2 ^ 6) in Z. apply (pow2_divide k 6); [|exact Z].
    assert (size < 64) by nia. rewrite N.mod_small in Ek by assumption. replace (size + 64 - size) with (2 ^ 6) in Ek by (change (2 ^ 6) with 64; lia). apply N.pow_inj_r in Ek; lia.
  - destruct (CO count size (2 ^ j)) as [Z|Z]; [contradiction|]. apply (pow2_divide k j); [|exact Z].
    destruct (N.le_gt_cases k j) as [|G]; [assumption|]. exfalso.
    assert (P1 : 2 ^ (j + 1) <= 2 ^ k) by (apply N.pow_le_mono_r; lia). rewrite N.pow_add_r, N.pow_1_r in P1.
    assert (size <= count * size) by nia. remember (size mod 64) as r eqn:Er. rewrite <- Ek in P1. clear Er Hmin. set (p := 2 ^ j) in *.
    lia.
Qed.

(** ** Enumeration *)
Definition below (base total : N) (st : astate) : Prop :=
  aused st <= total /\ forall b, In b (ablocks st) -> base <= baddr b /\ baddr b + blen b <= base + aused st.
Lemma below_step : forall base total st o st', 0 < base -> base + total <= SIZE_MAX -> below base total st -> astep base total st o = Some st' -> below base total st'.
Proof.
  intros base total st o st' Hb Ht [H1 H2] E. destruct o as [c s|a v]; cbn [astep] in E.
  - destruct (N.ltb_spec SIZE_MAX (c * s)) as [|Hf]; [discriminate|]. pose proof (os_memory_alloc_spec base total (aused st) c s Hb Ht H1 Hf) as S.
    destruct (os_memory_alloc _ _ _ _ _) as [[a u]|]; [|discriminate E]. injection E as <-. destruct S as (S1 & S2 & S3 & S4). split; [exact S3|]. cbn [ablocks aused].
    intros b [<-|Hin]; cbn [baddr blen]; [lia|]. specialize (H2 b Hin). lia.
  - destruct (existsb _ _); [|discriminate E]. injection E as <-. split; assumption.
Qed.
Lemma below_run : forall base total ops st st', 0 < base -> base + total <= SIZE_MAX -> below base total st -> arun base total st ops = Some st' -> below base total st'.
Proof.
  induction ops as [|o ops IH]; intros st st' Hb Ht I R; cbn [arun] in R; [congruence|]. destruct (astep base total st o) as [st1|] eqn:E; [|discriminate R].
  exact (IH st1 st' Hb Ht (below_step _ _ _ _ _ Hb Ht I E) R).
Qed.
Lemma contents_ext : forall n m m' a a', (forall i, i < N.of_nat n -> m (a + i) = m' (a' + i)) -> contents m a n = contents m' a' n.
Proof.
  induction n as [|n IH]; intros m m' a a' H; cbn [contents]; [reflexivity|]. f_equal; [generalize (H 0 ltac:(lia)); rewrite !N.add_0_r; auto|].
  apply IH. intros i Hi. rewrite <- !N.add_assoc. apply H. lia.
Qed.
Lemma enumerate_ok : forall base total st table count p c st', 0 < base -> base + total <= SIZE_MAX -> below base total st ->
  table + 8 * N.of_nat count <= base \/ base + total <= table -> table + 8 * N.of_nat count <= 2 ^ 64 ->
  pci_enumerate base total st table count = Some (p, c, st') ->
  c = count /\ contents (amem st') p (8 * count) = contents (amem st) table (8 * count) /\
  (exists b, ablocks st' = b :: ablocks st /\ baddr b = p /\ blen b = 8 * N.of_nat count) /\ below base total st' /\
  forall x, (forall i, i < 8 * N.of_nat count -> x <> p + i) -> amem st' x = amem st x.
Proof.
  intros base total st table count p c st' Hb Ht I D Hw E. unfold pci_enumerate in E. destruct (astep base total st _) as [st1|] eqn:S; [|discriminate E].
  pose proof (below_step _ _ _ _ _ Hb Ht I S) as I1. cbn [astep] in S. destruct (N.ltb_spec SIZE_MAX (N.of_nat count * 8)) as [|Hf]; [discriminate S|].
  pose proof (os_memory_alloc_spec base total (aused st) (N.of_nat count) 8 Hb Ht (proj1 I) Hf) as SP. destruct (os_memory_alloc _ _ _ _ _) as [[a u]|]; [|discriminate S]. injection S as <-.
  cbn [ablocks amem aused baddr] in E. destruct SP as (S1 & S2 & S3 & S4).
  assert (HS : SIZE_MAX < 2 ^ 64) by (vm_compute; reflexivity).
  pose proof (copy_spec (count * 8) (amem st) table a 0 ltac:(lia) ltac:(lia)) as C. fold (os_memory_copy (amem st) table a (count * 8)) in C.
  destruct (os_memory_copy (amem st) table a (count * 8)) as [[m' rs] ws]. destruct C as (C & _ & _); [destruct D; [left|right; left]; lia|].
  cbn [fst] in E. injection E as <- <- <-. cbn [amem ablocks aused] in *. split; [reflexivity|]. split; [|split; [|split]].
  - apply contents_ext. intros i Hi. rewrite C. destruct (N.leb_spec (a + 0) (a + i)); [|lia]. destruct (N.ltb_spec (a + i) (a + 0 + N.of_nat (count * 8))); [|lia]. cbn [andb]. f_equal. lia.
  - eexists. split; [reflexivity|]. cbn [baddr blen]. split; [reflexivity|lia].
  - exact I1.
  - intros x Hx. rewrite C. destruct (N.leb_spec (a + 0) x); [|reflexivity]. destruct (N.ltb_spec x (a + 0 + N.of_nat (count * 8))); [|reflexivity]. exfalso. apply (Hx (x - a)); lia.
Qed.
