(** * Property theorems: the systems' memory functions (C133-C136) *)

From Coq Require Import NArith ZArith List Bool Lia Arith.
From Verif Require Import HashMap MemAlloc OsMem.
Import ListNotations.
Open Scope N_scope.

(** ** C133: comparing, hashing and copying do what their contracts say *)

(** The hash ends, reads the object's bytes and no others, has 32 bits, and is the same for every
    object with the same bytes, wherever it is. *)
Theorem C133_hash : forall m obj size, obj + size < 2 ^ 64 ->
  exists h, os_memory_hash m obj size = Some (h, addresses obj (N.to_nat size)) /\ h < 2 ^ 32 /\
  forall m' obj', obj' + size < 2 ^ 64 -> contents m' obj' (N.to_nat size) = contents m obj (N.to_nat size) ->
    os_memory_hash m' obj' size = Some (h, addresses obj' (N.to_nat size)).
Proof.
  intros m obj size H. exists (hash_fp 0 (contents m obj (N.to_nat size))). split; [apply hash_spec; exact H|].
  split; [apply hash_fp_lt; lia|]. intros m' obj' H' E. rewrite hash_spec, E by exact H'. reflexivity.
Qed.
Print Assumptions C133_hash.

(** What it computes: words of four bytes, then one of two, then one of one. *)
Theorem C133_hash_value : forall m obj size, obj + size < 2 ^ 64 ->
  exists l, os_memory_hash m obj size = Some (hash_fp 0 (contents m obj (N.to_nat size)), l).
Proof. intros. eexists. apply hash_spec. assumption. Qed.
Print Assumptions C133_hash_value.

(** Keys of four bytes, as the policer's addresses: different keys have different hashes. *)
Theorem C133_hash_of_words : forall m m' a b h l l', a + 4 < 2 ^ 64 -> b + 4 < 2 ^ 64 ->
  (forall x, m x < 256) -> (forall x, m' x < 256) ->
  os_memory_hash m a 4 = Some (h, l) -> os_memory_hash m' b 4 = Some (h, l') -> contents m a 4 = contents m' b 4.
Proof.
  intros m m' a b h l l' Ha Hb Hm Hm' E1 E2. rewrite hash_spec in E1, E2 by assumption. change (N.to_nat 4) with 4%nat in *. cbn [contents] in *.
  apply (f_equal (option_map fst)) in E1, E2. cbn [option_map fst] in E1, E2. assert (G1 : forall x y : N, Some x = Some y -> x = y) by congruence. apply G1 in E1, E2. clear G1. rewrite hash_four in E1, E2 by auto. subst h.
  pose proof (Hm a). pose proof (Hm (a + 1)). pose proof (Hm (a + 1 + 1)). pose proof (Hm (a + 1 + 1 + 1)).
  pose proof (Hm' b). pose proof (Hm' (b + 1)). pose proof (Hm' (b + 1 + 1)). pose proof (Hm' (b + 1 + 1 + 1)).
  f_equal; [lia|f_equal; [lia|f_equal; [lia|f_equal; lia]]].
Qed.
Print Assumptions C133_hash_of_words.

Theorem C133_eq : forall m a b n, a + N.of_nat n <= 2 ^ 64 -> b + N.of_nat n <= 2 ^ 64 ->
  (fst (os_memory_eq_at m a b n) = true <-> contents m a n = contents m b n) /\
  forall x, In x (snd (os_memory_eq_at m a b n)) -> In x (addresses a n) \/ In x (addresses b n).
Proof.
  intros m a b n Ha Hb. unfold os_memory_eq_at. destruct (mem_eq_list n m a b 0) as [E I]; try lia. rewrite !N.add_0_r in *.
  split; [|exact I]. rewrite E. rewrite <- (contents_length n m b) at 3. apply os_memory_eq_spec. rewrite !contents_length. reflexivity.
Qed.
Print Assumptions C133_eq.

(** The ranges do not overlap: the parameters are restrict. *)
Theorem C133_copy : forall m src dst n, src + N.of_nat n <= 2 ^ 64 -> dst + N.of_nat n <= 2 ^ 64 ->
  src + N.of_nat n <= dst \/ dst + N.of_nat n <= src ->
  let '(m', rs, ws) := os_memory_copy m src dst n in
  contents m' dst n = contents m src n /\ (forall x, ~ In x (addresses dst n) -> m' x = m x) /\
  rs = addresses src n /\ ws = addresses dst n.
Proof.
  intros m src dst n Hs Hd D. pose proof (copy_spec n m src dst 0 ltac:(lia) ltac:(lia)) as C. unfold os_memory_copy. destruct (copy_loop m src dst 0 n) as [[m' rs] ws].
  destruct C as (C & R & W); [destruct D; [left|right; left]; lia|]. rewrite !N.add_0_r in *. split; [|split; [|split; assumption]].
  - apply contents_ext. intros i Hi. rewrite C. destruct (N.leb_spec dst (dst + i)); [|lia]. destruct (N.ltb_spec (dst + i) (dst + N.of_nat n)); [|lia]. cbn [andb]. f_equal. lia.
  - intros x Hx. rewrite C. rewrite in_addresses in Hx. destruct (N.leb_spec dst x); [|reflexivity]. destruct (N.ltb_spec x (dst + N.of_nat n)); [|reflexivity]. exfalso. apply Hx. lia.
Qed.
Print Assumptions C133_copy.

(** A flow of the firewall (13 bytes: three words and a byte) at two places. *)
Definition ex_mem : memory := fun a => (a mod 1000) mod 256.
Example C133_ex_hash : os_memory_hash ex_mem 3000 13 = os_memory_hash ex_mem 3000 13 /\
  option_map fst (os_memory_hash ex_mem 3000 13) = option_map fst (os_memory_hash ex_mem 5000 13) /\
  option_map fst (os_memory_hash ex_mem 3000 13) <> option_map fst (os_memory_hash ex_mem 3001 13) /\
  option_map snd (os_memory_hash ex_mem 3000 13) = Some [3000; 3001; 3002; 3003; 3004; 3005; 3006; 3007; 3008; 3009; 3010; 3011; 3012].
Proof. vm_compute. repeat split; try reflexivity; discriminate. Qed.
Example C133_ex_eq : fst (os_memory_eq_at ex_mem 3000 5000 13) = true /\ fst (os_memory_eq_at ex_mem 3000 5001 13) = false.
Proof. vm_compute. split; reflexivity. Qed.

(** ** C134: physical addresses on Linux *)

(** No address is given for a page that is not there, and the address given is in the page's frame. *)
Theorem C134_only_present_pages : forall sysconf opened pagemap addr p, virt_to_phys sysconf opened pagemap addr = Some p ->
  exists P md, Z.of_N P = sysconf /\ 0 < P /\ pagemap (w64 (addr / P * 8)) = Some md /\ N.testbit md 63 = true /\ md mod 2 ^ 55 <> 0 /\
  (md mod 2 ^ 55 * P + addr mod P < 2 ^ 64 -> p = md mod 2 ^ 55 * P + addr mod P).
Proof.
  intros sysconf opened pagemap addr p E. unfold virt_to_phys, os_memory_pagesize in E.
  destruct (Z.ltb_spec sysconf 0); [discriminate|]. destruct (Z.eqb_spec sysconf 0); [discriminate|].
  destruct (negb opened); [discriminate|]. destruct (pagemap _) as [md|] eqn:M; [|discriminate]. rewrite land_present in E.
  destruct (N.testbit md 63) eqn:T; [|discriminate]. cbn [negb] in E. rewrite land_pfn in E. destruct (N.eqb_spec (md mod 2 ^ 55) 0) as [|F]; [discriminate|]. apply (f_equal (fun o => match o with Some x => x | None => 0 end)) in E. cbv beta iota in E. rewrite <- E. clear E.
  exists (Z.to_N sysconf), md. split; [lia|]. split; [lia|]. split; [exact M|]. split; [exact T|]. split; [exact F|].
  intros L. generalize dependent (md mod 2 ^ 55 * Z.to_N sysconf). generalize (addr mod Z.to_N sysconf). intros r q L. rewrite (w64_small q) by lia. apply w64_small. exact L.
Qed.
Print Assumptions C134_only_present_pages.

(** memory.h 19. *)
Definition OS_MEMORY_SIZE : N := 2 ^ 28.

(** Every block the allocator gives is contiguous in physical memory, and blocks that are
    different share no physical byte. *)
Theorem C134_blocks : forall P base pfn0 pagemap ops st, 0 < base -> base + OS_MEMORY_SIZE <= SIZE_MAX ->
  arena_mapped P base pfn0 pagemap -> arun base OS_MEMORY_SIZE ainit ops = Some st ->
  let phys := virt_to_phys (Z.of_N P) true pagemap in
  (forall b, In b (ablocks st) -> exists p, forall i, i < blen b -> phys (baddr b + i) = Some (p + i)) /\
  ForallOrdPairs (fun b c => forall i j p, i < blen b -> j < blen c -> phys (baddr b + i) = Some p -> phys (baddr c + j) <> Some p) (ablocks st).
Proof.
  intros P base pfn0 pagemap ops st Hb Ht A R phys. destruct (alloc_history base OS_MEMORY_SIZE ops st Hb Ht R) as (OK & DJ & _).
  assert (I : below base OS_MEMORY_SIZE st). { apply (below_run base OS_MEMORY_SIZE ops ainit st Hb Ht); [|exact R]. split; [cbn; lia|intros b []]. }
  destruct I as [U B]. unfold OS_MEMORY_SIZE in U.
  assert (V : forall b i, In b (ablocks st) -> i < blen b -> phys (baddr b + i) = Some (pfn0 * P + (baddr b - base) + i)).
  { intros b i Hin Hi. destruct (B b Hin) as [B1 B2]. unfold phys. replace (baddr b + i) with (base + (baddr b - base + i)) by lia. rewrite (virt_to_phys_arena P base pfn0 pagemap) by (try exact A; lia). f_equal. lia. }
  split.
  - intros b Hin. exists (pfn0 * P + (baddr b - base)). intros i Hi. apply V; assumption.
  - clear R OK U. induction DJ as [|b l F DJ IH]; [constructor|]. constructor.
    + apply Forall_forall. intros c Hc i j p Hi Hj E1 E2. rewrite Forall_forall in F. specialize (F c Hc). unfold disjoint in F.
      rewrite V in E1 by (cbn; auto). rewrite V in E2 by (cbn; auto). injection E1 as <-. injection E2 as E2.
      destruct (B b (or_introl eq_refl)) as [B1 _]. destruct (B c (or_intror Hc)) as [B2 _]. lia.
    + apply IH; intros c Hc; [apply B; right; exact Hc|]. intros i Hc'. apply V. right; exact i. exact Hc'.
Qed.
Print Assumptions C134_blocks.

(** One gigabyte at 2^40, with frames from 2^20 on. *)
Example C134_ex : let pagemap := fun o => Some (2 ^ 63 + (o / 8 - 2 ^ 28 + 2 ^ 20)) in
  arena_mapped 4096 (2 ^ 40) (2 ^ 20) pagemap /\ virt_to_phys 4096 true pagemap (2 ^ 40 + 5000) = Some (2 ^ 32 + 5000).
Proof.
  intros pagemap. split; [|vm_compute; reflexivity]. apply mkArena; [lia|reflexivity|lia|lia|lia|lia|].
  intros i Hi. change (2 ^ 40 / 4096) with (2 ^ 28). exists (2 ^ 63 + (i + 2 ^ 20)).
  assert (L : i < 2 ^ 18) by (change (2 ^ 30) with (2 ^ 18 * 4096) in Hi; lia). split; [|split].
  - unfold pagemap. rewrite N.div_mul by lia. do 2 f_equal. lia.
  - apply N.testbit_true. replace ((2 ^ 63 + (i + 2 ^ 20)) / 2 ^ 63) with 1; [reflexivity|].
    apply (N.div_unique _ _ _ (i + 2 ^ 20)); lia.
  - symmetry. apply (N.mod_unique _ _ 256); change (2 ^ 63) with (256 * 2 ^ 55); lia.
Qed.
Example C134_ex_absent : virt_to_phys 4096 true (fun _ => Some (2 ^ 62 + 5)) 5000 = None /\ virt_to_phys 4096 true (fun _ => Some (2 ^ 63)) 5000 = None.
Proof. split; vm_compute; reflexivity. Qed.

(** ** C135: the allocator over DPDK *)

(** The result has the alignment the contract promises if there is memory left and that alignment
    is a power of two larger than the object. *)
Theorem C135_dpdk_alignment_partial : forall calloc count size, calloc_ok calloc -> 0 < count -> 0 < size -> count * size <= 2 ^ 63 ->
  size mod 64 <> 0 -> (exists k, size + 64 - size mod 64 = 2 ^ k) -> dpdk_alloc calloc count size <> 0 ->
  alloc_ensures (dpdk_alloc calloc count size) size.
Proof. exact dpdk_alloc_ok. Qed.
Print Assumptions C135_dpdk_alignment_partial.

(** The alignment that is asked for is one that DPDK accepts, and covers the block. *)
Theorem C135_dpdk_request : forall count size, 0 < count * size -> count * size <= 2 ^ 63 ->
  let '(c, s, a) := dpdk_request count size in
  c = count /\ s = size /\ 64 <= a /\ count * size <= a /\ exists k, a = 2 ^ k.
Proof.
  intros count size H0 H. unfold dpdk_request. rewrite w64_small by lia. destruct (align_pow2 (count * size) H0 H) as (k & -> & L & _).
  split; [reflexivity|]. split; [reflexivity|]. destruct (N.ltb_spec (2 ^ k) 64) as [G|G]; (split; [lia|]; split; [lia|]); [exists 6; reflexivity|exists k; reflexivity].
Qed.
Print Assumptions C135_dpdk_request.

(** With no memory left, the program goes on with NULL. *)
Theorem C135_dpdk_no_memory_refuted : exists calloc, calloc_ok calloc /\ forall count size, ~ alloc_ensures (dpdk_alloc calloc count size) size.
Proof. exists (fun _ => 0). split; [intros c s a; left; reflexivity|]. intros count size [H _]. apply H. reflexivity. Qed.
Print Assumptions C135_dpdk_no_memory_refuted.

(** Objects of 64 or of 128 bytes, as those of a cache line: the alignment may be less than promised. *)
Theorem C135_dpdk_alignment_refuted : exists calloc, calloc_ok calloc /\ (forall c s a, 0 < a -> calloc (c, s, a) <> 0) /\
  ~ alloc_ensures (dpdk_alloc calloc 1 64) 64 /\ ~ alloc_ensures (dpdk_alloc calloc 4 128) 128.
Proof.
  exists (fun '(_, _, a) => a). split; [|split; [|split]].
  - intros c s a. destruct (N.eq_dec a 0) as [->|]; [left; reflexivity|]. right. apply N.mod_same. assumption.
  - intros c s a H. lia.
  - intros [_ H]. vm_compute in H. discriminate H.
  - intros [_ H]. vm_compute in H. discriminate H.
Qed.
Print Assumptions C135_dpdk_alignment_refuted.

Example C135_ex : let calloc := fun '(_, _, a) => a in
  dpdk_request 1000 13 = (1000, 13, 16384) /\ alloc_ensures (dpdk_alloc calloc 1000 13) 13 /\ exists k, 13 + 64 - 13 mod 64 = 2 ^ k.
Proof. split; [vm_compute; reflexivity|]. split; [split; vm_compute; [discriminate|reflexivity]|]. exists 6. reflexivity. Qed.

(** ** C136: the devices given to the program are the configured ones *)

(** After any history of allocations and writes: as many addresses as configured, with the
    configured bytes, in a block of their own; no other byte of memory changes. *)
Theorem C136_enumerate : forall base total m0 ops st table count p c st', 0 < base -> base + total <= SIZE_MAX ->
  table + 8 * N.of_nat count <= base \/ base + total <= table -> table + 8 * N.of_nat count <= 2 ^ 64 ->
  arun base total (mkA m0 0 []) ops = Some st -> pci_enumerate base total st table count = Some (p, c, st') ->
  c = count /\ contents (amem st') p (8 * count) = contents m0 table (8 * count) /\
  (forall b, In b (ablocks st) -> baddr b + blen b <= p) /\ p + 8 * N.of_nat count <= base + total /\
  forall x, ~ In x (addresses p (8 * count)) -> amem st' x = amem st x.
Proof.
  intros base total m0 ops st table count p c st' Hb Ht D Hw R E.
  assert (I0 : below base total (mkA m0 0 [])) by (split; [cbn; lia|intros b []]).
  pose proof (below_run base total ops _ st Hb Ht I0 R) as I.
  assert (Out : forall x, x < base \/ base + total <= x -> amem st x = m0 x).
  { clear E I Hw D. assert (G : forall ops st0, below base total st0 -> (forall x, x < base \/ base + total <= x -> amem st0 x = m0 x) -> arun base total st0 ops = Some st -> forall x, x < base \/ base + total <= x -> amem st x = m0 x).
    { induction ops0 as [|o ops0 IH]; intros st0 B0 M0 R0; cbn [arun] in R0; [injection R0 as <-; exact M0|]. destruct (astep base total st0 o) as [st1|] eqn:S; [|discriminate].
      apply (IH st1 (below_step _ _ _ _ _ Hb Ht B0 S)); [|exact R0]. destruct o as [k s|a v]; cbn [astep] in S.
      - destruct (SIZE_MAX <? k * s); [discriminate|]. destruct (os_memory_alloc _ _ _ _ _) as [[? ?]|]; [|discriminate]. injection S as <-. exact M0.
      - destruct (existsb _ _) eqn:X; [|discriminate]. injection S as <-. cbn [amem]. apply existsb_exists in X as (b & Hin & Hb').
        unfold in_block in Hb'. apply andb_true_iff in Hb' as [L1 L2]. apply N.leb_le in L1. apply N.ltb_lt in L2. destruct B0 as [U0 B0]. destruct (B0 b Hin).
        intros x Hx. destruct (N.eqb_spec x a); [lia|]. apply M0. exact Hx. }
    apply (G ops (mkA m0 0 [])); auto. }
  destruct (enumerate_ok base total st table count p c st' Hb Ht I D Hw E) as (-> & C & (b & EB & Ep & El) & I' & M). split; [reflexivity|]. split; [|split; [|split]].
  - rewrite C. apply contents_ext. intros i Hi. apply Out. destruct D; [left|right]; lia.
  - intros b' Hin. destruct I as [_ I]. specialize (I b' Hin).
    unfold pci_enumerate in E. destruct (astep base total st _) as [st1|] eqn:S; [|discriminate]. cbn [astep] in S. destruct (N.ltb_spec SIZE_MAX (N.of_nat count * 8)) as [|Hf]; [discriminate|].
    pose proof (os_memory_alloc_spec base total (aused st) (N.of_nat count) 8 Hb Ht ltac:(pose proof (below_run base total ops _ st Hb Ht I0 R) as [Q _]; exact Q) Hf) as SP.
    destruct (os_memory_alloc _ _ _ _ _) as [[a u]|]; [|discriminate]. injection S as <-. cbn [ablocks baddr] in E. injection E as E _. subst. lia.
  - destruct I' as [U I']. specialize (I' b). rewrite EB in I'. specialize (I' (or_introl eq_refl)). lia.
  - intros x Hx. apply M. intros i Hi ->. apply Hx. apply in_addresses. lia.
Qed.
Print Assumptions C136_enumerate.

(** Two addresses, after an allocation of 100 bytes. *)
Example C136_ex : let m0 := fun a => if a =? 40 then 6 else if a =? 48 then 130 else 0 in
  exists st p st', arun 1000 4096 (mkA m0 0 []) [AAlloc 1 100; AWrite 1060 7] = Some st /\ pci_enumerate 1000 4096 st 40 2 = Some (p, 2%nat, st') /\
  contents (amem st') p 16 = [6; 0; 0; 0; 0; 0; 0; 0; 130; 0; 0; 0; 0; 0; 0; 0].
Proof. intros m0. eexists _, _, _. split; [vm_compute; reflexivity|]. split; vm_compute; reflexivity. Qed.
