(** * The memory allocator (env/src/os/memory_alloc.c 37-93)

    [base] is the address of the arena, [total] is OS_MEMORY_SIZE. size_t is 64 bits
    wide; every sum and product of the code is taken modulo 2^64. *)

From Coq Require Import NArith List Bool Lia Arith.
Import ListNotations.
Open Scope N_scope.

Definition SIZE_MAX : N := 2 ^ 64 - 1.
Definition CACHE_LINE_SIZE : N := 64.
Definition w64 (n : N) : N := n mod 2 ^ 64.
(** Unsigned 64-bit subtraction. *)
Definition sub64 (a b : N) : N := w64 (a + (2 ^ 64 - w64 b)).

(** The alignment of the contract, memory.h 31. *)
Definition align_div (size : N) : N := sub64 (w64 (size + CACHE_LINE_SIZE)) (size mod CACHE_LINE_SIZE).

(** memory_alloc.c 37-93: [None] is halt(), [Some (address, new memory_used_len)]. *)
Definition os_memory_alloc (base total used count size : N) : option (N * N) :=
  let full_size := w64 (size * count) in
  let target_addr := w64 (base + used) in
  if sub64 SIZE_MAX CACHE_LINE_SIZE <? size then None
  else
    let ad := align_div size in
    let align_diff := target_addr mod ad in
    let align_padding := if align_diff =? 0 then 0 else sub64 ad align_diff in
    if sub64 total used <? align_padding then None
    else
      let aligned_addr := w64 (target_addr + align_padding) in
      let used' := w64 (used + align_padding) in
      if sub64 total used' <? full_size then None
      else Some (aligned_addr, w64 (used' + full_size)).

(** ** Programs: allocations, and byte writes inside blocks obtained earlier *)
Inductive aop := AAlloc (count size : N) | AWrite (addr byte : N).
Record block := mkBlock { baddr : N; blen : N; bcount : N; bsize : N }.
(** Arena contents, used length, blocks handed out (newest first). *)
Record astate := mkA { amem : N -> N; aused : N; ablocks : list block }.

Definition in_block (b : block) (a : N) : bool := (baddr b <=? a) && (a <? baddr b + blen b).

(** [None]: halted, or the caller broke a requires clause (overflowing request) or
    wrote outside its blocks. *)
Definition astep (base total : N) (st : astate) (o : aop) : option astate :=
  match o with
  | AAlloc count size =>
      if SIZE_MAX <? count * size then None
      else match os_memory_alloc base total (aused st) count size with
           | None => None
           | Some (a, u) => Some (mkA (amem st) u (mkBlock a (count * size) count size :: ablocks st))
           end
  | AWrite a v =>
      if existsb (fun b => in_block b a) (ablocks st)
      then Some (mkA (fun x => if x =? a then v else amem st x) (aused st) (ablocks st))
      else None
  end.
Fixpoint arun (base total : N) (st : astate) (ops : list aop) : option astate :=
  match ops with
  | [] => Some st
  | o :: ops' => match astep base total st o with Some st' => arun base total st' ops' | None => None end
  end.
(** The arena is zeroed at boot (produce_memory_assumptions). *)
Definition ainit : astate := mkA (fun _ => 0) 0 [].

(** * Specification of blocks *)
Definition disjoint (b1 b2 : block) : Prop :=
  baddr b1 + blen b1 <= baddr b2 \/ baddr b2 + blen b2 <= baddr b1.
Definition block_ok (base total : N) (b : block) : Prop :=
  baddr b <> 0 /\ base <= baddr b /\ baddr b + blen b <= base + total /\
  blen b = bcount b * bsize b /\
  baddr b mod (bsize b + 64 - bsize b mod 64) = 0.
Definition zeroed (st : astate) (b : block) : Prop := forall a, in_block b a = true -> amem st a = 0.

(** * Proofs *)

Lemma w64_small : forall n, n < 2 ^ 64 -> w64 n = n.
Proof. intros. apply N.mod_small. auto. Qed.
Lemma sub64_small : forall a b, b <= a -> a < 2 ^ 64 -> sub64 a b = a - b.
Proof.
  intros. unfold sub64. rewrite (w64_small b) by lia. unfold w64.
  replace (a + (2 ^ 64 - b)) with (a - b + 1 * 2 ^ 64) by lia.
  rewrite N.mod_add by (vm_compute; discriminate). apply N.mod_small. lia.
Qed.
Lemma pow64 : 2 ^ 64 = 18446744073709551616. Proof. reflexivity. Qed.

Lemma align_div_small : forall size, size <= SIZE_MAX - 64 -> align_div size = size + 64 - size mod 64 /\
  0 < align_div size /\ align_div size < 2 ^ 64.
Proof.
  intros size H. unfold align_div, CACHE_LINE_SIZE, SIZE_MAX in *. rewrite pow64 in *.
  assert (size mod 64 < 64) by (apply N.mod_lt; lia).
  rewrite w64_small by (rewrite pow64; lia).
  assert (size mod 64 <= size) by (apply N.mod_le; lia).
  rewrite sub64_small by (rewrite ?pow64; lia).
  rewrite ?pow64. generalize dependent (size mod 64). intros m H0 H1. lia.
Qed.

Lemma os_memory_alloc_spec : forall base total used count size,
  0 < base -> base + total <= SIZE_MAX -> used <= total -> count * size <= SIZE_MAX ->
  match os_memory_alloc base total used count size with
  | Some (a, u) =>
      base + used <= a /\ a + count * size = base + u /\ u <= total /\
      a mod (size + 64 - size mod 64) = 0
  | None =>
      SIZE_MAX - 64 < size \/
      forall a, base + used <= a -> a mod (size + 64 - size mod 64) = 0 -> base + total < a + count * size
  end.
Proof.
  intros base total used count size Hb Ht Hu Hf. unfold os_memory_alloc.
  assert (HS : SIZE_MAX < 2 ^ 64) by (vm_compute; reflexivity).
  rewrite (N.mul_comm size count). rewrite (w64_small (count * size)) by lia.
  rewrite (w64_small (base + used)) by lia.
  rewrite (sub64_small SIZE_MAX) by (unfold CACHE_LINE_SIZE, SIZE_MAX in *; rewrite ?pow64 in *; lia).
  destruct (N.ltb_spec (SIZE_MAX - CACHE_LINE_SIZE) size) as [Hs|Hs].
  { left. exact Hs. }
  unfold CACHE_LINE_SIZE in Hs. destruct (align_div_small size Hs) as [AE [AP AL]].
  rewrite <- AE. set (ad := align_div size) in *.
  set (t := base + used) in *.
  pose proof (N.mod_lt t ad ltac:(lia)) as ML.
  pose proof (N.div_mod t ad ltac:(lia)) as DM.
  rewrite (sub64_small total used) by lia.
  remember (t / ad) as q eqn:Eq. remember (t mod ad) as m eqn:Em. clear Em Eq.
  set (pad := if m =? 0 then 0 else sub64 ad m).
  assert (PAD : pad < ad /\ (t + pad) mod ad = 0 /\ forall a, t <= a -> a mod ad = 0 -> t + pad <= a).
  { unfold pad. destruct (N.eqb_spec m 0) as [E|E].
    - split; [auto|]. split; [|intros; lia].
      rewrite N.add_0_r, DM, E, N.add_0_r, N.mul_comm. apply N.mod_mul. lia.
    - rewrite sub64_small by lia. split; [lia|]. split.
      + replace (t + (ad - m)) with ((q + 1) * ad) by lia. apply N.mod_mul. lia.
      + intros a Ha Ea. pose proof (N.div_mod a ad ltac:(lia)) as DA. rewrite Ea, N.add_0_r in DA.
        remember (a / ad) as qa. clear Heqqa Ea.
        assert (q < qa).
        { destruct (N.lt_ge_cases q qa); [auto|].
          assert (ad * qa <= ad * q) by (apply N.mul_le_mono_l; auto). lia. }
        assert (ad * (q + 1) <= ad * qa) by (apply N.mul_le_mono_l; lia). lia. }
  destruct PAD as [P1 [P2 P3]].
  destruct (N.ltb_spec (total - used) pad).
  { right. intros a Ha Ea. specialize (P3 a Ha Ea). unfold t in *.
    assert (base + total < a) by lia.
    lia. }
  rewrite (w64_small (t + pad)) by (unfold t; lia).
  rewrite (w64_small (used + pad)) by lia.
  rewrite (sub64_small total) by lia.
  destruct (N.ltb_spec (total - (used + pad)) (count * size)).
  { right. intros a Ha Ea. specialize (P3 a Ha Ea). unfold t in *. lia. }
  rewrite w64_small by lia.
  unfold t in *. repeat split; try lia.
Qed.

Record ainv (base total : N) (st : astate) : Prop := {
  ai_used : aused st <= total;
  ai_ok : forall b, In b (ablocks st) -> block_ok base total b;
  ai_below : forall b, In b (ablocks st) -> baddr b + blen b <= base + aused st;
  ai_disj : ForallOrdPairs disjoint (ablocks st);
  ai_zero : forall a, base + aused st <= a -> amem st a = 0 }.

Lemma astep_inv : forall base total st o st', 0 < base -> base + total <= SIZE_MAX ->
  ainv base total st -> astep base total st o = Some st' ->
  ainv base total st' /\
  match o with
  | AAlloc count size => exists b, ablocks st' = b :: ablocks st /\ zeroed st' b /\ bcount b = count /\ bsize b = size
  | AWrite _ _ => ablocks st' = ablocks st
  end.
Proof.
  intros base total st o st' Hb Ht I H. destruct o as [count size|a v]; cbn [astep] in H.
  - destruct (N.ltb_spec SIZE_MAX (count * size)) as [|Hf]; [discriminate|].
    pose proof (os_memory_alloc_spec base total (aused st) count size Hb Ht (ai_used _ _ _ I) Hf) as S.
    destruct (os_memory_alloc base total (aused st) count size) as [[a u]|]; [|discriminate].
    injection H as <-. destruct S as [S1 [S2 [S3 S4]]].
    assert (aused st <= u) by lia.
    split.
    + constructor; cbn [aused ablocks amem].
      * auto.
      * intros b [<-|Hin]; [|apply (ai_ok _ _ _ I); auto].
        unfold block_ok. cbn. repeat split; auto; lia.
      * intros b [<-|Hin]; cbn; [lia|]. pose proof (ai_below _ _ _ I b Hin). lia.
      * constructor; [|apply (ai_disj _ _ _ I)].
        apply Forall_forall. intros b Hin. right. cbn. pose proof (ai_below _ _ _ I b Hin). lia.
      * intros x Hx. apply (ai_zero _ _ _ I). lia.
    + eexists. split; [reflexivity|]. split; [|auto]. intros x Hx. unfold in_block in Hx. cbn in *.
      apply andb_true_iff in Hx as [X1 X2]. apply N.leb_le in X1. apply (ai_zero _ _ _ I). lia.
  - destruct (existsb _ _) eqn:E; [|discriminate]. injection H as <-.
    apply existsb_exists in E as [b [Hin Hbk]]. unfold in_block in Hbk.
    apply andb_true_iff in Hbk as [X1 X2]. apply N.leb_le in X1. apply N.ltb_lt in X2.
    split; [|reflexivity].
    constructor; cbn [aused ablocks amem]; try apply I.
    intros x Hx. destruct (N.eqb_spec x a) as [->|]; [|apply (ai_zero _ _ _ I); auto].
    pose proof (ai_below _ _ _ I b Hin). lia.
Qed.

Lemma ainit_inv : forall base total, ainv base total ainit.
Proof. intros. constructor; cbn; auto; try lia; try (intros ? []). constructor. Qed.

Lemma arun_inv : forall base total ops st st', 0 < base -> base + total <= SIZE_MAX ->
  ainv base total st -> arun base total st ops = Some st' -> ainv base total st'.
Proof.
  induction ops as [|o ops IH]; cbn [arun]; intros st st' Hb Ht I H; [congruence|].
  destruct (astep base total st o) as [st1|] eqn:S; [|discriminate].
  exact (IH st1 st' Hb Ht (proj1 (astep_inv base total st o st1 Hb Ht I S)) H).
Qed.

Lemma alloc_history : forall base total ops st, 0 < base -> base + total <= SIZE_MAX ->
  arun base total ainit ops = Some st ->
  (forall b, In b (ablocks st) -> block_ok base total b) /\
  ForallOrdPairs disjoint (ablocks st) /\
  (forall count size st', astep base total st (AAlloc count size) = Some st' ->
     exists b, ablocks st' = b :: ablocks st /\ zeroed st' b /\ bcount b = count /\ bsize b = size) /\
  (forall count size, count * size <= SIZE_MAX -> size <= SIZE_MAX - 64 ->
     astep base total st (AAlloc count size) = None ->
     forall a, base + aused st <= a -> a mod (size + 64 - size mod 64) = 0 -> base + total < a + count * size).
Proof.
  intros base total ops st Hb Ht H.
  pose proof (arun_inv base total ops ainit st Hb Ht (ainit_inv base total) H) as I.
  repeat split; try (apply (ai_ok _ _ _ I); auto).
  - apply (ai_disj _ _ _ I).
  - intros count size st' S.
    pose proof (astep_inv base total st (AAlloc count size) st' Hb Ht I S) as [_ X]. exact X.
  - intros count size Hf Hs S. cbn [astep] in S.
    destruct (N.ltb_spec SIZE_MAX (count * size)); [lia|].
    pose proof (os_memory_alloc_spec base total (aused st) count size Hb Ht (ai_used _ _ _ I) Hf) as P.
    destruct (os_memory_alloc base total (aused st) count size) as [[a u]|]; [discriminate|].
    destruct P as [P|P]; [lia|exact P].
Qed.
