(** * Contracts of allocation, longest-prefix match and consistent hashing
    (tool/klint/externals/structs, tool/klint/externals/os/memory.py, tool/klint/heap.py 45-51) *)

From Coq Require Import NArith List Bool Lia Arith Znumtheory ZArith.
From Verif Require Import Expr Solver IndexPool Cht MemAlloc.
Import ListNotations.
Open Scope N_scope.

(** ** Allocation preconditions *)

(** map.py 25-27: a Python int is coerced to the width of the other operand. *)
Definition map_alloc_requires (capacity : bv) : bexp := BUle (BvMul capacity (BVV 64 64)) (BVV 64 (2 ^ 64 - 1)).
(** index_pool.py 22-24; [sizes.uint64_t] is 64, the size in bits. *)
Definition pool_alloc_requires (size : bv) : bexp := BUle (BvMul size (BVV 64 64)) (BVV 64 (2 ^ 64 - 1)).
(** os/memory.py 24-26 *)
Definition memory_alloc_requires (count size : bv) : bexp :=
  BOr (BEq count (BVV 64 1)) (BUle (BvMul (BvZext 64 count) (BvZext 64 size)) (BVV 128 (2 ^ 64 - 1))).
(** os/memory.py 30-34 and heap.py 45-51: what is known of the returned address;
    [mult] is a fresh symbol. *)
Definition memory_alloc_adds (addr count size mult : bv) : list bexp :=
  [BNe addr (BVV 64 0);
   BUle addr (BvSub (BvSub (BVV 64 (2 ^ 64 - 1)) (BvMul count size)) (BVV 64 1));
   BEq addr (BvMul mult (BvSub (BvAdd size (BVV 64 64)) (BvUrem size (BVV 64 64))))].

Lemma memory_requires_exact : forall r count size, width count = 64 -> width size = 64 ->
  eb r (memory_alloc_requires count size) = true <-> ev r count = 1 \/ ev r count * ev r size <= 2 ^ 64 - 1.
Proof.
  intros r count size W1 W2. unfold memory_alloc_requires. cbn [evalb evalv width]. rewrite W1.
  rewrite orb_true_iff, N.eqb_eq, N.leb_le. change (wrap 64 1) with 1.
  pose proof (evalv_lt lk0 r count) as L1. pose proof (evalv_lt lk0 r size) as L2. rewrite W1 in L1. rewrite W2 in L2.
  rewrite wrap_small; [reflexivity|]. change (64 + 64) with 128. change (2 ^ 128) with (2 ^ 64 * 2 ^ 64). nia.
Qed.
Lemma map_requires_true : forall r capacity, width capacity = 64 -> eb r (map_alloc_requires capacity) = true.
Proof.
  intros r c W. unfold map_alloc_requires. cbn [evalb]. apply N.leb_le. change (ev r (BVV 64 (2 ^ 64 - 1))) with (2 ^ 64 - 1).
  cbn [evalv]. rewrite W. pose proof (wrap_lt 64 (ev r c * wrap 64 64)). lia.
Qed.

(** The C allocator's blocks satisfy what the contract says of them. *)
Definition describes_block (r : env) (b : block) (addr count size : bv) : Prop :=
  width addr = 64 /\ width count = 64 /\ width size = 64 /\
  ev r addr = baddr b /\ ev r count = bcount b /\ ev r size = bsize b.
Lemma block_admitted : forall base total b r addr count size mult, base + total < SIZE_MAX -> block_ok base total b ->
  bsize b <= SIZE_MAX - 64 -> describes_block r b addr count size -> width mult = 64 ->
  ev r mult = baddr b / (bsize b + 64 - bsize b mod 64) ->
  holds r (memory_alloc_adds addr count size mult).
Proof.
  intros base total b r addr count size mult BT [NZ [LO [HI [LEN AL]]]] SM [W1 [W2 [W3 [A [C S]]]]] WM M.
  assert (P : SIZE_MAX + 1 = 2 ^ 64) by reflexivity.
  assert (MUL : ev r (BvMul count size) = blen b).
  { cbn [evalv]. rewrite W2, C, S, LEN. apply wrap_small. rewrite <- LEN. lia. }
  assert (AD : ev r (BvSub (BvAdd size (BVV 64 64)) (BvUrem size (BVV 64 64))) = bsize b + 64 - bsize b mod 64).
  { cbn [evalv width]. rewrite W3, S. change (wrap 64 64) with 64. change (64 =? 0) with false. cbn iota.
    pose proof (N.mod_lt (bsize b) 64 ltac:(discriminate)) as ML. pose proof (N.mod_le (bsize b) 64 ltac:(discriminate)).
    generalize dependent (bsize b mod 64). intros q _ _ ML ?.
    rewrite (wrap_small 64 (bsize b + 64)) by lia. rewrite (wrap_small 64 q) by lia. rewrite (wrap_small 64 q) by lia.
    replace (bsize b + 64 + (2 ^ 64 - q)) with (bsize b + 64 - q + 1 * 2 ^ 64) by lia. unfold wrap. rewrite N.mod_add by discriminate.
    apply N.mod_small. lia. }
  intros c [<-|[<-|[<-|[]]]].
  - unfold BNe. cbn [evalb]. rewrite A. change (ev r (BVV 64 0)) with 0. destruct (N.eqb_spec (baddr b) 0); [contradiction|auto].
  - cbn [evalb]. rewrite A. apply N.leb_le.
    assert (E : ev r (BvSub (BvSub (BVV 64 (2 ^ 64 - 1)) (BvMul count size)) (BVV 64 1)) = 2 ^ 64 - 1 - blen b - 1).
    { set (bm := BvMul count size) in *. cbn [evalv width]. rewrite MUL. change (wrap 64 (2 ^ 64 - 1)) with (2 ^ 64 - 1). change (wrap 64 (wrap 64 1)) with 1.
      rewrite (wrap_small 64 (blen b)) by lia.
      replace (2 ^ 64 - 1 + (2 ^ 64 - blen b)) with (2 ^ 64 - 1 - blen b + 1 * 2 ^ 64) by lia. unfold wrap at 1 2. rewrite N.mod_add by discriminate.
      rewrite (N.mod_small (2 ^ 64 - 1 - blen b)) by lia.
      replace (2 ^ 64 - 1 - blen b + (2 ^ 64 - 1)) with (2 ^ 64 - 1 - blen b - 1 + 1 * 2 ^ 64) by lia. rewrite N.mod_add by discriminate.
      apply N.mod_small. lia. }
    rewrite E. lia.
  - cbn [evalb]. apply N.eqb_eq. rewrite A. set (d := BvSub (BvAdd size (BVV 64 64)) (BvUrem size (BVV 64 64))) in *.
    cbn [evalv]. rewrite AD, M, WM.
    pose proof (N.div_mod' (baddr b) (bsize b + 64 - bsize b mod 64)) as D. rewrite AL in D.
    replace (baddr b / (bsize b + 64 - bsize b mod 64) * (bsize b + 64 - bsize b mod 64)) with (baddr b) by lia.
    symmetry. apply wrap_small. lia.
Qed.

(** ** Longest-prefix match (lpm.py) *)

(** lpm.py 84-101; keys of [kb] bytes, items are key concatenated with a 64-bit width. *)
Definition item_key (kb : N) (item : bv) : bv := BvExtract (kb * 8 + 64 - 1) 64 item.
Definition item_width (item : bv) : bv := BvExtract 63 0 item.
Definition matches (kb : N) (item key : bv) : bexp :=
  let ks := kb * 8 in
  let ik := if ks <? 64 then BvZext (64 - ks) (item_key kb item) else item_key kb item in
  let zk := if ks <? 64 then BvZext (64 - ks) key else key in
  let iw := if 64 <? ks then BvZext (ks - 64) (item_width item) else item_width item in
  let zs := if 64 <? ks then BvZext (ks - 64) (BVV 64 kb) else BVV 64 kb in
  let shift := BvSub (BvMul zs (BVV (width zs) 8)) iw in
  BEq (BvLshr ik shift) (BvLshr zk shift).

(** The first [w] of [ks] bits agree. *)
Definition same_prefix (ks w a b : N) : Prop := forall i, ks - w <= i -> i < ks -> N.testbit a i = N.testbit b i.

Lemma div_pow_prefix : forall ks s a b, a < 2 ^ ks -> b < 2 ^ ks ->
  a / 2 ^ s = b / 2 ^ s <-> forall i, s <= i -> i < ks -> N.testbit a i = N.testbit b i.
Proof.
  intros ks s a b A B. rewrite <- !N.shiftr_div_pow2. split.
  - intros H i S K. replace i with (i - s + s) by lia. rewrite <- !N.shiftr_spec'. rewrite H. reflexivity.
  - intros H. apply N.bits_inj. intros i. rewrite !N.shiftr_spec'. destruct (N.lt_ge_cases (i + s) ks); [apply H; lia|].
    assert (Z : forall x, x < 2 ^ ks -> N.testbit x (i + s) = false).
    { intros x X. destruct (N.eq_dec x 0) as [->|NZ]; [apply N.bits_0|]. apply N.bits_above_log2. apply N.log2_lt_pow2; [lia|].
      eapply N.lt_le_trans; [exact X|]. apply N.pow_le_mono_r; lia. }
    rewrite !Z; auto.
Qed.
Lemma lshr_div : forall r a s n, ev r s = n -> n <= width a -> ev r (BvLshr a s) = ev r a / 2 ^ n.
Proof.
  intros r a s n E L. cbn [evalv]. rewrite E. destruct (N.leb_spec (width a) n); [|reflexivity].
  symmetry. apply N.div_small. replace n with (width a) by lia. apply evalv_lt.
Qed.
Lemma matches_prefix : forall r kb item key k w, 0 < kb -> kb * 8 < 2 ^ 64 -> width item = kb * 8 + 64 -> width key = kb * 8 ->
  ev r item = k * 2 ^ 64 + w -> w < 2 ^ 64 -> w <= kb * 8 ->
  eb r (matches kb item key) = true <-> same_prefix (kb * 8) w k (ev r key).
Proof.
  intros r kb item key k w KP KB WI WK EI W64 WL.
  assert (KL : k < 2 ^ (kb * 8)).
  { pose proof (evalv_lt lk0 r item) as L. rewrite EI, WI, N.pow_add_r in L. nia. }
  assert (IK : ev r (item_key kb item) = k).
  { unfold item_key. cbn [evalv]. rewrite EI. rewrite N.div_add_l by discriminate. rewrite (N.div_small w) by auto. rewrite N.add_0_r.
    apply wrap_small. replace (kb * 8 + 64 - 1 + 1 - 64) with (kb * 8) by lia. auto. }
  assert (IW : ev r (item_width item) = w).
  { unfold item_width. cbn [evalv]. rewrite EI. rewrite N.pow_0_r, N.div_1_r. unfold wrap. change (63 + 1 - 0) with 64.
    rewrite N.add_comm, N.mod_add by discriminate. apply N.mod_small. auto. }
  unfold matches.
  set (ik := if kb * 8 <? 64 then BvZext (64 - kb * 8) (item_key kb item) else item_key kb item).
  set (zk := if kb * 8 <? 64 then BvZext (64 - kb * 8) key else key).
  set (iw := if 64 <? kb * 8 then BvZext (kb * 8 - 64) (item_width item) else item_width item).
  set (zs := if 64 <? kb * 8 then BvZext (kb * 8 - 64) (BVV 64 kb) else BVV 64 kb).
  set (W := N.max 64 (kb * 8)).
  assert (WIK : width ik = W).
  { unfold ik, W. destruct (N.ltb_spec (kb * 8) 64); cbn [width item_key]; lia. }
  assert (WZK : width zk = W).
  { unfold zk, W. destruct (N.ltb_spec (kb * 8) 64); cbn [width]; rewrite WK; lia. }
  assert (WZS : width zs = W).
  { unfold zs, W. destruct (N.ltb_spec 64 (kb * 8)); cbn [width]; lia. }
  assert (EIK : ev r ik = k) by (unfold ik; destruct (kb * 8 <? 64); cbn [evalv]; exact IK).
  assert (EZK : ev r zk = ev r key) by (unfold zk; destruct (kb * 8 <? 64); reflexivity).
  assert (EIW : ev r iw = w) by (unfold iw; destruct (64 <? kb * 8); cbn [evalv]; exact IW).
  assert (EZS : ev r zs = kb).
  { unfold zs. destruct (64 <? kb * 8); cbn [evalv]; apply wrap_small; nia. }
  assert (PW : 2 ^ 64 <= 2 ^ W) by (apply N.pow_le_mono_r; unfold W; lia).
  assert (SH : ev r (BvSub (BvMul zs (BVV (width zs) 8)) iw) = kb * 8 - w).
  { cbn [evalv width]. rewrite WZS, EZS, EIW. rewrite (wrap_small W 8) by (apply N.lt_le_trans with (2 ^ 64); [reflexivity|auto]).
    rewrite (wrap_small W (kb * 8)) by lia. rewrite (wrap_small W w) by lia.
    replace (kb * 8 + (2 ^ W - w)) with (kb * 8 - w + 1 * 2 ^ W) by lia. unfold wrap. rewrite N.mod_add by (apply N.pow_nonzero; discriminate).
    apply N.mod_small. lia. }
  cbn [evalb]. rewrite N.eqb_eq.
  rewrite (lshr_div r ik _ _ SH) by (rewrite WIK; unfold W; lia). rewrite (lshr_div r zk _ _ SH) by (rewrite WZK; unfold W; lia).
  rewrite EIK, EZK. unfold same_prefix. apply div_pow_prefix; auto. rewrite <- WK. apply evalv_lt.
Qed.

(** A routing table: entries (key, width, value). *)
Definition table := list ((N * N) * N).
Definition table_ok (kb : N) (t : table) : Prop :=
  NoDup (map fst t) /\ forall k w v, In ((k, w), v) t -> k < 2 ^ (kb * 8) /\ w <= kb * 8.
(** What a longest-prefix-match lookup returns (lpm.h 23-26). *)
Definition lpm_result (kb : N) (t : table) (key : N) (out : option N) : Prop :=
  match out with
  | None => forall k w v, In ((k, w), v) t -> ~ same_prefix (kb * 8) w k key
  | Some v => exists k w, In ((k, w), v) t /\ same_prefix (kb * 8) w k key /\
      forall k' w' v', In ((k', w'), v') t -> same_prefix (kb * 8) w' k' key -> w' <= w
  end.

(** Symbols: the key, the item of the predicates, the fresh width, the value. *)
Definition LKEY (kb : N) : bv := BVS (kb * 8) 1.
Definition LITEM (kb : N) : bv := BVS (kb * 8 + 64) 2.
Definition LWIDTH : bv := BVS 64 3.
Definition lenv (key item w : N) : env := mkEnv (fun x => if x =? 1 then key else if x =? 2 then item else w) (fun _ => false).
(** lpm.py 103-116: the not-found branch needs the guard (116), the found branch its
    negation and the constraints of 108-113, for some width. The value is concrete, so
    that [v == value] is a comparison of numbers. *)
Definition lpm_admits (kb : N) (t : table) (key : N) (out : option N) : Prop :=
  let guard := forall k w v, In ((k, w), v) t -> eb (lenv key (k * 2 ^ 64 + w) 0) (BNot (matches kb (LITEM kb) (LKEY kb))) = true in
  match out with
  | None => guard
  | Some v => ~ guard /\ exists width, width < 2 ^ 64 /\ In ((key, width), v) t /\
      eb (lenv key 0 width) (matches kb (BvConcat (LKEY kb) LWIDTH) (LKEY kb)) = true /\
      (forall k w v', In ((k, w), v') t ->
         eb (lenv key (k * 2 ^ 64 + w) width)
            (BOr (BOr (BNot (matches kb (LITEM kb) (LKEY kb))) (BUlt (item_width (LITEM kb)) LWIDTH)) (if v' =? v then BTrue else BFalse)) = true)
  end.

Section Lpm.
Variable kb : N.
Hypothesis KP : 0 < kb.
Hypothesis KB : kb * 8 < 2 ^ 64.
Variable t : table.
Hypothesis TOK : table_ok kb t.
Variable key : N.
Hypothesis KEY : key < 2 ^ (kb * 8).

Lemma item_match : forall k w v x, In ((k, w), v) t ->
  eb (lenv key (k * 2 ^ 64 + w) x) (matches kb (LITEM kb) (LKEY kb)) = true <-> same_prefix (kb * 8) w k key.
Proof.
  intros k w v x I. destruct (proj2 TOK k w v I) as [K W].
  assert (EK : ev (lenv key (k * 2 ^ 64 + w) x) (LKEY kb) = key) by (cbn [evalv LKEY lenv ebv N.eqb Pos.eqb]; apply wrap_small; auto).
  assert (EI : ev (lenv key (k * 2 ^ 64 + w) x) (LITEM kb) = k * 2 ^ 64 + w).
  { cbn [evalv LITEM lenv ebv N.eqb Pos.eqb]. apply wrap_small. rewrite N.pow_add_r. nia. }
  rewrite (matches_prefix _ kb _ _ k w KP KB); [rewrite EK; reflexivity|reflexivity|reflexivity|exact EI|lia|auto].
Qed.
Lemma item_width_eval : forall k w v x, In ((k, w), v) t -> ev (lenv key (k * 2 ^ 64 + w) x) (item_width (LITEM kb)) = w.
Proof.
  intros k w v x I. destruct (proj2 TOK k w v I) as [K W]. unfold item_width. cbn [evalv LITEM lenv ebv N.eqb Pos.eqb].
  rewrite (wrap_small (kb * 8 + 64)) by (rewrite N.pow_add_r; nia). rewrite N.pow_0_r, N.div_1_r. unfold wrap. change (63 + 1 - 0) with 64.
  rewrite N.add_comm, N.mod_add by discriminate. apply N.mod_small. lia.
Qed.
Lemma own_match : forall width, width < 2 ^ 64 -> width <= kb * 8 ->
  eb (lenv key 0 width) (matches kb (BvConcat (LKEY kb) LWIDTH) (LKEY kb)) = true.
Proof.
  intros w W WL. assert (EK : ev (lenv key 0 w) (LKEY kb) = key) by (cbn [evalv LKEY lenv ebv N.eqb Pos.eqb]; apply wrap_small; auto).
  apply (matches_prefix _ kb _ _ key w KP KB); auto.
  - cbn [evalv Expr.width]. change (width LWIDTH) with 64. rewrite EK. f_equal. cbn [evalv LWIDTH lenv ebv N.eqb Pos.eqb]. apply wrap_small. auto.
  - rewrite EK. intros i _ _. reflexivity.
Qed.

(** Not found: exactly the real outcome. *)
Lemma lpm_none : lpm_admits kb t key None <-> lpm_result kb t key None.
Proof.
  cbn [lpm_admits lpm_result]. split; intros H k w v I; specialize (H k w v I).
  - intros S. apply (item_match k w v 0 I) in S. cbn [evalb] in H. rewrite S in H. discriminate.
  - cbn [evalb]. destruct (eb _ (matches _ _ _)) eqn:E; [|auto]. exfalso. apply H. apply (item_match k w v 0 I). exact E.
Qed.
(** A found result the contract admits is the real one. *)
Lemma best_exists : forall l : table, (exists k w v, In ((k, w), v) l /\ same_prefix (kb * 8) w k key) ->
  (forall k w v, In ((k, w), v) l -> {same_prefix (kb * 8) w k key} + {~ same_prefix (kb * 8) w k key}) ->
  exists k w v, In ((k, w), v) l /\ same_prefix (kb * 8) w k key /\
    forall k' w' v', In ((k', w'), v') l -> same_prefix (kb * 8) w' k' key -> w' <= w.
Proof.
  induction l as [|[[k0 w0] v0] l IH]; intros [k [w [v [I S]]]] D; [destruct I|].
  assert (DL : forall k w v, In ((k, w), v) l -> {same_prefix (kb * 8) w k key} + {~ same_prefix (kb * 8) w k key}) by (intros; eapply D; right; eauto).
  destruct (D k0 w0 v0 (or_introl eq_refl)) as [S0|S0].
  - assert (EX : (exists k w v, In ((k, w), v) l /\ same_prefix (kb * 8) w k key) \/ (forall k w v, In ((k, w), v) l -> ~ same_prefix (kb * 8) w k key)).
    { clear -DL. induction l as [|[[k w] v] l IH]; [right; intros ? ? ? []|].
      destruct (DL k w v (or_introl eq_refl)); [left; exists k, w, v; split; [left; auto|auto]|].
      destruct IH as [[k1 [w1 [v1 [I1 S1]]]]|NE]; [intros; eapply DL; right; eauto|left; exists k1, w1, v1; split; [right; auto|auto]|].
      right. intros k1 w1 v1 [E|I1]; [injection E as <- <- <-; auto|eauto]. }
    destruct EX as [EX|NE].
    + destruct (IH EX DL) as [k1 [w1 [v1 [I1 [S1 M1]]]]]. destruct (N.le_ge_cases w0 w1) as [L|L].
      * exists k1, w1, v1. split; [right; auto|]. split; [auto|]. intros k' w' v' [E|I'] S'; [injection E as <- <- <-; auto|eauto].
      * exists k0, w0, v0. split; [left; auto|]. split; [auto|]. intros k' w' v' [E|I'] S'; [injection E as <- <- <-; lia|].
        specialize (M1 _ _ _ I' S'). lia.
    + exists k0, w0, v0. split; [left; auto|]. split; [auto|]. intros k' w' v' [E|I'] S'; [injection E as <- <- <-; lia|].
      exfalso. eapply NE; eauto.
  - destruct I as [E|I]; [injection E as <- <- <-; contradiction|].
    destruct (IH ltac:(eauto) DL) as [k1 [w1 [v1 [I1 [S1 M1]]]]]. exists k1, w1, v1. split; [right; auto|]. split; [auto|].
    intros k' w' v' [E|I'] S'; [injection E as <- <- <-; contradiction|eauto].
Qed.
Lemma match_dec : forall k w v, In ((k, w), v) t -> {same_prefix (kb * 8) w k key} + {~ same_prefix (kb * 8) w k key}.
Proof.
  intros k w v I. destruct (eb (lenv key (k * 2 ^ 64 + w) 0) (matches kb (LITEM kb) (LKEY kb))) eqn:E.
  - left. apply (item_match k w v 0 I). auto.
  - right. intros S. apply (item_match k w v 0 I) in S. congruence.
Qed.
Lemma lpm_sound : forall v, lpm_admits kb t key (Some v) -> lpm_result kb t key (Some v).
Proof.
  intros v [_ [w [W [I [_ A]]]]].
  assert (S : same_prefix (kb * 8) w key key) by (intros i _ _; reflexivity).
  destruct (best_exists t (ex_intro _ key (ex_intro _ w (ex_intro _ v (conj I S)))) match_dec) as [k1 [w1 [v1 [I1 [S1 M1]]]]].
  specialize (A _ _ _ I1). cbn [evalb] in A. apply (item_match _ _ _ w I1) in S1 as S1'. rewrite S1' in A. cbn [negb orb] in A.
  rewrite (item_width_eval _ _ _ _ I1) in A. replace (ev (lenv key (k1 * 2 ^ 64 + w1) w) LWIDTH) with w in A.
  2:{ cbn [evalv LWIDTH lenv ebv N.eqb Pos.eqb]. symmetry. apply wrap_small. auto. }
  specialize (M1 _ _ _ I S) as LE. destruct (N.ltb_spec w1 w); [lia|]. cbn [orb] in A.
  destruct (N.eqb_spec v1 v) as [E|]; [|discriminate]. subst v1. exists k1, w1. auto.
Qed.
(** And the real result is admitted when it comes from an entry for the very key looked
    up. *)
Lemma lpm_exact : forall w v, In ((key, w), v) t ->
  (forall k' w' v', In ((k', w'), v') t -> same_prefix (kb * 8) w' k' key -> w' < w \/ v' = v) ->
  lpm_admits kb t key (Some v).
Proof.
  intros w v I M. destruct (proj2 TOK _ _ _ I) as [K WL]. cbn [lpm_admits]. split.
  - intros G. specialize (G _ _ _ I). cbn [evalb] in G. rewrite (proj2 (item_match _ _ _ 0 I)) in G; [discriminate|]. intros i _ _. reflexivity.
  - exists w. split; [lia|]. split; [auto|]. split; [apply own_match; lia|]. intros k' w' v' I'. cbn [evalb].
    destruct (eb _ (matches _ _ _)) eqn:E; [|auto]. cbn [negb orb]. apply (item_match _ _ _ w I') in E.
    rewrite (item_width_eval _ _ _ _ I'). replace (ev (lenv key (k' * 2 ^ 64 + w') w) LWIDTH) with w.
    2:{ cbn [evalv LWIDTH lenv ebv N.eqb Pos.eqb]. symmetry. apply wrap_small. lia. }
    destruct (M _ _ _ I' E) as [L| ->]; [apply N.ltb_lt in L; rewrite L; reflexivity|]. rewrite N.eqb_refl. apply orb_true_r.
Qed.
End Lpm.

(** ** Consistent hashing (cht.py) *)

Definition CKEY : bv := BVS 64 1.
Definition CCAP : bv := BVS 16 2.
Definition CBACK : bv := BVS 16 3.
Definition CHAS : bexp := BoolS 1.
Definition cenv (k cap b : N) (has : bool) : env := mkEnv (fun x => if x =? 1 then k else if x =? 2 then cap else b) (fun _ => has).
(** cht.py 70; [k < 0] is unsigned. *)
Definition cht_guard_pred : bexp := BOr (BUlt CKEY (BVV 64 0)) (BUle (BvZext 48 CCAP) CKEY).
(** cht.py 65-66 *)
Definition cht_true_adds : list bexp := [BUle (BVV 16 0) CBACK; BUlt CBACK CCAP; CHAS].
(** cht.py 58-71, on a pool of contents [m]; [out] is the chosen backend. *)
Definition cht_admits (cap : N) (m : pmap) (out : option nat) : Prop :=
  let guard := forall k, m k <> None -> eb (cenv (N.of_nat k) cap 0 false) cht_guard_pred = true in
  match out with
  | None => guard
  | Some b => ~ guard /\ holds (cenv 0 cap (N.of_nat b) (if m b then true else false)) cht_true_adds /\ N.of_nat b < 2 ^ 16
  end.

Lemma cht_guard_eval : forall k cap, N.of_nat k < 2 ^ 64 -> cap < 2 ^ 16 ->
  eb (cenv (N.of_nat k) cap 0 false) cht_guard_pred = (cap <=? N.of_nat k).
Proof.
  intros k cap K C. unfold cht_guard_pred. cbn [evalb evalv CKEY CCAP cenv ebv N.eqb Pos.eqb]. rewrite (wrap_small 64) by auto. rewrite (wrap_small 16 cap) by auto.
  change (wrap 64 0) with 0. destruct (N.ltb_spec (N.of_nat k) 0); [lia|]. reflexivity.
Qed.
(** If the pool's backends below the capacity are all young, the C result is admitted. *)
Lemma cht_admitted : forall h c data hash p time size, prime (Z.of_nat h) -> cht_alloc h c = Some data ->
  N.of_nat c < 2 ^ 16 -> N.of_nat size < 2 ^ 64 -> (forall j, (size <= j)%nat -> pool_abs p j = None) ->
  (forall b v, (b < c)%nat -> pool_abs p b = Some v -> young time (expiry p) v) ->
  cht_admits (N.of_nat c) (pool_abs p) (cht_find data h c hash p time).
Proof.
  intros h c data hash p time size HP HA CB SB DM YG. destruct (cht_find_complete h c HP) as [data' [E F]]. rewrite HA in E. injection E as <-.
  assert (KS : forall k, pool_abs p k <> None -> N.of_nat k < 2 ^ 64).
  { intros k K. destruct (Nat.le_gt_cases size k) as [L|L]; [rewrite DM in K by auto; contradiction|lia]. }
  specialize (F hash p time). destruct (cht_find data h c hash p time) as [b|]; cbn [cht_admits].
  - destruct F as [BC [be [af [_ [AV _]]]]]. destruct AV as [v [PV _]]. split.
    + intros G. specialize (G b). rewrite cht_guard_eval in G; [|apply KS; congruence|auto]. rewrite PV in G. specialize (G ltac:(discriminate)).
      apply N.leb_le in G. lia.
    + split; [|lia]. rewrite PV. intros x [<-|[<-|[<-|[]]]]; cbn [evalb evalv CBACK CCAP CHAS cenv ebv ebool N.eqb Pos.eqb].
      * apply N.leb_le. change (wrap 16 0) with 0. lia.
      * rewrite !wrap_small by lia. apply N.ltb_lt. lia.
      * reflexivity.
  - intros k K. rewrite cht_guard_eval by auto. apply N.leb_le. destruct (N.lt_ge_cases (N.of_nat k) (N.of_nat c)) as [L|]; [|auto]. exfalso.
    destruct (pool_abs p k) as [v|] eqn:PK; [|contradiction]. apply (F k); [lia|]. exists v. split; [auto|]. apply (YG k v); [lia|auto].
Qed.
