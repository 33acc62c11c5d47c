(** * Special memory, metadata, clock, statistics, strings: C76-C80 *)

From Coq Require Import NArith ZArith List Bool Lia.
From Verif Require Import Expr Solver Heap Misc.
Import ListNotations.
Open Scope N_scope.

(** ** C76: metadata *)

(** [last_attached cls h c k] scans the history [h] of attachments from the end. *)
Theorem C76_lookup_is_last_attached : forall (V : Type) (cls : V -> N) (h : list (option bv * V)) c k,
  m_get_or_none V (m_run V cls h) c k = last_attached V cls h c k.
Proof. exact m_run_get. Qed.
Print Assumptions C76_lookup_is_last_attached.

(** get: the last attached; else the initial value, which is then attached; else an error. *)
Theorem C76_get : forall (V : Type) (cls : V -> N) (h : list (option bv * V)) c k init,
  m_get V cls (m_run V cls h) c k init =
    match last_attached V cls h c k, init with
    | Some v, _ => Ok (m_run V cls h, v)
    | None, Some v => Ok (m_run V cls (h ++ [(k, v)]), v)
    | None, None => Err
    end.
Proof.
  intros. unfold m_get. rewrite m_run_get. destruct (last_attached V cls h c k); [reflexivity|].
  destruct init; [|reflexivity]. rewrite m_run_snoc. reflexivity.
Qed.
Print Assumptions C76_get.

(** A search over keys, where no metadata of the class is attached to "no object". *)
Theorem C76_search_is_unique : forall (V : Type) (cls : V -> N) (h : list (option bv * V)) c keys,
  last_attached V cls h c None = None ->
  match m_find V (m_run V cls h) c keys with
  | Ok (Some (k, v)) => exists l1 l2, keys = l1 ++ k :: l2 /\ last_attached V cls h c (Some k) = Some v /\
      forall k', In k' (l1 ++ l2) -> last_attached V cls h c (Some k') = None
  | Ok None => forall k, In k keys -> last_attached V cls h c (Some k) = None
  | Err => exists l1 k1 l2 k2 l3, keys = l1 ++ k1 :: l2 ++ k2 :: l3 /\
      last_attached V cls h c (Some k1) <> None /\ last_attached V cls h c (Some k2) <> None
  | NoFuel => False
  end.
Proof.
  intros V cls h c keys NN. rewrite m_find_spec by exact NN.
  assert (A0 : forall l, attached V cls h c l = [] -> forall k, In k l -> last_attached V cls h c (Some k) = None).
  { induction l as [|k0 l IH]; intros E k Hk; [destruct Hk|]. unfold attached in E. cbn [flat_map] in E.
    apply app_eq_nil in E as [E1 E2]. destruct Hk as [<-|Hk]; [|apply IH; auto].
    destruct (last_attached V cls h c (Some k0)); [discriminate|reflexivity]. }
  assert (A1 : forall l x r, attached V cls h c l = x :: r -> exists l1 l2, l = l1 ++ fst x :: l2 /\
      last_attached V cls h c (Some (fst x)) = Some (snd x) /\ (forall k, In k l1 -> last_attached V cls h c (Some k) = None) /\
      attached V cls h c l2 = r).
  { induction l as [|k0 l IH]; intros x r E; [discriminate|]. unfold attached in E. cbn [flat_map] in E.
    destruct (last_attached V cls h c (Some k0)) as [v|] eqn:L; cbn [app] in E.
    - injection E as <- <-. exists [], l. cbn. repeat split; auto. intros k [].
    - destruct (IH x r E) as [l1 [l2 [-> [B [C D]]]]]. exists (k0 :: l1), l2. repeat split; auto.
      intros k [<-|Hk]; auto. }
  destruct (attached V cls h c keys) as [|x [|y r]] eqn:E.
  - apply A0. exact E.
  - destruct x as [k v]. destruct (A1 _ _ _ E) as [l1 [l2 [-> [B [C D]]]]]. exists l1, l2. repeat split; auto.
    intros k' Hk. apply in_app_or in Hk as [Hk|Hk]; [auto|]. apply (A0 l2 D). exact Hk.
  - destruct (A1 _ _ _ E) as [l1 [l2 [-> [B [_ D]]]]]. destruct (A1 _ _ _ D) as [l3 [l4 [-> [B' _]]]].
    exists l1, (fst x), l3, (fst y), l4. repeat split; congruence.
Qed.
Print Assumptions C76_search_is_unique.

Theorem C76_merge_needs_equality : forall (V : Type) (cls : V -> N) (veq : V -> V -> bool) h others,
  m_merge V veq (m_run V cls h) (map (m_run V cls) others) = true <->
  forall o, In o others -> forall c k,
    match last_attached V cls o c k, last_attached V cls h c k with
    | Some v, Some v' => veq v v' = true
    | None, None => True
    | _, _ => False
    end.
Proof.
  intros. unfold m_merge. rewrite forallb_forall. split.
  - intros H o Ho. apply m_eq_spec. apply H. apply in_map. exact Ho.
  - intros H m Hm. apply in_map_iff in Hm as [o [<- Ho]]. apply m_eq_spec. exact (H o Ho).
Qed.
Print Assumptions C76_merge_needs_equality.

(** Two classes (even and odd values); key x overwritten once, key y attached once. *)
Definition hist76 : list (option bv * N) :=
  [(Some (BVS 8 1), 2); (Some (BVS 8 2), 3); (Some (BVS 8 1), 4); (Some (BVS 8 2), 6)].
Example C76_example :
  let m := m_run N (fun v => v mod 2) hist76 in
  m_get_or_none N m 0 (Some (BVS 8 1)) = Some 4 /\ m_get_or_none N m 1 (Some (BVS 8 1)) = None /\
  last_attached N (fun v => v mod 2) hist76 0 None = None /\
  m_find N m 1 [BVS 8 1; BVS 8 2] = Ok (Some (BVS 8 2, 3)) /\ m_find N m 0 [BVS 8 1; BVS 8 2] = Err /\
  m_merge N N.eqb m [m_run N (fun v => v mod 2) (tl hist76)] = true /\
  m_merge N N.eqb m [m_run N (fun v => v mod 2) (firstn 3 hist76)] = false.
Proof. vm_compute. repeat split. Qed.

(** ** C77: the clock *)

(** In any accepted run from a state that has not read the clock there is at most one
    reading: it is recorded as the state's time, and in every execution its time is not the
    reserved maximum and is the cycles divided by the frequency, times ten. *)
Theorem C77_one_time : forall freq ops st st' l,
  ktime st = None -> krun freq st ops = Ok (st', l) ->
  (forall t c t' c', In (t, c) l -> In (t', c') l -> t = t' /\ c = c') /\
  (length l <= 1)%nat /\
  forall t c, In (t, c) l ->
    ktime st' = Some (t, c) /\
    forall r, holds r (kcs st') ->
      ev r t <> 2 ^ 64 - 1 /\
      ev r t = (match ebv r freq mod 2 ^ 8 with 0 => 2 ^ 64 - 1 | f => ev r c / f end * 10) mod 2 ^ 64.
Proof.
  intros freq ops st st' l K H. destruct (krun_once freq ops st st' l H) as [_ B]. rewrite K in B.
  destruct B as [[-> _]|[n [t [c [ET [EC [-> [T [C1 C2]]]]]]]]].
  - split; [intros ? ? ? ? []|]. split; [cbn; lia|intros ? ? []].
  - split; [intros t1 c1 t2 c2 [E1|[]] [E2|[]]; split; congruence|]. split; [cbn; lia|].
    intros t1 c1 [E|[]]. injection E as <- <-. split; [exact T|]. intros r HR.
    pose proof (HR _ C1) as A1. pose proof (HR _ C2) as A2.
    unfold BNe, eb in A1. cbn [evalb evalv] in A1. apply negb_true_iff, N.eqb_neq in A1.
    unfold eb in A2. cbn [evalb] in A2. apply N.eqb_eq in A2.
    split; [exact A1|]. unfold ev. rewrite A2. clear A1 A2 C1 C2. subst t c.
    cbn [evalv freq_num freq_denom width N.add]. unfold wrap. rewrite (N.mod_small 10) by reflexivity.
    set (y := ebv r (n + 1) mod 2 ^ 64). destruct (ebv r freq mod 2 ^ 8) as [|f] eqn:F; [reflexivity|].
    cbn [N.eqb]. f_equal. f_equal. apply N.mod_small. apply N.le_lt_trans with y.
    + apply N.div_le_upper_bound; [discriminate|]. nia.
    + apply N.mod_lt. discriminate.
Qed.
Print Assumptions C77_one_time.

(** A second reading aborts the exploration. *)
Theorem C77_second_reading_aborts : forall freq ops1 ops2 ops3 st,
  krun freq st (ops1 ++ KTime :: ops2 ++ KTime :: ops3) = Err.
Proof.
  intros freq ops1 ops2 ops3 st.
  assert (A : forall ops st t, ktime st = Some t -> krun freq st (ops ++ KTime :: ops3) = Err).
  { induction ops as [|[|cs|k] ops IH]; intros s0 t E; cbn [app krun].
    - unfold get_time_and_cycles. rewrite E. reflexivity.
    - unfold get_time_and_cycles. rewrite E. reflexivity.
    - apply (IH _ t). exact E.
    - apply (IH _ t). exact E. }
  assert (B : forall ops st, krun freq st (ops ++ KTime :: ops2 ++ KTime :: ops3) = Err).
  { induction ops as [|[|cs|k] ops IH]; intros s0; cbn [app krun].
    - unfold get_time_and_cycles. destruct (ktime s0); [reflexivity|]. cbn [bindr]. erewrite A by reflexivity. reflexivity.
    - unfold get_time_and_cycles. destruct (ktime s0); [reflexivity|]. cbn [bindr]. rewrite IH. reflexivity.
    - apply IH.
    - apply IH. }
  apply B.
Qed.
Print Assumptions C77_second_reading_aborts.

Definition k0 : kst := mkK [] 5 None.
Example C77_example : exists st' l, ktime k0 = None /\ krun 0 k0 [KFresh 3; KTime; KAdd [BTrue]] = Ok (st', l) /\ l = [(BVS 64 8, BVS 64 9)].
Proof. do 2 eexists. split; [reflexivity|]. split; reflexivity. Qed.

(** ** C78: statistics *)

(** Starts and ends are accepted exactly when they are consecutive intervals, the last one
    possibly still open; the totals are then the sums of the durations. *)
Theorem C78_totals : forall (l : list interval) (o : option (N * Z)),
  exists st, srun_ops (mkS None []) (flat_map interval_ops l ++ opened o) = Ok st /\
    forall n, match sget (svals st) n with Some v => v | None => 0%Z end = total l n.
Proof.
  intros l o. destruct (srun_intervals l o []) as [vals [E T]]. exists (mkS o vals). split; [exact E|].
  intros n. cbn [svals]. rewrite T. reflexivity.
Qed.
Print Assumptions C78_totals.

Theorem C78_only_disjoint_intervals : forall ops st, forallb no_set ops = true ->
  srun_ops (mkS None []) ops = Ok st -> exists l o, ops = flat_map interval_ops l ++ opened o.
Proof. intros. eapply srun_accepts; eauto. Qed.
Print Assumptions C78_only_disjoint_intervals.

(** set_value on one kind does not disturb the totals of the others, wherever it happens. *)
Theorem C78_other_values_do_not_matter : forall ops st n,
  srun_ops (mkS None []) ops = Ok st ->
  (forall v, ~ In (SSet n v) ops) ->
  exists st', srun_ops (mkS None []) (filter no_set ops) = Ok st' /\ sget (svals st') n = sget (svals st) n.
Proof.
  assert (G : forall ops st0 st0' st n, swork st0 = swork st0' -> sget (svals st0) n = sget (svals st0') n ->
    srun_ops st0 ops = Ok st -> (forall v, ~ In (SSet n v) ops) ->
    exists st', srun_ops st0' (filter no_set ops) = Ok st' /\ sget (svals st') n = sget (svals st) n).
  { induction ops as [|o ops IH]; intros st0 st0' st n W E H NI.
    - injection H as <-. exists st0'. split; [reflexivity|auto].
    - cbn [srun_ops] in H. assert (NI' : forall v, ~ In (SSet n v) ops) by (intros v Hv; apply (NI v); right; exact Hv).
      destruct o as [n1 a|b|n1 v]; cbn [filter no_set srun_ops sstep] in *; rewrite <- ?W.
      + destruct (swork st0); cbn [bindr] in *; [discriminate|]. eapply IH; [| |exact H|exact NI']; auto.
      + destruct (swork st0) as [[n1 t0]|]; cbn [bindr] in *; [|discriminate].
        eapply IH; [| |exact H|exact NI']; [reflexivity|]. cbn [svals]. rewrite !sget_sset.
        destruct (N.eqb_spec n1 n) as [->|]; [rewrite E; reflexivity|exact E].
      + cbn [bindr] in H. eapply IH; [| |exact H|exact NI']; [exact W|]. cbn [svals]. rewrite sget_sset.
        destruct (N.eqb_spec n1 n) as [->|]; [exfalso; apply (NI v); left; reflexivity|exact E]. }
  intros ops st n H NI. eapply G; eauto.
Qed.
Print Assumptions C78_other_values_do_not_matter.

Example C78_example :
  exists st, srun_ops (mkS None []) (flat_map interval_ops [(1, 10%Z, 15%Z); (2, 15%Z, 40%Z); (1, 50%Z, 52%Z)] ++ opened (Some (2, 60%Z))) = Ok st /\
  sget (svals st) 1 = Some 7%Z /\ sget (svals st) 2 = Some 25%Z /\
  srun_ops (mkS None []) [SStart 1 0; SStart 2 1] = Err /\ srun_ops (mkS None []) [SEnd 1] = Err.
Proof. eexists. split; [reflexivity|]. repeat split. Qed.

(** ** C79: strings *)

(** [str_at ld p l]: the bytes from [p] on are [l], none of them zero, and then a zero; each
    has that value in every execution. *)
Theorem C79_reads_up_to_terminator : forall ld p l, p < 2 ^ 64 ->
  ((exists fuel, read_str fuel ld p = Ok l) <-> str_at ld p l).
Proof.
  intros ld p l P. split.
  - intros [fuel H]. eapply read_str_ok; eauto.
  - intros H. exists (S (length l)). apply read_str_complete; auto.
Qed.
Print Assumptions C79_reads_up_to_terminator.

Theorem C79_symbolic_byte_aborts : forall ld p l c fuel, p < 2 ^ 64 ->
  (forall j v, nth_error l j = Some v -> v <> 0 /\ byte_is ld ((p + N.of_nat j) mod 2 ^ 64) v) ->
  ld ((p + N.of_nat (length l)) mod 2 ^ 64) = Ok c -> symbolic c = true ->
  (length l < fuel)%nat -> read_str fuel ld p = Err.
Proof.
  intros ld p l c fuel P H E S F. apply (read_str_rejects l); auto. rewrite E. exact S.
Qed.
Print Assumptions C79_symbolic_byte_aborts.

(** "ab", a terminator, then an unknown byte; and the same read from past the terminator. *)
Definition ld79 (p : N) : res bv :=
  match p with 100 => Ok (BVV 8 97) | 101 => Ok (BVV 8 98) | 102 => Ok (BVV 8 0) | 103 => Ok (BVV 8 99) | 104 => Ok (BVS 8 1) | _ => Err end.
Example C79_example : read_str 5 ld79 100 = Ok [97; 98] /\ str_at ld79 100 [97; 98] /\ read_str 5 ld79 103 = Err /\
  (forall j v, nth_error [99] j = Some v -> v <> 0 /\ byte_is ld79 ((103 + N.of_nat j) mod 2 ^ 64) v) /\
  ld79 ((103 + N.of_nat 1) mod 2 ^ 64) = Ok (BVS 8 1).
Proof.
  split; [reflexivity|]. split; [apply (read_str_ok 5); reflexivity|]. split; [reflexivity|]. split; [|reflexivity].
  intros [|[|j]] v E; cbn in E; try discriminate. injection E as <-. split; [discriminate|].
  exists (BVV 8 99). repeat split.
Qed.

(** ** C80: special memory objects *)

Theorem C80_write_then_read : forall m i off v size m', msized m -> 1 <= size -> v < 2 ^ (size * 8) ->
  cwrite m i off v (size * 8) false = Ok m' -> cread m' i off (Some size) false = Ok v.
Proof. intros. eapply cwrite_cread; eauto. Qed.
Print Assumptions C80_write_then_read.

(** Everything outside the written bits of the written element reads as before, including
    whether it can be read at all. *)
Theorem C80_rest_unchanged : forall m i off v w m', msized m -> 1 <= w -> v < 2 ^ w ->
  cwrite m i off v w false = Ok m' ->
  i < mcount m /\ off + w <= msz m /\ mcount m' = mcount m /\ msz m' = msz m /\ msized m' /\
  forall j off' size, j <> i \/ off' + size * 8 <= off \/ off + w <= off' ->
    forall x, cread m' j off' (Some size) false = Ok x <-> cread m j off' (Some size) false = Ok x.
Proof.
  intros m i off v w m' MS W V H. destruct (cwrite_bits m i off v w m' MS V W H) as [I [LE [C [Z [MS' _]]]]].
  repeat (split; [assumption|]). intros j off' size D x. eapply cwrite_cread_other; eauto.
Qed.
Print Assumptions C80_rest_unchanged.

(** Any sequence of little-endian writes keeps the element widths, so the theorems above
    apply to every reachable object. *)
Inductive creach (count size : N) : cmem -> Prop :=
| cr0 : creach count size (cmem0 count size)
| crw : forall m i off v w m', creach count size m -> 1 <= w -> v < 2 ^ w -> cwrite m i off v w false = Ok m' -> creach count size m'.
Theorem C80_reachable_sized : forall count size m, creach count size m -> msized m /\ mcount m = count /\ msz m = size.
Proof.
  intros count size m H. induction H as [|m i off v w m' H [MS [C Z]] W V E].
  - repeat split. intros i. cbn. generalize (N.pow_nonzero 2 size ltac:(discriminate)). lia.
  - destruct (cwrite_bits m i off v w m' MS V W E) as [_ [_ [C' [Z' [MS' _]]]]]. repeat split; congruence.
Qed.
Print Assumptions C80_reachable_sized.

(** Big-endian accesses of whole elements round-trip. *)
Theorem C80_big_endian_whole_partial : forall m i v m', msized m -> 1 <= msz m -> v < 2 ^ msz m ->
  cwrite m i 0 v (msz m) true = Ok m' -> cread m' i 0 None true = Ok v.
Proof. intros. eapply cwrite_reverse_whole; eauto. Qed.
Print Assumptions C80_big_endian_whole_partial.

(** Big-endian accesses of a part do not: the byte written at offset 0 of a two-byte element
    ends at offset 8. *)
Theorem C80_big_endian_part_refuted : exists m i v m', msized m /\ v < 2 ^ 8 /\
  cwrite m i 0 v 8 true = Ok m' /\ cread m' i 0 (Some 1) true = Ok 0 /\ v <> 0 /\
  cread m i 8 (Some 1) true = Ok 0 /\ cread m' i 8 (Some 1) true = Ok v.
Proof.
  exists (cmem0 1 16), 0, 7. eexists. split; [intros i; cbn; lia|]. split; [reflexivity|]. split; [reflexivity|].
  repeat split; try reflexivity. discriminate.
Qed.
Print Assumptions C80_big_endian_part_refuted.

Definition m80 : res cmem := do m <- cwrite (cmem0 4 64) 2 16 48879 16 false; cwrite m 2 32 1 32 false.
Example C80_example : match m80 with
  | Ok m => creach 4 64 m /\ cread m 2 16 (Some 2) false = Ok 48879 /\ cread m 2 0 (Some 2) false = Ok 0 /\ cread m 1 16 (Some 2) false = Ok 0 /\
            cwrite m 2 48 5 32 false = Err /\ cwrite m 4 0 5 32 false = Err
  | _ => False end.
Proof.
  destruct m80 as [m| |] eqn:E; [|vm_compute in E; discriminate|vm_compute in E; discriminate].
  assert (R : creach 4 64 m).
  { unfold m80 in E. destruct (cwrite (cmem0 4 64) 2 16 48879 16 false) as [m1| |] eqn:E1; cbn [bindr] in E; try discriminate.
    eapply crw; [eapply crw; [apply cr0| | |exact E1]| | |exact E]; try reflexivity; discriminate. }
  split; [exact R|]. vm_compute in E. injection E as <-. repeat split.
Qed.
