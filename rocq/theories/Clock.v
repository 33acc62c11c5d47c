(** * The clock and sleeping (env/include/os/clock.h, env/include/arch/tsc.h,
      env/src/os/{linux,metal,dpdk}/{init,clock}.c) *)

From Coq Require Import NArith List Bool Lia Arith.
Import ListNotations.
Open Scope N_scope.

Definition u64 (x : N) : N := x mod 2 ^ 64.
Definition u32 (x : N) : N := x mod 2 ^ 32.

(** tsc.h 12-25: the MSR's value gives numerator and denominator. *)
Definition tsc_get_nhz (msr : N) : N * N := (N.land (N.shiftr msr 8) 255, 10).
(** os/linux/init.c 61 (the rest of the function is not about the clock) and os/metal/init.c 15 *)
Definition intel_init (msr : N) : N * N := tsc_get_nhz msr.
(** os/dpdk/init.c 17-20; the fuel is more than the number of decimal digits of a uint64_t. *)
Fixpoint strip (fuel : nat) (num den : N) : N * N :=
  match fuel with
  | O => (num, den)
  | S fuel => if num mod 10 =? 0 then strip fuel (num / 10) (den / 10) else (num, den)
  end.
(** os/dpdk/init.c 10-21; [None] is [rte_panic]. *)
Definition dpdk_init (hz : N) : option (N * N) := if hz =? 0 then None else Some (strip 20 hz 1000000000).
(** clock.h 14; [None]: the division faults. *)
Definition time_ns (freq : N * N) (tsc : N) : option N :=
  if fst freq =? 0 then None else Some (u64 (tsc / fst freq * snd freq)).

(** os/linux/clock.c 13-15: what [nanosleep] is asked, seconds and nanoseconds. *)
Definition linux_sleep (ns : N) : N * N := (ns / 1000000000, ns mod 1000000000).
(** os/dpdk/clock.c 5: what [rte_delay_us(unsigned int)] is asked, in microseconds. *)
Definition dpdk_sleep (ns : N) : N := u32 (u64 (ns * 1000)).
(** os/metal/clock.c 3-9: the time-stamps read, one after the other; the number of readings the
    loop makes, [None] if it has not ended after these. *)
Fixpoint wait (freq : N * N) (target : N) (tscs : list N) : option nat :=
  match tscs with
  | [] => None
  | t :: rest =>
      match time_ns freq t with
      | None => None
      | Some now => if now =? target then Some 1%nat else option_map S (wait freq target rest)
      end
  end.
Definition metal_sleep (freq : N * N) (ns : N) (tscs : list N) : option nat :=
  match tscs with
  | [] => None
  | t :: rest => match time_ns freq t with None => None | Some now => option_map S (wait freq (u64 (now + ns)) rest) end
  end.

(** ** Facts *)
Lemma strip_spec : forall fuel num den num' den', strip fuel num den = (num', den') -> 0 < num -> num < 10 ^ N.of_nat fuel ->
  num' mod 10 <> 0 /\ exists k, num = num' * 10 ^ k /\ den' = den / 10 ^ k.
Proof.
  induction fuel as [|fuel IH]; intros num den num' den' H NZ B.
  - cbn in B. lia.
  - cbn [strip] in H. destruct (N.eqb_spec (num mod 10) 0) as [E|E].
    + pose proof (N.div_mod' num 10) as DM. rewrite E, N.add_0_r in DM. rewrite Nat2N.inj_succ, N.pow_succ_r' in B.
      generalize dependent (num / 10). intros q H DM. destruct (IH _ _ _ _ H) as (M & k & E1 & E2); [lia|nia|]. split; [exact M|].
      exists (N.succ k). rewrite N.pow_succ_r'. split; [rewrite DM, E1; ring|]. rewrite E2. rewrite N.div_div by (try apply N.pow_nonzero; lia). reflexivity.
    + injection H as <- <-. split; [exact E|]. exists 0. cbn [N.pow]. rewrite N.mul_1_r, N.div_1_r. auto.
Qed.

Lemma div_window : forall t num, num <> 0 -> t / num * num <= t /\ t < (t / num + 1) * num.
Proof. intros t num H. pose proof (N.div_mod' t num). pose proof (N.mod_lt t num H). generalize dependent (t / num). generalize dependent (t mod num). intros m L q E. rewrite N.mul_add_distr_r, (N.mul_comm q num). lia. Qed.

Lemma linux_sleep_exact : forall ns, fst (linux_sleep ns) * 1000000000 + snd (linux_sleep ns) = ns /\ snd (linux_sleep ns) < 1000000000 /\ (ns < 2 ^ 64 -> fst (linux_sleep ns) < 2 ^ 63).
Proof.
  intros ns. unfold linux_sleep. cbn [fst snd]. pose proof (N.div_mod' ns 1000000000). split; [lia|]. split; [apply N.mod_lt; lia|].
  intros B. apply N.div_lt_upper_bound; lia.
Qed.

Lemma wait_spec : forall freq target tscs n, wait freq target tscs = Some n ->
  exists t, nth_error tscs (n - 1) = Some t /\ time_ns freq t = Some target.
Proof.
  intros freq target tscs. induction tscs as [|t rest IH]; intros n H; [discriminate|]. cbn [wait] in H.
  destruct (time_ns freq t) as [now|] eqn:E; [|discriminate]. destruct (N.eqb_spec now target) as [->|NE].
  - injection H as <-. exists t. auto.
  - destruct (wait freq target rest) as [m|] eqn:W; [|discriminate]. injection H as <-. destruct (IH m eq_refl) as (t' & A & B).
    exists t'. split; [|exact B]. destruct m as [|m]; [|cbn in *; rewrite Nat.sub_0_r in A; exact A].
    exfalso. clear - W. destruct rest as [|x l]; cbn [wait] in W; [discriminate|]. destruct (time_ns freq x) as [now|]; [|discriminate].
    destruct (now =? target); [discriminate|]. destruct (wait freq target l); discriminate.
Qed.

Lemma u64_even : forall x, N.even (u64 x) = N.even x.
Proof.
  intros x. unfold u64. assert (D : x = x mod 2 ^ 64 + 2 * (2 ^ 63 * (x / 2 ^ 64))).
  { pose proof (N.div_mod' x (2 ^ 64)) as D. rewrite N.mul_assoc. change (2 * 2 ^ 63) with (2 ^ 64). lia. }
  rewrite D at 2. rewrite N.even_add, N.even_mul. cbn [N.even orb]. destruct (N.even (x mod 2 ^ 64)); reflexivity.
Qed.

Lemma intel_even : forall msr tsc now, time_ns (intel_init msr) tsc = Some now -> N.even now = true.
Proof.
  intros msr tsc now H. unfold time_ns, intel_init, tsc_get_nhz in H. cbn [fst snd] in H. destruct (_ =? 0); [discriminate|]. injection H as <-.
  rewrite u64_even, N.even_mul. cbn [N.even]. apply orb_true_r.
Qed.
