(** * The policer (nf/policer) *)

From Coq Require Import NArith ZArith List Bool Lia Arith.
From Verif Require Import IndexPool HashMap Table Firewall.
Import ListNotations.
Open Scope nat_scope.

(** policer.c 8-18: struct policer_bucket is (size, time). *)
Record pol := mkPol { ptab : table; buckets : list (N * N) }.
(** sizeof(uint32_t), the keys of the map. *)
Definition ADDR_SIZE : nat := 4.
Definition pol_key (p : pkt) : bytes := le 4 (ip_dst p).
Local Opaque le.

Section Policer.
Variable hash : bytes -> N.
Variables base loc : N.
Variables wan rate burst : N.
Variable cap : nat.

Notation tlearn' := (tlearn hash ADDR_SIZE base loc).
Notation tfind' := (tfind hash ADDR_SIZE base loc).

(** policer.c 40: 1000000000ull * burst / rate, in 64 bits. *)
Definition pol_exp : N := ((10 ^ 9 * burst) mod 2 ^ 64 / rate)%N.

(** policer.c 21-42: nf_init, when the configuration is there; [None] is false. *)
Definition pol_init : option pol :=
  if (rate =? 0)%N || (burst =? 0)%N then None
  else Some (mkPol (talloc ADDR_SIZE cap pol_exp) (repeat (0, 0)%N cap)).

(** policer.c 56-65: the new size of a bucket. *)
Definition refill (size time now : N) : N :=
  let time_diff := ((now + 2 ^ 64 - time) mod 2 ^ 64)%N in
  if (time_diff <? burst / rate)%N then
    let s := ((size + (time_diff * rate) mod 2 ^ 64) mod 2 ^ 64)%N in
    if (burst <? s)%N then burst else s
  else burst.

(** policer.c 44-98. *)
Definition pol_handle (st : pol) (p : pkt) : option N * pol :=
  let tb := ptab st in
  if negb (is_ipv4 p) then (None, st)
  else if (p_device p =? wan)%N then
    match tfind' tb (pol_key p) with
    | Some index =>
        let tb' := mkTab (keys tb) (tmap tb) (pool_refresh (tpool tb) (p_time p) index) in
        let '(size, time) := nth index (buckets st) (0, 0)%N in
        let s := refill size time (p_time p) in
        if (p_length p <? s)%N
        then (Some (1 - p_device p)%N, mkPol tb' (set_nth (buckets st) index (s - p_length p, p_time p)%N))
        else (None, mkPol tb' (set_nth (buckets st) index (s, p_time p)))
    | None =>
        if (burst <? p_length p)%N then (None, st)
        else match tlearn' tb (p_time p) (pol_key p) with
             | (Some index, tb') =>
                 (Some (1 - p_device p)%N, mkPol tb' (set_nth (buckets st) index (burst - p_length p, p_time p)%N))
             | (None, tb') => (None, mkPol tb' (buckets st))
             end
    end
  else (Some (1 - p_device p)%N, st).

Fixpoint pol_run (st : pol) (ps : list pkt) : list (option N) * pol :=
  match ps with
  | [] => ([], st)
  | p :: ps' =>
      let (o, st1) := pol_handle st p in
      let (os, st2) := pol_run st1 ps' in (o :: os, st2)
  end.

(** ** Specification *)
(** The bytes let through from the WAN to address [a]. *)
Definition through (a : N) (p : pkt) (o : option N) : N :=
  match o with
  | Some _ => if (p_device p =? wan)%N && (ip_dst p =? a)%N then p_length p else 0%N
  | None => 0%N
  end.
Fixpoint total (a : N) (ps : list pkt) (os : list (option N)) : N :=
  match ps, os with
  | p :: ps', o :: os' => (through a p o + total a ps' os')%N
  | _, _ => 0%N
  end.

(** ** The bound *)
Variable R : N.
Hypothesis Hrate : (rate <= R)%N.
Hypothesis Hfill : (burst <= R * (burst / rate))%N.
Hypothesis Hexp : (burst / rate <= pol_exp)%N.
Hypothesis L : layout_ok ADDR_SIZE base loc cap.
Hypothesis HC : (N.of_nat cap <= 2 ^ 63)%N.

Ltac lia_ := clear Hfill Hexp;
  repeat match goal with
         | |- context [(R * ?x)%N] => let y := fresh in set (y := (R * x)%N) in *; clearbody y
         | _ : context [(R * ?x)%N] |- _ => let y := fresh in set (y := (R * x)%N) in *; clearbody y
         end; lia.

Record pol_inv (T : N) (st : pol) : Prop := mkPI {
  pi_ok : table_ok hash ADDR_SIZE base loc cap pol_exp (ptab st);
  pi_len : length (buckets st) = cap;
  pi_buckets : forall i k t, view (ptab st) i = Some (k, t) ->
    exists size, nth i (buckets st) (0, 0)%N = (size, t) /\ (size <= burst)%N /\ (t <= T)%N }.

Definition credit (st : pol) (T a : N) : N :=
  match tfind' (ptab st) (le 4 a) with
  | Some i => let '(size, t) := nth i (buckets st) (0, 0)%N in N.min burst (size + R * (T - t))
  | None => burst
  end.

Lemma le4_inj : forall a b, (a < 2 ^ 32)%N -> (b < 2 ^ 32)%N -> le 4 a = le 4 b -> a = b.
Proof. intros a b Ha Hb. apply le_inj; assumption. Qed.

Lemma find_none : forall tb k, table_ok hash ADDR_SIZE base loc cap pol_exp tb -> length k = ADDR_SIZE ->
  tfind' tb k = None <-> forall i t, view tb i <> Some (k, t).
Proof.
  intros tb k H HK. pose proof (find_spec hash ADDR_SIZE base loc cap pol_exp L tb k H HK) as FS.
  destruct (tfind' tb k) as [i|]; split.
  - discriminate.
  - intros Q. exfalso. destruct (proj1 (FS i) eq_refl) as [t Hv]. exact (Q i t Hv).
  - intros _ i t Hv. assert (None = Some i) by (apply FS; eauto). discriminate.
  - reflexivity.
Qed.

(** What the credit of an address is, in terms of what the table stands for. *)
Lemma credit_at : forall st T a i t size, pol_inv T st -> view (ptab st) i = Some (le 4 a, t) ->
  nth i (buckets st) (0, 0)%N = (size, t) -> credit st T a = N.min burst (size + R * (T - t)).
Proof.
  intros st T a i t size I Hv Hb. unfold credit.
  rewrite (proj2 (find_spec hash ADDR_SIZE base loc cap pol_exp L (ptab st) (le 4 a) (pi_ok _ _ I) (le_length _ _) i) (ex_intro _ t Hv)), Hb.
  reflexivity.
Qed.
Lemma credit_none : forall st T a, pol_inv T st -> (forall i t, view (ptab st) i <> Some (le 4 a, t)) -> credit st T a = burst.
Proof.
  intros st T a I Hn. unfold credit. rewrite (proj2 (find_none (ptab st) (le 4 a) (pi_ok _ _ I) (le_length _ _)) Hn). reflexivity.
Qed.
Lemma credit_le : forall st T a, (credit st T a <= burst)%N.
Proof. intros. unfold credit. destruct (tfind' _ _); [|lia_]. destruct (nth _ _ _). apply N.le_min_l. Qed.

(** Time passes. *)
Lemma credit_later : forall st T T' a, pol_inv T st -> (T <= T')%N -> (credit st T' a <= credit st T a + R * (T' - T))%N.
Proof.
  intros st T T' a I HT. unfold credit. destruct (tfind' (ptab st) (le 4 a)) as [i|] eqn:F; [|lia_].
  apply (find_spec hash ADDR_SIZE base loc cap pol_exp L (ptab st) (le 4 a) (pi_ok _ _ I) (le_length _ _)) in F as [t Hv].
  destruct (pi_buckets _ _ I i _ t Hv) as (size & -> & Hs & Ht).
  replace (R * (T' - t))%N with (R * (T - t) + R * (T' - T))%N by (rewrite <- N.mul_add_distr_l; f_equal; lia_).
  set (x := (R * (T - t))%N). set (y := (R * (T' - T))%N). lia_.
Qed.
Lemma inv_later : forall T T' st, (T <= T')%N -> pol_inv T st -> pol_inv T' st.
Proof.
  intros T T' st HT [A B C]. constructor; auto. intros i k t Hv. destruct (C i k t Hv) as (s & Q1 & Q2 & Q3).
  exists s. split; [exact Q1|]. split; [exact Q2|lia_].
Qed.

Lemma refill_bound : forall size t T', (size <= burst)%N -> (t <= T')%N -> (T' < 2 ^ 64)%N ->
  (refill size t T' <= N.min burst (size + R * (T' - t)))%N.
Proof.
  intros size t T' Hs Ht HT. unfold refill.
  replace (T' + 2 ^ 64 - t)%N with (T' - t + 1 * 2 ^ 64)%N by lia_. rewrite N.mod_add by lia_. rewrite (N.mod_small (T' - t)) by lia_.
  set (df := (T' - t)%N). destruct (N.ltb_spec df (burst / rate)) as [D|D].
  - set (s := ((size + (df * rate) mod 2 ^ 64) mod 2 ^ 64)%N).
    assert (s <= size + R * df)%N.
    { unfold s. etransitivity; [apply N.mod_le; lia_|]. assert ((df * rate) mod 2 ^ 64 <= df * rate)%N by (apply N.mod_le; lia_).
      assert (df * rate <= R * df)%N by (rewrite (N.mul_comm R); apply N.mul_le_mono_l; exact Hrate). lia_. }
    clearbody s. destruct (N.ltb_spec burst s); lia_.
  - assert (burst <= R * df)%N by (etransitivity; [exact Hfill|apply N.mul_le_mono_l; exact D]). lia_.
Qed.

(** A step of the bucket of one index. *)
Lemma step_credit : forall T st st' p i s, pol_inv T st -> (T <= p_time p)%N -> (p_time p < TIME_MAX)%N -> (ip_dst p < 2 ^ 32)%N ->
  table_ok hash ADDR_SIZE base loc cap pol_exp (ptab st') -> i < cap ->
  (forall j, view (ptab st') j = if Nat.eqb j i then Some (pol_key p, p_time p) else view (ptab st) j) ->
  (forall j t, j <> i -> view (ptab st) j <> Some (pol_key p, t)) ->
  (view (ptab st) i = None \/ (exists k t, view (ptab st) i = Some (k, t) /\ (k = pol_key p \/ ~ young (p_time p) pol_exp t))) ->
  buckets st' = set_nth (buckets st) i (s, p_time p) -> (s <= burst)%N ->
  pol_inv (p_time p) st' /\
  credit st' (p_time p) (ip_dst p) = s /\
  forall a, (a < 2 ^ 32)%N -> a <> ip_dst p -> (credit st' (p_time p) a <= credit st T a + R * (p_time p - T))%N.
Proof.
  intros T st st' p i s I HT Ht Hd Hok Hi V Huniq Hold Hb Hs.
  assert (I' : pol_inv (p_time p) st').
  { constructor; [exact Hok|rewrite Hb, set_nth_length; apply (pi_len _ _ I)|]. intros j k t Hv. rewrite V in Hv.
    rewrite Hb, set_nth_nth by (rewrite (pi_len _ _ I); exact Hi). destruct (Nat.eqb_spec j i) as [E|E].
    - apply some_pair in Hv as [_ <-]. exists s. split; [reflexivity|]. split; [exact Hs|lia_].
    - destruct (pi_buckets _ _ I j k t Hv) as (z & Q1 & Q2 & Q3). exists z. split; [exact Q1|]. split; [exact Q2|lia_]. }
  split; [exact I'|]. split.
  - rewrite (credit_at st' (p_time p) (ip_dst p) i (p_time p) s I').
    + rewrite N.sub_diag, N.mul_0_r, N.add_0_r. lia_.
    + rewrite V, Nat.eqb_refl. reflexivity.
    + rewrite Hb, set_nth_nth, Nat.eqb_refl by (rewrite (pi_len _ _ I); exact Hi). reflexivity.
  - intros a Ha Hne. pose proof (credit_later st T (p_time p) a I HT) as CL.
    set (y := (R * (p_time p - T))%N) in *. clearbody y.
    destruct (tfind' (ptab st) (le 4 a)) as [j|] eqn:F.
    + pose proof F as F'. apply (find_spec hash ADDR_SIZE base loc cap pol_exp L (ptab st) (le 4 a) (pi_ok _ _ I) (le_length _ _)) in F' as [t Hv].
      destruct (pi_buckets _ _ I j _ t Hv) as (z & Q1 & Q2 & Q3).
      pose proof (credit_at st (p_time p) a j t z (inv_later _ _ _ HT I) Hv Q1) as E0. rewrite E0 in CL.
      destruct (Nat.eq_dec j i) as [->|Hji].
      * (* evicted *)
        destruct Hold as [Hold|(k & t' & Hold & Hy)]; [congruence|]. rewrite Hv in Hold. apply some_pair in Hold as [<- <-].
        destruct Hy as [Hy|Hy].
        { exfalso. apply Hne. apply le4_inj; assumption. }
        assert (Hx : (burst <= R * (p_time p - t))%N).
        { etransitivity; [exact Hfill|]. apply N.mul_le_mono_l. etransitivity; [exact Hexp|]. unfold young in Hy. lia_. }
        pose proof (credit_le st' (p_time p) a). lia_.
      * assert (Hv' : view (ptab st') j = Some (le 4 a, t)) by (rewrite V, (proj2 (Nat.eqb_neq _ _) Hji); exact Hv).
        assert (Hz : nth j (buckets st') (0, 0)%N = (z, t)).
        { rewrite Hb, set_nth_nth by (rewrite (pi_len _ _ I); exact Hi). rewrite (proj2 (Nat.eqb_neq _ _) Hji). exact Q1. }
        rewrite (credit_at st' (p_time p) a j t z I' Hv' Hz). exact CL.
    + assert (E0 : credit st T a = burst) by (unfold credit; rewrite F; reflexivity). rewrite E0.
      pose proof (credit_le st' (p_time p) a). lia_.
Qed.

Definition pol_pkt_ok (p : pkt) : Prop := (p_time p < TIME_MAX /\ ip_dst p < 2 ^ 32)%N.

Lemma pol_step : forall T st p o st', pol_inv T st -> (T <= p_time p)%N -> pol_pkt_ok p ->
  pol_handle st p = (o, st') ->
  pol_inv (p_time p) st' /\
  forall a, (a < 2 ^ 32)%N -> (through a p o + credit st' (p_time p) a <= credit st T a + R * (p_time p - T))%N.
Proof.
  intros T st p o st' I HT [Ht Hd] E.
  assert (Stay : o = None \/ (p_device p =? wan)%N = false -> st' = st -> pol_inv (p_time p) st' /\
    forall a, (a < 2 ^ 32)%N -> (through a p o + credit st' (p_time p) a <= credit st T a + R * (p_time p - T))%N).
  { intros Ho ->. split; [apply (inv_later T); assumption|]. intros a Ha. pose proof (credit_later st T (p_time p) a I HT).
    assert (through a p o = 0%N) as ->; [|lia_]. unfold through. destruct Ho as [Ho|Ho]; rewrite Ho; [reflexivity|]. destruct o; reflexivity. }
  unfold pol_handle in E. cbv zeta in E. destruct (negb (is_ipv4 p)); [injection E as <- <-; apply Stay; auto|].
  destruct (p_device p =? wan)%N eqn:Dv; [|injection E as _ <-; apply Stay; auto].
  assert (HL : length (pol_key p) = ADDR_SIZE) by apply le_length.
  pose proof (find_spec hash ADDR_SIZE base loc cap pol_exp L (ptab st) (pol_key p) (pi_ok _ _ I) HL) as FS.
  destruct (tfind' (ptab st) (pol_key p)) as [i|] eqn:F.
  - destruct (proj1 (FS i) eq_refl) as [t Hv]. destruct (pi_buckets _ _ I i _ t Hv) as (size & Q1 & Q2 & Q3). rewrite Q1 in E.
    destruct (refresh_ok hash ADDR_SIZE base loc cap pol_exp (ptab st) i (p_time p) (pi_ok _ _ I) Ht (ex_intro _ _ Hv)) as [Ho' V].
    pose proof (view_lt _ _ _ _ _ _ _ _ _ (pi_ok _ _ I) Hv) as Hi.
    assert (Ht64 : (p_time p < 2 ^ 64)%N) by (unfold TIME_MAX in Ht; lia_).
    pose proof (refill_bound size t (p_time p) Q2 ltac:(lia_) Ht64) as RB. set (s := refill size t (p_time p)) in *.
    pose proof (credit_later st T (p_time p) (ip_dst p) I HT) as CL.
    rewrite (credit_at st (p_time p) (ip_dst p) i t size (inv_later _ _ _ HT I) Hv Q1) in CL.
    assert (SC : forall st1 z, ptab st1 = mkTab (keys (ptab st)) (tmap (ptab st)) (pool_refresh (tpool (ptab st)) (p_time p) i) ->
      buckets st1 = set_nth (buckets st) i (z, p_time p) -> (z <= burst)%N ->
      pol_inv (p_time p) st1 /\ credit st1 (p_time p) (ip_dst p) = z /\
      forall a, (a < 2 ^ 32)%N -> a <> ip_dst p -> (credit st1 (p_time p) a <= credit st T a + R * (p_time p - T))%N).
    { intros st1 z E1 E2 Hz. apply (step_credit T st st1 p i z I HT Ht Hd); auto.
      - rewrite E1. exact Ho'.
      - intros j. rewrite E1, V. rewrite <- (view_key _ _ _ _ Hv). reflexivity.
      - intros j t' Hne Hj. apply Hne. eapply view_inj; [exact L|exact (pi_ok _ _ I)|exact Hj|exact Hv].
      - right. exists (pol_key p), t. auto. }
    assert (G : forall z, (z <= s)%N -> st' = mkPol (mkTab (keys (ptab st)) (tmap (ptab st)) (pool_refresh (tpool (ptab st)) (p_time p) i)) (set_nth (buckets st) i (z, p_time p)) ->
      (o = None \/ z + p_length p = s)%N ->
      pol_inv (p_time p) st' /\
      forall a, (a < 2 ^ 32)%N -> (through a p o + credit st' (p_time p) a <= credit st T a + R * (p_time p - T))%N).
    { intros z Hz Est Hc. destruct (SC st' z) as (I' & C1 & C2); [subst st'; reflexivity|subst st'; reflexivity|lia_|].
      split; [exact I'|]. intros a Ha. destruct (N.eq_dec a (ip_dst p)) as [->|Hne].
      - rewrite C1. unfold through. rewrite Dv, N.eqb_refl. cbn [andb]. destruct Hc as [Hc|Hc]; [rewrite Hc; lia_|]. destruct o; lia_.
      - specialize (C2 a Ha Hne). unfold through. rewrite (proj2 (N.eqb_neq (ip_dst p) a)) by congruence. rewrite andb_false_r.
        destruct o; lia_. }
    destruct (N.ltb_spec (p_length p) s).
    + apply (G (s - p_length p)%N); [lia_|congruence|right; lia_].
    + apply (G s); [lia_|congruence|left; congruence].
  - pose proof (proj1 (find_none (ptab st) (pol_key p) (pi_ok _ _ I) HL) F) as Hn.
    destruct (N.ltb_spec burst (p_length p)) as [Hlen|Hlen]; [injection E as <- <-; apply Stay; auto|].
    pose proof (learn_spec hash ADDR_SIZE base loc cap pol_exp L (ptab st) (p_time p) (pol_key p) (pi_ok _ _ I) HL Ht) as LS.
    destruct (tlearn' (ptab st) (p_time p) (pol_key p)) as [[i|] tb']; destruct LS as [Ho' LS].
    + destruct LS as (Hi & Hdj & V). assert (Est : st' = mkPol tb' (set_nth (buckets st) i (burst - p_length p, p_time p)%N)) by congruence.
      destruct (step_credit T st st' p i (burst - p_length p)%N I HT Ht Hd) as (I' & C1 & C2); subst st'; auto; try lia_.
      { destruct Hdj as [[t Hv]|[_ [Hv|(k & t & Hv & Hy)]]]; [exfalso; exact (Hn i t Hv)|auto|]. right. exists k, t. auto. }
      split; [exact I'|]. intros a Ha. destruct (N.eq_dec a (ip_dst p)) as [->|Hne].
      * rewrite C1. rewrite (credit_none st T (ip_dst p) I Hn). unfold through. rewrite Dv, N.eqb_refl. cbn [andb]. destruct o; lia_.
      * specialize (C2 a Ha Hne). unfold through. rewrite (proj2 (N.eqb_neq (ip_dst p) a)) by congruence. rewrite andb_false_r.
        destruct o; lia_.
    + destruct LS as (_ & _ & V). injection E as <- <-.
      assert (I' : pol_inv (p_time p) (mkPol tb' (buckets st))).
      { constructor; [exact Ho'|apply (pi_len _ _ I)|]. cbn [ptab buckets]. intros j k t Hv. rewrite V in Hv.
        destruct (pi_buckets _ _ I j k t Hv) as (z & Q1 & Q2 & Q3). exists z. split; [exact Q1|]. split; [exact Q2|lia_]. }
      split; [exact I'|]. intros a Ha. cbn [through]. pose proof (credit_later st T (p_time p) a I HT) as CL.
      assert (credit (mkPol tb' (buckets st)) (p_time p) a = credit st (p_time p) a) as ->; [|lia_].
      unfold credit. cbn [ptab buckets].
      pose proof (find_spec hash ADDR_SIZE base loc cap pol_exp L (ptab st) (le 4 a) (pi_ok _ _ I) (le_length _ _)) as F1.
      pose proof (find_spec hash ADDR_SIZE base loc cap pol_exp L tb' (le 4 a) Ho' (le_length _ _)) as F2.
      assert (tfind' tb' (le 4 a) = tfind' (ptab st) (le 4 a)) as ->; [|reflexivity].
      destruct (tfind' (ptab st) (le 4 a)) as [j|].
      * apply F2. destruct (proj1 (F1 j) eq_refl) as [t Hv]. exists t. rewrite V. exact Hv.
      * destruct (tfind' tb' (le 4 a)) as [j|]; [|reflexivity]. destruct (proj1 (F2 j) eq_refl) as [t Hv]. rewrite V in Hv.
        symmetry. apply F1. eauto.
Qed.

Lemma pol_run_bound : forall ps T st, pol_inv T st -> Forall pol_pkt_ok ps -> ordered T ps ->
  forall a, (a < 2 ^ 32)%N -> forall T', (forall p, In p ps -> (p_time p <= T')%N) -> (T <= T')%N ->
  (total a ps (fst (pol_run st ps)) <= credit st T a + R * (T' - T))%N.
Proof.
  induction ps as [|p ps IH]; intros T st I Hp Hor a Ha T' HT' HTT'; [cbn; lia_|].
  inversion Hp; subst. destruct Hor as [HT Hor]. cbn [pol_run].
  destruct (pol_handle st p) as [o st1] eqn:E. destruct (pol_step T st p o st1 I HT H1 E) as [I1 SB]. specialize (SB a Ha).
  assert (Hpt : (p_time p <= T')%N) by (apply HT'; left; reflexivity).
  specialize (IH (p_time p) st1 I1 H2 Hor a Ha T' (fun q Hq => HT' q (or_intror Hq)) Hpt).
  destruct (pol_run st1 ps) as [os st2]. cbn [fst total] in *.
  replace (R * (T' - T))%N with (R * (p_time p - T) + R * (T' - p_time p))%N by (rewrite <- N.mul_add_distr_l; f_equal; lia_).
  set (x := (R * (p_time p - T))%N) in *. set (y := (R * (T' - p_time p))%N) in *. clearbody x y. lia_.
Qed.

Lemma pol_run_inv : forall ps T st, pol_inv T st -> Forall pol_pkt_ok ps -> ordered T ps ->
  forall T', (forall p, In p ps -> (p_time p <= T')%N) -> (T <= T')%N -> pol_inv T' (snd (pol_run st ps)).
Proof.
  induction ps as [|p ps IH]; intros T st I Hp Hor T' HT' HTT'; [cbn; eapply inv_later; eauto|].
  inversion Hp; subst. destruct Hor as [HT Hor]. cbn [pol_run].
  destruct (pol_handle st p) as [o st1] eqn:E. destruct (pol_step T st p o st1 I HT H1 E) as [I1 _].
  specialize (IH (p_time p) st1 I1 H2 Hor T' (fun q Hq => HT' q (or_intror Hq)) (HT' p (or_introl eq_refl))).
  destruct (pol_run st1 ps) as [os st2]. exact IH.
Qed.

Lemma pol_run_app : forall ps qs st, fst (pol_run st (ps ++ qs)) =
  fst (pol_run st ps) ++ fst (pol_run (snd (pol_run st ps)) qs).
Proof.
  induction ps as [|p ps IH]; intros qs st; [reflexivity|]. cbn [app pol_run].
  destruct (pol_handle st p) as [o st1]. specialize (IH qs st1).
  destruct (pol_run st1 (ps ++ qs)) as [os1 st2]. destruct (pol_run st1 ps) as [os2 st3]. cbn [fst snd] in *. rewrite IH. reflexivity.
Qed.
Lemma pol_run_length : forall ps st, length (fst (pol_run st ps)) = length ps.
Proof.
  induction ps as [|p ps IH]; intros st; [reflexivity|]. cbn [pol_run]. destruct (pol_handle st p) as [o st1]. specialize (IH st1).
  destruct (pol_run st1 ps). cbn in *. rewrite IH. reflexivity.
Qed.

Lemma ordered_app : forall ps qs T, ordered T (ps ++ qs) -> ordered T ps /\
  (forall q, In q qs -> (T <= p_time q)%N /\ forall p, In p ps -> (p_time p <= p_time q)%N) /\ (forall p, In p ps -> (T <= p_time p)%N) /\
  exists T0, ordered T0 qs.
Proof.
  induction ps as [|p ps IH]; intros qs T H.
  - split; [exact I|]. split; [|split; [intros p []|exists T; exact H]]. intros q Hq. split; [|intros p []].
    revert T H. cbn [app]. induction qs as [|r qs IH]; intros T H; [destruct Hq|]. destruct H as [H1 H2]. destruct Hq as [<-|Hq]; [exact H1|].
    specialize (IH Hq (p_time r) H2). lia_.
  - destruct H as [H1 H2]. destruct (IH qs (p_time p) H2) as (A & B & C & D). split; [split; assumption|]. split.
    + intros q Hq. destruct (B q Hq) as [B1 B2]. split; [lia_|]. intros p' [<-|Hp']; [lia_|auto].
    + split; [|exact D]. intros p' [<-|Hp']; [exact H1|]. specialize (C p' Hp'). lia_.
Qed.

Lemma ordered_bound : forall ps T, ordered T ps -> forall p, In p ps -> (T <= p_time p)%N.
Proof.
  induction ps as [|p ps IH]; intros T H q Hq; [destruct Hq|]. destruct H as [H1 H2]. destruct Hq as [<-|Hq]; [exact H1|].
  specialize (IH (p_time p) H2 q Hq). lia_.
Qed.

Theorem pol_limit : (0 < rate)%N -> (0 < burst)%N -> forall st0 before during, pol_init = Some st0 -> Forall pol_pkt_ok (before ++ during) ->
  ordered 0 (before ++ during) ->
  forall t1 t2, (t1 <= t2)%N -> (forall p, In p during -> (t1 <= p_time p <= t2)%N) ->
  forall a, (a < 2 ^ 32)%N ->
  (total a during (skipn (length before) (fst (pol_run st0 (before ++ during)))) <= burst + R * (t2 - t1))%N.
Proof.
  intros Hr Hb st0 before during E Hp Hor t1 t2 H12 Hdur a Ha.
  unfold pol_init in E. rewrite (proj2 (N.eqb_neq rate 0)), (proj2 (N.eqb_neq burst 0)) in E by lia_. cbn [orb] in E. injection E as <-.
  set (st0 := mkPol _ _).
  assert (I0 : pol_inv 0 st0).
  { constructor; [apply talloc_ok; [exact L|exact HC]|apply repeat_length|]. intros i k t Hv. cbn [st0 ptab] in Hv. rewrite talloc_view in Hv. discriminate. }
  rewrite pol_run_app. rewrite skipn_app, pol_run_length, Nat.sub_diag.
  rewrite skipn_all2 by (rewrite pol_run_length; lia_). cbn [app skipn].
  apply Forall_app in Hp as [Hp1 Hp2]. destruct (ordered_app _ _ _ Hor) as (O1 & O2 & _ & T0 & O3).
  destruct during as [|d during']; [cbn; lia_|].
  assert (I1 : pol_inv (p_time d) (snd (pol_run st0 before))).
  { apply (pol_run_inv before 0 st0 I0 Hp1 O1); [|lia_]. intros p Hpi. apply (O2 d (or_introl eq_refl)). exact Hpi. }
  assert (O4 : ordered (p_time d) (d :: during')) by (destruct O3; split; [lia_|assumption]).
  pose proof (Hdur d (or_introl eq_refl)) as Hd.
  pose proof (pol_run_bound (d :: during') (p_time d) _ I1 Hp2 O4 a Ha t2 (fun p Hpi => proj2 (Hdur p Hpi)) (proj2 Hd)) as B.
  pose proof (credit_le (snd (pol_run st0 before)) (p_time d) a) as CL.
  assert (R * (t2 - p_time d) <= R * (t2 - t1))%N by (apply N.mul_le_mono_l; lia_).
  set (x := (R * (t2 - t1))%N) in *. set (y := (R * (t2 - p_time d))%N) in *. clearbody x y. lia_.
Qed.
End Policer.
