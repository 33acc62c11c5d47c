(** * The policer's exact specification (nf/policer/spec-exact.py) *)

From Coq Require Import NArith ZArith List Bool Lia Arith.
From Verif Require Import IndexPool HashMap Table Firewall Policer TimedSet.
Import ListNotations.
Open Scope nat_scope.

Section PolicerExact.
Variable hash : bytes -> N.
Variables base loc : N.
Variables wan rate burst : N.
Variable cap : nat.

(** ** The specification *)
(** spec-exact.py 7-8: the addresses in use, each with the time of its last use, and the bucket of each address: (size, time).
    Simplified: the specification puts the buckets in an array, at the index of their address; here they are named by the address. *)
Record exact := mkEx { ex_known : list (bytes * N); ex_bucket : N -> N * N }.
Definition ex_init : exact := mkEx [] (fun _ => (0, 0)%N).

(** spec-exact.py 26-32, over numbers without a bound: what has come in since [time] at the given rate, but no more than the burst. *)
Definition ex_refill (size time now : N) : N :=
  if (now - time <? burst / rate)%N then N.min burst (size + (now - time) * rate)%N else burst.

Definition put (f : N -> N * N) (a : N) (b : N * N) : N -> N * N := fun x => if (x =? a)%N then b else f x.

(** The addresses not expired at [now]; they expire after policer.c 40's time without a packet. *)
Definition ex_live (st : exact) (now : N) : list (bytes * N) := filter (kalive (pol_exp rate burst) now) (ex_known st).
(** spec-exact.py 13-41: the device the packet goes out of, or none. *)
Definition ex_step (st : exact) (p : pkt) : option N * exact :=
  if negb (is_ipv4 p) then (None, st)
  else if (p_device p =? wan)%N then
    let live := ex_live st (p_time p) in
    let used b := mkEx (ktouch (pol_key p) (p_time p) live) (put (ex_bucket st) (ip_dst p) b) in
    if khas (pol_key p) live then
      let '(size, time) := ex_bucket st (ip_dst p) in
      let s := ex_refill size time (p_time p) in
      if (s <=? p_length p)%N then (None, used (s, p_time p))
      else (Some (1 - p_device p)%N, used ((s - p_length p)%N, p_time p))
    else if (p_length p <=? burst)%N && (length live <? cap)
    then (Some (1 - p_device p)%N, used ((burst - p_length p)%N, p_time p))
    else (None, mkEx live (ex_bucket st))
  else (Some (1 - p_device p)%N, st).
Fixpoint ex_run (st : exact) (ps : list pkt) : list (option N) :=
  match ps with
  | [] => []
  | p :: ps' => fst (ex_step st p) :: ex_run (snd (ex_step st p)) ps'
  end.

(** The packets that the policer polices. *)
Definition policed (p : pkt) : bool := is_ipv4 p && (p_device p =? wan)%N.
(** No packet as long as the burst or longer is for an address that was used before and has expired since. *)
Fixpoint large_ok (seen : list N) (st : exact) (ps : list pkt) : Prop :=
  match ps with
  | [] => True
  | p :: ps' =>
      (policed p = true -> (burst <= p_length p)%N ->
         khas (pol_key p) (ex_live st (p_time p)) = true \/ ~ In (ip_dst p) seen) /\
      large_ok (if policed p then ip_dst p :: seen else seen) (snd (ex_step st p)) ps'
  end.

(** ** The simulation *)
Hypothesis Hrate : rate <> 0%N.
Hypothesis Hburst : (10 ^ 9 * burst < 2 ^ 64)%N.
Hypothesis L : layout_ok ADDR_SIZE base loc cap.
Notation exp := (pol_exp rate burst).
Notation tlearn' := (tlearn hash ADDR_SIZE base loc).
Notation tfind' := (tfind hash ADDR_SIZE base loc).

Lemma exp_long : (burst / rate <= exp)%N.
Proof. unfold pol_exp. rewrite N.mod_small by exact Hburst. apply N.div_le_mono; [exact Hrate|]. lia. Qed.

Lemma refill_exact : forall size t now, (size <= burst)%N -> (t <= now)%N -> (now < TIME_MAX)%N ->
  refill rate burst size t now = ex_refill size t now.
Proof.
  intros size t now Hs Ht HT. unfold refill, ex_refill. unfold TIME_MAX in HT.
  replace (now + 2 ^ 64 - t)%N with (now - t + 1 * 2 ^ 64)%N by lia. rewrite N.mod_add by lia. rewrite (N.mod_small (now - t)) by lia.
  set (df := (now - t)%N). destruct (N.ltb_spec df (burst / rate)) as [D|D]; [|reflexivity].
  assert (M : (df * rate <= burst)%N).
  { etransitivity; [apply N.mul_le_mono_r, N.lt_le_incl, D|]. rewrite N.mul_comm. apply N.mul_div_le. exact Hrate. }
  set (m := (df * rate)%N) in *. clearbody m. rewrite (N.mod_small m) by lia. rewrite (N.mod_small (size + m)) by lia.
  destruct (N.ltb_spec burst (size + m)); lia.
Qed.
Lemma ex_refill_le : forall size t now, (ex_refill size t now <= burst)%N.
Proof. intros. unfold ex_refill. destruct (_ <? _)%N; lia. Qed.

Record ex_rel (T : N) (seen : list N) (st : pol) (es : exact) : Prop := mkER {
  er_set : ts_rel hash ADDR_SIZE base loc cap exp T (ptab st) (ex_known es);
  er_len : length (buckets st) = cap;
  er_own : forall i k t, view (ptab st) i = Some (k, t) -> exists size a, nth i (buckets st) (0, 0)%N = (size, t) /\
             (size <= burst)%N /\ (t <= T)%N /\ k = le 4 a /\ (a < 2 ^ 32)%N /\ In a seen;
  er_same : forall i a t, (a < 2 ^ 32)%N -> (T <= t + exp)%N -> view (ptab st) i = Some (le 4 a, t) ->
              nth i (buckets st) (0, 0)%N = ex_bucket es a }.

Lemma ex_later : forall T T' seen st es, (T <= T')%N -> ex_rel T seen st es -> ex_rel T' seen st es.
Proof.
  intros T T' seen st es H [A B C D]. constructor; auto.
  - apply (ts_later _ _ _ _ _ _ T); assumption.
  - intros i k t V. destruct (C i k t V) as (size & a & E & F & G & Q). exists size, a. repeat split; try tauto. lia.
  - intros i a t Ha Ht V. apply (D i a t); [assumption|lia|assumption].
Qed.
Lemma ex_forget : forall T seen st es, ex_rel T seen st es -> ex_rel T seen st (mkEx (ex_live es T) (ex_bucket es)).
Proof. intros T seen st es [A B C D]. constructor; auto. apply ts_live. exact A. Qed.
Lemma ex_seen : forall T a seen st es, ex_rel T seen st es -> ex_rel T (a :: seen) st es.
Proof.
  intros T a seen st es [A B C D]. constructor; auto.
  intros i k t V. destruct (C i k t V) as (size & b & E & F & G & Q & W & Z). exists size, b. repeat split; try assumption. right. exact Z.
Qed.

(** An index gets a new bucket for the address of the packet. *)
Lemma ex_touch : forall p seen st es tb' i s, (p_time p < TIME_MAX)%N -> (ip_dst p < 2 ^ 32)%N -> ex_rel (p_time p) seen st es ->
  i < cap -> (s <= burst)%N ->
  ts_rel hash ADDR_SIZE base loc cap exp (p_time p) tb' (ktouch (pol_key p) (p_time p) (ex_live es (p_time p))) ->
  (forall j, view tb' j = if Nat.eqb j i then Some (pol_key p, p_time p) else view (ptab st) j) ->
  ex_rel (p_time p) (ip_dst p :: seen) (mkPol tb' (set_nth (buckets st) i (s, p_time p)))
    (mkEx (ktouch (pol_key p) (p_time p) (ex_live es (p_time p))) (put (ex_bucket es) (ip_dst p) (s, p_time p))).
Proof.
  intros p seen st es tb' i s HT Ha R Hi Hs TS V. constructor; cbn [ptab buckets ex_known ex_bucket].
  - exact TS.
  - rewrite set_nth_length. apply (er_len _ _ _ _ R).
  - intros j k t Hv. pose proof Hv as Hv'. rewrite V in Hv'. rewrite set_nth_nth by (rewrite (er_len _ _ _ _ R); exact Hi).
    destruct (Nat.eqb_spec j i) as [E|E].
    + apply some_pair in Hv' as [<- <-]. exists s, (ip_dst p). repeat split; try assumption; try reflexivity. left. reflexivity.
    + destruct (er_own _ _ _ _ R j k t Hv') as (z & a & Q1 & Q2 & Q3 & Q4 & Q5 & Q6). exists z, a. repeat split; try assumption. right. exact Q6.
  - intros j a t Ha' Ht Hv. pose proof Hv as Hv'. rewrite V in Hv'. rewrite set_nth_nth by (rewrite (er_len _ _ _ _ R); exact Hi).
    unfold put. destruct (Nat.eqb_spec j i) as [E|E].
    + apply some_pair in Hv' as [Q <-]. assert (a = ip_dst p) as -> by (symmetry; apply le4_inj; assumption). rewrite N.eqb_refl. reflexivity.
    + destruct (N.eqb_spec a (ip_dst p)) as [->|Ne].
      * exfalso. apply E. eapply (view_inj hash ADDR_SIZE base loc cap exp L tb' j i); [apply (ts_ok _ _ _ _ _ _ _ _ _ TS)|exact Hv|].
        rewrite V, Nat.eqb_refl. reflexivity.
      * apply (er_same _ _ _ _ R j a t); assumption.
Qed.

Lemma khas_kuse : forall e c k t S, khas k (kuse e c k t S) = khas k (filter (kalive e t) S) || (length (filter (kalive e t) S) <? c).
Proof.
  intros e c k t S. unfold kuse. set (live := filter _ _). clearbody live. destruct (khas k live) eqn:K; cbn [orb].
  - unfold ktouch. cbn. rewrite (proj2 (beqb_eq k k) eq_refl). reflexivity.
  - destruct (length live <? c); [|exact K]. unfold ktouch. cbn. rewrite (proj2 (beqb_eq k k) eq_refl). reflexivity.
Qed.

Lemma ex_sim : forall p T seen st es, ex_rel T seen st es -> (T <= p_time p)%N -> pol_pkt_ok p ->
  (policed p = true -> (burst <= p_length p)%N -> khas (pol_key p) (ex_live es (p_time p)) = true \/ ~ In (ip_dst p) seen) ->
  fst (pol_handle hash base loc wan rate burst st p) = fst (ex_step es p) /\
  ex_rel (p_time p) (if policed p then ip_dst p :: seen else seen) (snd (pol_handle hash base loc wan rate burst st p)) (snd (ex_step es p)).
Proof.
  intros p T seen st es R HT [Ht Hd] Hbig. apply (ex_later _ _ _ _ _ HT) in R. clear T HT. unfold policed in *. unfold pol_handle, ex_step. cbv zeta.
  destruct (is_ipv4 p); cbn [negb andb] in *; [|split; [reflexivity|exact R]].
  destruct (p_device p =? wan)%N; [|split; [reflexivity|exact R]]. specialize (Hbig eq_refl).
  assert (HL : length (pol_key p) = ADDR_SIZE) by apply le_length.
  pose proof (ts_learn hash ADDR_SIZE base loc cap exp L _ _ _ (p_time p) (pol_key p) (er_set _ _ _ _ R) (N.le_refl _) Ht HL) as TL.
  pose proof (learn_spec hash ADDR_SIZE base loc cap exp L (ptab st) (p_time p) (pol_key p) (ts_ok _ _ _ _ _ _ _ _ _ (er_set _ _ _ _ R)) HL Ht) as LS.
  pose proof (find_spec hash ADDR_SIZE base loc cap exp L (ptab st) (pol_key p) (ts_ok _ _ _ _ _ _ _ _ _ (er_set _ _ _ _ R)) HL) as FS.
  pose proof (ts_live hash ADDR_SIZE base loc cap exp _ _ _ (er_set _ _ _ _ R)) as RL.
  assert (HS : forall e, In e (ex_live es (p_time p)) -> kalive exp (p_time p) e = true) by (intros e He; apply filter_In in He; tauto).
  pose proof (ts_found hash ADDR_SIZE base loc cap exp L _ _ _ (pol_key p) RL HL HS) as TF.
  rewrite khas_kuse in TL. unfold kuse in TL.
  change (filter (kalive exp (p_time p)) (ex_known es)) with (ex_live es (p_time p)) in *.
  destruct (khas (pol_key p) (ex_live es (p_time p))) eqn:Kn; cbn [orb] in TL.
  - (* in use *)
    destruct (TF eq_refl) as (i & t & F & Hv & Hin). unfold tlearn in TL, LS. rewrite F in *.
    destruct TL as [TL _]. destruct LS as (_ & Hi & _ & V).
    destruct (er_own _ _ _ _ R i _ t Hv) as (size & a & Q1 & Q2 & Q3 & _). pose proof (HS _ Hin) as Ha. apply N.leb_le in Ha. cbn in Ha.
    rewrite <- (er_same _ _ _ _ R i (ip_dst p) t Hd Ha Hv), Q1, (refill_exact size t (p_time p) Q2 Q3 Ht).
    pose proof (ex_refill_le size t (p_time p)) as Rl. set (s := ex_refill size t (p_time p)) in *. clearbody s.
    destruct (N.leb_spec s (p_length p)) as [C|C].
    + rewrite (proj2 (N.ltb_ge _ _) C). split; [reflexivity|]. apply ex_touch; assumption.
    + rewrite (proj2 (N.ltb_lt _ _) C). split; [reflexivity|]. apply ex_touch; try assumption. lia.
  - destruct (tfind' (ptab st) (pol_key p)) as [i|] eqn:F.
    + (* expired, but still in the table *)
      unfold tlearn in TL, LS. rewrite F in *. destruct TL as [TL Room]. destruct LS as (_ & Hi & _ & V). rewrite Room in *.
      destruct (proj1 (FS i) eq_refl) as [t Hv].
      destruct (er_own _ _ _ _ R i _ t Hv) as (size & a & Q1 & Q2 & Q3 & Q4 & Q5 & Q6).
      assert (a = ip_dst p) as -> by (symmetry; apply le4_inj; assumption).
      assert (Lt : (p_length p < burst)%N).
      { apply N.lt_nge. intros B. destruct (Hbig B) as [B'|B']; [discriminate|tauto]. }
      assert (Old : ~ (p_time p <= t + exp)%N).
      { intros Y. assert (K : In (pol_key p, t) (ex_live es (p_time p))) by (apply (ts_same _ _ _ _ _ _ _ _ _ RL _ t Y); eauto).
        assert (khas (pol_key p) (ex_live es (p_time p)) = true) by (apply khas_In; eauto). congruence. }
      rewrite Q1, (refill_exact size t (p_time p) Q2 Q3 Ht).
      assert (ex_refill size t (p_time p) = burst) as ->.
      { unfold ex_refill. pose proof exp_long. rewrite (proj2 (N.ltb_ge _ _)); [reflexivity|lia]. }
      rewrite (proj2 (N.ltb_lt _ _) Lt), (proj2 (N.leb_le _ _) (N.lt_le_incl _ _ Lt)). cbn [andb]. split; [reflexivity|].
      apply ex_touch; try assumption. lia.
    + rewrite N.ltb_antisym. destruct (N.leb_spec (p_length p) burst) as [C|C]; cbn [negb andb].
      * destruct (tlearn' (ptab st) (p_time p) (pol_key p)) as [[i|] tb']; destruct TL as [TL Room]; rewrite Room in *; (split; [reflexivity|]).
        -- destruct LS as (_ & Hi & _ & V). apply ex_touch; try assumption. lia.
        -- apply ex_seen. destruct LS as (_ & _ & _ & V). destruct R as [A B D E]. constructor; cbn [ptab buckets ex_known ex_bucket snd]; auto.
           ++ intros j k t Hv. rewrite V in Hv. apply (D j k t Hv).
           ++ intros j a t Ha Hy Hv. rewrite V in Hv. apply (E j a t Ha Hy Hv).
      * split; [reflexivity|]. apply ex_seen, ex_forget. exact R.
Qed.

Lemma ex_sim_run : forall ps T seen st es, ex_rel T seen st es -> ordered T ps -> Forall pol_pkt_ok ps -> large_ok seen es ps ->
  fst (pol_run hash base loc wan rate burst st ps) = ex_run es ps.
Proof.
  induction ps as [|p ps IH]; intros T seen st es R O P B; [reflexivity|]. destruct O as [O1 O2]. inversion_clear P as [|? ? P1 P2]. destruct B as [B1 B2].
  cbn [pol_run ex_run]. destruct (ex_sim p T seen st es R O1 P1 B1) as [E R']. destruct (pol_handle _ _ _ _ _ _ st p) as [o st1]. cbn [fst snd] in *.
  specialize (IH _ _ _ _ R' O2 P2 B2). destruct (pol_run _ _ _ _ _ _ st1 ps) as [os st2]. cbn [fst] in *. congruence.
Qed.
Lemma ex_start : forall st, (N.of_nat cap <= 2 ^ 63)%N -> pol_init rate burst cap = Some st -> ex_rel 0 [] st ex_init.
Proof.
  intros st HC E. unfold pol_init in E. destruct (_ || _); [discriminate|]. injection E as <-. constructor; cbn [ptab buckets ex_init ex_known].
  - apply ts_init; assumption.
  - apply repeat_length.
  - intros i k t V. rewrite talloc_view in V. discriminate.
  - intros i a t _ _ V. rewrite talloc_view in V. discriminate.
Qed.
End PolicerExact.

(** ** Addresses do not share their budgets *)
(** The packets to [a] that are policed. *)
Definition to_addr (wan a : N) (p : pkt) : bool := policed wan p && (ip_dst p =? a)%N.
(** What became of the packets that [f] picks. *)
Fixpoint fates (f : pkt -> bool) (ps : list pkt) (os : list (option N)) : list (option N) :=
  match ps, os with
  | p :: ps', o :: os' => if f p then o :: fates f ps' os' else fates f ps' os'
  | _, _ => []
  end.

Lemma ordered_weaken : forall ps T T', (T' <= T)%N -> ordered T ps -> ordered T' ps.
Proof. intros [|p ps] T T' H O; [exact I|]. destruct O as [O1 O2]. split; [lia|exact O2]. Qed.
Lemma ordered_filter : forall f ps T, ordered T ps -> ordered T (filter f ps).
Proof.
  intros f. induction ps as [|p ps IH]; intros T O; [exact I|]. destruct O as [O1 O2]. cbn [filter]. specialize (IH _ O2).
  destruct (f p); [split; assumption|]. apply (ordered_weaken _ (p_time p)); assumption.
Qed.

Section Apart.
Variables wan rate burst : N.
Variable cap : nat.
Variable who : list N.
Hypothesis Hwho : length who <= cap.
Notation exp := (pol_exp rate burst).
Notation live es now := (ex_live rate burst es now).
Notation step := (ex_step wan rate burst cap).

Definition ex_wf (es : exact) : Prop :=
  NoDup (map fst (ex_known es)) /\ incl (map fst (ex_known es)) (map (le 4) who).

Lemma filter_wf : forall (f : bytes * N -> bool) l, NoDup (map fst l) -> NoDup (map fst (filter f l)).
Proof. intros. apply NoDup_map_filter. assumption. Qed.
Lemma filter_incl : forall (f : bytes * N -> bool) l w, incl (map fst l) w -> incl (map fst (filter f l)) w.
Proof.
  intros f l w H k Hk. apply in_map_iff in Hk as (e & <- & Hin). apply filter_In in Hin as [Hin _]. apply H. apply in_map_iff. eauto.
Qed.

Lemma live_room : forall es now a, ex_wf es -> In a who -> khas (le 4 a) (live es now) = false -> length (live es now) < cap.
Proof.
  intros es now a [D W] Ha K. unfold ex_live in *. apply (filter_wf (kalive exp now)) in D. apply (filter_incl (kalive exp now)) in W.
  set (l := filter _ _) in *. clearbody l.
  assert (N : ~ In (le 4 a) (map fst l)).
  { intros Hin. apply in_map_iff in Hin as ([k t] & E & Hin). cbn in E. subst k.
    assert (khas (le 4 a) l = true) by (apply khas_In; eauto). congruence. }
  assert (Q : length (le 4 a :: map fst l) <= length (map (le 4) who)).
  { apply NoDup_incl_length; [constructor; assumption|]. intros k [<-|Hk]; [apply in_map; exact Ha|apply W; exact Hk]. }
  cbn in Q. rewrite !map_length in Q. lia.
Qed.

Lemma touch_wf : forall k t l, In k (map (le 4) who) -> NoDup (map fst l) -> incl (map fst l) (map (le 4) who) ->
  NoDup (map fst (ktouch k t l)) /\ incl (map fst (ktouch k t l)) (map (le 4) who).
Proof.
  intros k t l Hk D W. unfold ktouch. cbn [map fst]. split.
  - constructor; [|apply filter_wf; exact D]. intros Hin. apply in_map_iff in Hin as ([g u] & E & Hin). cbn in E. subst g.
    apply filter_In in Hin as [_ Hin]. cbn in Hin. rewrite (proj2 (beqb_eq k k) eq_refl) in Hin. discriminate.
  - intros x [<-|Hx]; [exact Hk|]. revert Hx. apply filter_incl. exact W.
Qed.
Lemma step_wf : forall es p, (policed wan p = true -> In (ip_dst p) who) -> ex_wf es -> ex_wf (snd (step es p)).
Proof.
  intros es p Hp [D W]. unfold ex_step, policed in *. destruct (is_ipv4 p); cbn [negb andb] in *; [|split; assumption].
  destruct (p_device p =? wan)%N; [|split; assumption]. cbv zeta.
  assert (K : In (pol_key p) (map (le 4) who)) by (apply (in_map (le 4)); auto).
  pose proof (filter_wf (kalive exp (p_time p)) _ D) as D'. pose proof (filter_incl (kalive exp (p_time p)) _ _ W) as W'.
  change (filter (kalive exp (p_time p)) (ex_known es)) with (live es (p_time p)) in *.
  destruct (khas _ _).
  - destruct (ex_bucket es (ip_dst p)) as [size time]. destruct (_ <=? _)%N; apply touch_wf; assumption.
  - destruct (_ && _); [apply touch_wf; assumption|split; assumption].
Qed.

Lemma khas_touch : forall k k' t now l, khas k (filter (kalive exp now) (ktouch k' t l)) =
  if beqb k k' then kalive exp now (k', t) else khas k (filter (kalive exp now) l).
Proof.
  intros k k' t now l. apply eq_true_iff_eq. rewrite khas_In. destruct (beqb k k') eqn:E.
  - apply beqb_eq in E. subst k'. split.
    + intros [u Hin]. apply filter_In in Hin as [[Q|Hin] A]; [injection Q as <-; exact A|]. apply filter_In in Hin as [_ Hin].
      cbn in Hin. rewrite (proj2 (beqb_eq k k) eq_refl) in Hin. discriminate.
    + intros A. exists t. apply filter_In. split; [left; reflexivity|exact A].
  - rewrite khas_In. assert (Ne : k' <> k) by (intros ->; rewrite (proj2 (beqb_eq k k) eq_refl) in E; discriminate).
    split; intros [u Hin]; exists u; apply filter_In in Hin as [Hin A]; apply filter_In; (split; [|exact A]).
    + destruct Hin as [Q|Hin]; [congruence|]. apply filter_In in Hin. tauto.
    + right. apply filter_In. split; [exact Hin|]. cbn. destruct (beqb k' k) eqn:F; [|reflexivity]. apply beqb_eq in F. contradiction.
Qed.
Lemma khas_later : forall k now t l, (t <= now)%N -> khas k (filter (kalive exp now) (filter (kalive exp t) l)) = khas k (filter (kalive exp now) l).
Proof.
  intros k now t l H. apply eq_true_iff_eq. rewrite !khas_In. split; intros [u Hin]; exists u; rewrite !filter_In in *; [tauto|].
  destruct Hin as [Hin A]. repeat split; try assumption. unfold kalive in *. cbn in *. apply N.leb_le in A. apply N.leb_le. lia.
Qed.

Definition ex_alike (a T : N) (es es' : exact) : Prop :=
  (forall now, (T <= now)%N -> khas (le 4 a) (live es now) = khas (le 4 a) (live es' now)) /\ ex_bucket es a = ex_bucket es' a.

(** A packet to another address changes nothing for [a]. *)
Lemma step_other : forall a es p, (a < 2 ^ 32)%N -> (ip_dst p < 2 ^ 32)%N -> to_addr wan a p = false ->
  ex_alike a (p_time p) (snd (step es p)) es.
Proof.
  intros a es p Ha Hd Hp. unfold to_addr, policed in Hp. unfold ex_step. assert (S : ex_alike a (p_time p) es es) by (split; reflexivity).
  destruct (is_ipv4 p); cbn [negb andb] in *; [|exact S]. destruct (p_device p =? wan)%N; [|exact S]. cbn [andb] in Hp. cbv zeta.
  assert (Ne : beqb (le 4 a) (pol_key p) = false).
  { destruct (beqb (le 4 a) (pol_key p)) eqn:E; [|reflexivity]. apply beqb_eq in E. apply le4_inj in E; [|assumption|assumption].
    subst a. rewrite N.eqb_refl in Hp. discriminate. }
  assert (U : forall b, ex_alike a (p_time p) (mkEx (ktouch (pol_key p) (p_time p) (live es (p_time p))) (put (ex_bucket es) (ip_dst p) b)) es).
  { intros b. split; [|cbn; unfold put; rewrite N.eqb_sym, Hp; reflexivity]. intros now Hn. unfold ex_live at 1. cbn [ex_known].
    rewrite khas_touch, Ne. apply khas_later. exact Hn. }
  destruct (khas _ _).
  - destruct (ex_bucket es (ip_dst p)) as [size time]. destruct (_ <=? _)%N; apply U.
  - destruct (_ && _); [apply U|]. split; [|reflexivity]. intros now Hn. apply khas_later. exact Hn.
Qed.
(** A packet to [a] has the same fate in states that are alike for [a]. *)
Lemma step_same : forall a es es' p, In a who -> to_addr wan a p = true -> ex_wf es -> ex_wf es' -> ex_alike a (p_time p) es es' ->
  fst (step es p) = fst (step es' p) /\ ex_alike a (p_time p) (snd (step es p)) (snd (step es' p)).
Proof.
  intros a es es' p Ha Hp W W' [K B]. unfold to_addr, policed in Hp. apply andb_true_iff in Hp as [Hp Hd]. apply andb_true_iff in Hp as [H1 H2].
  apply N.eqb_eq in Hd. unfold ex_step. rewrite H1, H2. cbn [negb]. cbv zeta. unfold pol_key. rewrite Hd, B.
  assert (U : forall b, ex_alike a (p_time p) (mkEx (ktouch (le 4 a) (p_time p) (live es (p_time p))) (put (ex_bucket es) a b))
                                              (mkEx (ktouch (le 4 a) (p_time p) (live es' (p_time p))) (put (ex_bucket es') a b))).
  { intros b. split; [|cbn; unfold put; rewrite N.eqb_refl; reflexivity]. intros now Hn. unfold ex_live at 1 3. cbn [ex_known].
    rewrite !khas_touch, (proj2 (beqb_eq (le 4 a) (le 4 a)) eq_refl). reflexivity. }
  pose proof (K (p_time p) (N.le_refl _)) as K0. pose proof (live_room es (p_time p) a W Ha) as R. pose proof (live_room es' (p_time p) a W' Ha) as R'.
  rewrite <- K0 in *. destruct (khas (le 4 a) (live es (p_time p))).
  - destruct (ex_bucket es' a) as [size time]. destruct (_ <=? _)%N; (split; [reflexivity|apply U]).
  - rewrite (proj2 (Nat.ltb_lt _ _) (R eq_refl)), (proj2 (Nat.ltb_lt _ _) (R' eq_refl)). destruct (_ <=? _)%N; cbn [andb]; (split; [reflexivity|]).
    + apply U.
    + split; [|exact B]. intros now Hn. unfold ex_live. cbn [snd ex_known]. rewrite !khas_later by exact Hn. apply K. exact Hn.
Qed.

Lemma ex_apart : forall a ps T es es', In a who -> (a < 2 ^ 32)%N -> ordered T ps -> Forall pol_pkt_ok ps ->
  (forall p, In p ps -> policed wan p = true -> In (ip_dst p) who) -> ex_wf es -> ex_wf es' -> ex_alike a T es es' ->
  fates (to_addr wan a) ps (ex_run wan rate burst cap es ps) = ex_run wan rate burst cap es' (filter (to_addr wan a) ps).
Proof.
  intros a. induction ps as [|p ps IH]; intros T es es' Ha Hl O P Hw W W' [K B]; [reflexivity|]. destruct O as [O1 O2]. inversion_clear P as [|? ? [P1 P1'] P2].
  assert (A' : ex_alike a (p_time p) es es') by (split; [intros now Hn; apply K; lia|exact B]).
  assert (Wp : policed wan p = true -> In (ip_dst p) who) by (apply Hw; left; reflexivity).
  cbn [ex_run fates filter]. destruct (to_addr wan a p) eqn:F.
  - destruct (step_same a es es' p Ha F W W' A') as [E A2]. cbn [ex_run]. rewrite E. f_equal.
    apply (IH (p_time p)); try assumption; [intros q Hq; apply Hw; right; exact Hq|apply step_wf; assumption|apply step_wf; assumption].
  - pose proof (step_other a es p Hl P1' F) as [K2 B2]. destruct A' as [K1 B1]. apply (IH (p_time p)); try assumption.
    + intros q Hq. apply Hw. right. exact Hq.
    + apply step_wf; assumption.
    + split; [|congruence]. intros now Hn. rewrite K2 by exact Hn. apply K1. exact Hn.
Qed.
End Apart.

(** ** Traffic that keeps to its budget *)
Fixpoint lens (ps : list pkt) : N := match ps with [] => 0%N | p :: ps' => (p_length p + lens ps')%N end.
(** In every interval between two packets, and at each packet, fewer bytes than the burst and what has come in since. *)
Definition conforms (rate burst : N) (qs : list pkt) : Prop :=
  (forall p, In p qs -> (p_length p < burst)%N) /\
  (forall x p y q z, qs = x ++ p :: y ++ q :: z -> (lens (p :: y ++ [q]) < burst + rate * (p_time q - p_time p))%N).

Lemma lens_app : forall a b, lens (a ++ b) = (lens a + lens b)%N.
Proof. induction a as [|p a IH]; intros b; cbn; [reflexivity|]. rewrite IH. lia. Qed.
Lemma lens_rev : forall a, lens (rev a) = lens a.
Proof. induction a as [|p a IH]; cbn; [reflexivity|]. rewrite lens_app, IH. cbn. lia. Qed.

Section Conforming.
Variables wan rate burst : N.
Variable cap : nat.
Hypothesis Hcap : 0 < cap.
Variable a : N.

Lemma conforming : forall qs h T es, ordered T qs -> (forall q, In q qs -> to_addr wan a q = true) -> conforms rate burst (rev h ++ qs) ->
  ex_wf [a] es ->
  match h with
  | [] => ex_known es = []
  | q0 :: _ => p_time q0 = T /\ exists size, ex_bucket es a = (size, T) /\
      exists l1 p l2, h = l1 ++ p :: l2 /\ (p_time p <= T)%N /\ (burst + rate * (T - p_time p) <= size + lens (l1 ++ [p]))%N
  end ->
  Forall (fun o => o = Some (1 - wan)%N) (ex_run wan rate burst cap es qs).
Proof.
  induction qs as [|q qs IH]; intros h T es O Hq C W I; [constructor|]. destruct O as [O1 O2].
  assert (Tq : to_addr wan a q = true) by (apply Hq; left; reflexivity).
  assert (Len : (p_length q < burst)%N) by (apply (proj1 C); apply in_app_iff; right; left; reflexivity).
  assert (W2 : ex_wf [a] (snd (ex_step wan rate burst cap es q))).
  { apply step_wf; [|exact W]. intros _. left. unfold to_addr in Tq. apply andb_true_iff in Tq as [_ Tq]. apply N.eqb_eq in Tq. auto. }
  unfold to_addr, policed in Tq. apply andb_true_iff in Tq as [Tq Td]. apply andb_true_iff in Tq as [T1 T2]. apply N.eqb_eq in Td.
  assert (Goal : forall l1 p l2 s, q :: h = l1 ++ p :: l2 -> (p_time p <= p_time q)%N -> (burst + rate * (p_time q - p_time p) <= s + lens (l1 ++ [p]))%N ->
    ex_bucket (snd (ex_step wan rate burst cap es q)) a = (s, p_time q) -> fst (ex_step wan rate burst cap es q) = Some (1 - wan)%N ->
    Forall (fun o => o = Some (1 - wan)%N) (ex_run wan rate burst cap es (q :: qs))).
  { intros l1 p l2 s E1 E2 E3 E4 E5. cbn [ex_run]. constructor; [exact E5|]. apply (IH (q :: h) (p_time q)); try assumption.
    - intros r Hr. apply Hq. right. exact Hr.
    - cbn [rev]. rewrite <- app_assoc. exact C.
    - split; [reflexivity|]. exists s. split; [exact E4|]. exists l1, p, l2. auto. }
  clear IH W2. unfold ex_step in Goal at 1 2. rewrite T1, T2 in Goal. cbn [negb] in Goal. cbv zeta in Goal.
  pose proof (live_room rate burst cap [a] Hcap es (p_time q) a W (or_introl eq_refl)) as Room. unfold pol_key in Goal. rewrite Td in Goal. apply N.eqb_eq in T2.
  destruct (khas (le 4 a) (ex_live rate burst es (p_time q))) eqn:K.
  - destruct h as [|q0 h]; [unfold ex_live in K; rewrite I in K; discriminate|]. destruct I as (Q0 & size & Eb & l1 & p & l2 & Eh & Ep & El).
    rewrite Eb in Goal. unfold ex_refill in Goal.
    assert (Hc : (lens (p :: rev l1 ++ [q]) < burst + rate * (p_time q - p_time p))%N).
    { apply (proj2 C (rev l2) p (rev l1) q qs). rewrite Eh, rev_app_distr. cbn [rev]. rewrite <- !app_assoc. reflexivity. }
    cbn [lens] in Hc. rewrite !lens_app, lens_rev in Hc. rewrite lens_app in El. cbn [lens] in Hc, El. rewrite N.add_0_r in *.
    assert (Sp : (rate * (p_time q - p_time p) = rate * (T - p_time p) + (p_time q - T) * rate)%N).
    { rewrite (N.mul_comm (p_time q - T)), <- N.mul_add_distr_l. f_equal. lia. }
    assert (Full : forall s, s = burst -> (s <=? p_length q)%N = false /\ (burst + rate * (p_time q - p_time q) <= s - p_length q + lens ([] ++ [q]))%N).
    { intros s ->. split; [apply N.leb_gt; exact Len|]. rewrite N.sub_diag, N.mul_0_r. cbn. lia. }
    destruct (N.ltb_spec (p_time q - T) (burst / rate)) as [Df|Df].
    + destruct (N.le_gt_cases burst (size + (p_time q - T) * rate)) as [M|M].
      * rewrite N.min_l in Goal by exact M. destruct (Full burst eq_refl) as [F1 F2]. rewrite F1 in Goal.
        apply (Goal [] q (q0 :: h) _ eq_refl (N.le_refl _) F2); cbn [snd fst ex_bucket]; [unfold put; rewrite N.eqb_refl; reflexivity|congruence].
      * rewrite N.min_r in Goal by lia. assert (F1 : (size + (p_time q - T) * rate <=? p_length q)%N = false) by (apply N.leb_gt; lia). rewrite F1 in Goal. apply N.leb_gt in F1.
        apply (Goal (q :: l1) p l2 (size + (p_time q - T) * rate - p_length q)%N); cbn [snd fst ex_bucket]; [rewrite Eh; reflexivity|lia| |unfold put; rewrite N.eqb_refl; reflexivity|congruence].
        cbn [app lens]. rewrite lens_app. cbn [lens]. lia.
    + destruct (Full burst eq_refl) as [F1 F2]. rewrite F1 in Goal.
      apply (Goal [] q (q0 :: h) _ eq_refl (N.le_refl _) F2); cbn [snd fst ex_bucket]; [unfold put; rewrite N.eqb_refl; reflexivity|congruence].
  - rewrite (proj2 (N.leb_le _ _) (N.lt_le_incl _ _ Len)), (proj2 (Nat.ltb_lt _ _) (Room eq_refl)) in Goal. cbn [andb] in Goal.
    apply (Goal [] q h (burst - p_length q)%N eq_refl (N.le_refl _)); cbn [snd fst ex_bucket]; [|unfold put; rewrite N.eqb_refl; reflexivity|congruence].
    rewrite N.sub_diag, N.mul_0_r. cbn. lia.
Qed.
End Conforming.

(** ** What drops are for *)
(** The bytes of the packets that went out. *)
Fixpoint went (l : list (pkt * option N)) : N :=
  match l with [] => 0%N | (p, o) :: l' => ((match o with Some _ => p_length p | None => 0 end) + went l')%N end.
Lemma went_app : forall a b, went (a ++ b) = (went a + went b)%N.
Proof. induction a as [|[p o] a IH]; intros b; cbn; [reflexivity|]. rewrite IH. lia. Qed.
Lemma went_rev : forall a, went (rev a) = went a.
Proof. induction a as [|[p o] a IH]; cbn; [reflexivity|]. rewrite went_app, IH. cbn. lia. Qed.

(** They are those of the packets with a device to go out of. *)
Lemma went_lens : forall l, went l = lens (map fst (filter (fun e => match snd e with Some _ => true | None => false end) l)).
Proof. induction l as [|[p [o|]] l IH]; cbn; [reflexivity|rewrite IH; reflexivity|exact IH]. Qed.

Section Justified.
Variables wan rate burst : N.
Variable cap : nat.
Hypothesis Hcap : 0 < cap.
Variable a : N.

(** The bucket has at least the burst and what has come in since some packet that went out, less what has gone out since; latest first. *)
Definition accounted (h : list (pkt * option N)) (T : N) (es : exact) : Prop :=
  match h with
  | [] => ex_known es = []
  | _ => exists size, ex_bucket es a = (size, T) /\
      exists l1 p o l2, h = l1 ++ (p, Some o) :: l2 /\ (p_time p <= T)%N /\ (burst + rate * (T - p_time p) <= size + went (l1 ++ [(p, Some o)]))%N
  end.

Lemma accounted_step : forall h T es q, (T <= p_time q)%N -> to_addr wan a q = true -> (p_length q < burst)%N -> ex_wf [a] es -> accounted h T es ->
  let (o, es') := ex_step wan rate burst cap es q in
  accounted ((q, o) :: h) (p_time q) es' /\
  (o = None -> exists l1 p o' l2, h = l1 ++ (p, Some o') :: l2 /\ (burst + rate * (p_time q - p_time p) <= went (l1 ++ [(p, Some o')]) + p_length q)%N).
Proof.
  intros h T es q O1 Tq Len W I. unfold to_addr, policed in Tq. apply andb_true_iff in Tq as [Tq Td]. apply andb_true_iff in Tq as [T1 T2]. apply N.eqb_eq in Td.
  unfold ex_step. rewrite T1, T2. cbn [negb]. cbv zeta.
  pose proof (live_room rate burst cap [a] Hcap es (p_time q) a W (or_introl eq_refl)) as Room. unfold pol_key. rewrite Td.
  assert (New : forall k, accounted ((q, Some (1 - p_device q)%N) :: h) (p_time q) (mkEx k (put (ex_bucket es) a (burst - p_length q, p_time q)%N))).
  { intros k. cbn [accounted]. exists (burst - p_length q)%N. split; [cbn; unfold put; rewrite N.eqb_refl; reflexivity|].
    exists [], q, (1 - p_device q)%N, h. split; [reflexivity|]. split; [apply N.le_refl|]. rewrite N.sub_diag, N.mul_0_r. cbn. lia. }
  destruct (khas (le 4 a) (ex_live rate burst es (p_time q))) eqn:K.
  - destruct h as [|q0 h]; [unfold ex_live in K; cbn in I; rewrite I in K; discriminate|]. destruct I as (size & Eb & l1 & p & o & l2 & Eh & Ep & El).
    rewrite Eb. assert (F1 : (burst <=? p_length q)%N = false) by (apply N.leb_gt; exact Len).
    assert (Sp : (rate * (p_time q - p_time p) = rate * (T - p_time p) + (p_time q - T) * rate)%N).
    { rewrite (N.mul_comm (p_time q - T)), <- N.mul_add_distr_l. f_equal. lia. }
    unfold ex_refill. destruct (N.ltb_spec (p_time q - T) (burst / rate)) as [Df|Df]; [|rewrite F1; split; [apply New|discriminate]].
    destruct (N.le_gt_cases burst (size + (p_time q - T) * rate)) as [M|M]; [rewrite N.min_l by exact M; rewrite F1; split; [apply New|discriminate]|].
    rewrite N.min_r by lia. destruct (N.leb_spec (size + (p_time q - T) * rate) (p_length q)) as [F2|F2].
    + split; [|intros _; exists l1, p, o, l2; split; [exact Eh|lia]]. cbn [accounted]. eexists. split; [cbn; unfold put; rewrite N.eqb_refl; reflexivity|].
      exists ((q, None) :: l1), p, o, l2. split; [rewrite Eh; reflexivity|]. split; [lia|]. cbn [app went]. lia.
    + split; [|discriminate]. cbn [accounted]. eexists. split; [cbn; unfold put; rewrite N.eqb_refl; reflexivity|].
      exists ((q, Some (1 - p_device q)%N) :: l1), p, o, l2. split; [rewrite Eh; reflexivity|]. split; [lia|]. cbn [app went]. lia.
  - rewrite (proj2 (N.leb_le _ _) (N.lt_le_incl _ _ Len)), (proj2 (Nat.ltb_lt _ _) (Room eq_refl)). cbn [andb]. split; [apply New|discriminate].
Qed.

Lemma justified : forall qs h T es, ordered T qs -> (forall q, In q qs -> to_addr wan a q = true /\ (p_length q < burst)%N) -> ex_wf [a] es -> accounted h T es ->
  forall x q z, combine qs (ex_run wan rate burst cap es qs) = x ++ (q, None) :: z ->
  exists l1 p o l2, rev x ++ h = l1 ++ (p, Some o) :: l2 /\ (burst + rate * (p_time q - p_time p) <= went (l1 ++ [(p, Some o)]) + p_length q)%N.
Proof.
  induction qs as [|q0 qs IH]; intros h T es O Hq W I x q z E; [destruct x; discriminate|]. destruct O as [O1 O2].
  destruct (Hq q0 (or_introl eq_refl)) as [Tq Len]. pose proof (accounted_step h T es q0 O1 Tq Len W I) as S.
  assert (W2 : ex_wf [a] (snd (ex_step wan rate burst cap es q0))).
  { apply step_wf; [|exact W]. intros _. left. unfold to_addr in Tq. apply andb_true_iff in Tq as [_ Tq]. apply N.eqb_eq in Tq. auto. }
  cbn [ex_run combine] in E. destruct (ex_step wan rate burst cap es q0) as [o es']. cbn [fst snd] in *. destruct S as [S1 S2].
  destruct x as [|[q1 o1] x]; cbn [app] in E; injection E as E1 E2 E3.
  - subst q0 o. cbn [rev app]. apply S2. reflexivity.
  - subst q1 o1. cbn [rev]. rewrite <- app_assoc. apply (IH ((q0, o) :: h) (p_time q0) es' O2) with (z := z); try assumption.
    intros r Hr. apply Hq. right. exact Hr.
Qed.
End Justified.
