(** * On the C structures, the programs are the network functions *)

From Coq Require Import NArith List Bool Lia Arith.
From Verif Require Import IndexPool HashMap Table Cht Contracts Firewall Packet NatNF Policer Bridge Maglev.
From Verif Require Import NfProg NfTable NfSafe.
Import ListNotations.
Open Scope nat_scope.

Definition tab (x : impl) : table := mkTab (x_keys x) (x_map x) (x_pool x Flows).
Definition kept (x x' : impl) : Prop := x_dat x' = x_dat x /\ x_pool x' Backends = x_pool x Backends.
Lemma map_set_nth : forall A B (g : A -> B) l i a, map g (set_nth l i a) = set_nth (map g l) i (g a).
Proof. induction l as [|x l IH]; intros [|i] a; cbn; [reflexivity|reflexivity|reflexivity|]. f_equal. apply IH. Qed.
Lemma nth_map_cell : forall A (g : A -> list N) l i d e, g d = e -> i < length l -> nth i (map g l) [] = g (nth i l d).
Proof. intros A g l i d e E Hi. rewrite (nth_indep _ [] (g d)) by (rewrite map_length; exact Hi). apply map_nth. Qed.

Section Link.
Variable hash : bytes -> N.
Variable ksize : nat.
Variables base loc : N.
Variable find : bytes -> pool -> N -> option nat.
Local Notation run := (run_c hash ksize base loc find).

Lemma run_bind : forall A B (p : nprog A) (f : A -> nprog B) x, run (nbind p f) x = let (a, x') := run p x in run (f a) x'.
Proof.
  induction p; intros g x; cbn [nbind run_c]; auto. destruct (pool_step (x_pool x w) o) as [pl out]. auto.
Qed.
Lemma put_c : forall t k x, x_local x = k -> tfind hash ksize base loc (tab x) k = None ->
  let (r, x') := run (put_prog t k) x in tlearn hash ksize base loc (tab x) t k = (r, tab x') /\ kept x x' /\ x_local x' = k.
Proof.
  intros t k x EL E. unfold tlearn. rewrite E. unfold put_prog. cbn [run_c pool_step tab tpool]. destruct (pool_borrow (x_pool x Flows) t) as [[[i u]|] pl].
  - destruct u; cbn [run_c x_keys x_local x_map x_pool x_dat wset]; rewrite EL; (split; [reflexivity|]; split; [split; reflexivity|reflexivity]).
  - cbn [run_c]. split; [reflexivity|]. split; [split; reflexivity|exact EL].
Qed.
Lemma learn_c : forall t k x,
  let (r, x') := run (learn_prog t k) x in tlearn hash ksize base loc (tab x) t k = (r, tab x') /\ kept x x' /\ x_local x' = k.
Proof.
  intros t k x. unfold learn_prog. cbn [run_c x_keys x_map].
  destruct (option_map N.to_nat (map_get hash (memory ksize base loc (x_keys x) k) (x_map x) loc)) as [i|] eqn:E.
  - cbn [run_c pool_step]. unfold tlearn. change (tfind hash ksize base loc (tab x) k) with (option_map N.to_nat (map_get hash (memory ksize base loc (x_keys x) k) (x_map x) loc)).
    rewrite E. split; [reflexivity|]. split; [split; reflexivity|reflexivity].
  - pose proof (put_c t k (mkI (x_keys x) k (x_map x) (x_pool x) (x_dat x)) eq_refl E) as P.
    destruct (run (put_prog t k) (mkI (x_keys x) k (x_map x) (x_pool x) (x_dat x))) as [r x']. exact P.
Qed.
Lemma tfind_tab : forall x k, tfind hash ksize base loc (tab x) k = option_map N.to_nat (map_get hash (memory ksize base loc (x_keys x) k) (x_map x) loc).
Proof. reflexivity. Qed.
End Link.

Section Functions.
Variable hash : bytes -> N.
Variables base loc : N.
Variable find : bytes -> pool -> N -> option nat.

Lemma fw_c : forall ext p x, let (o, x') := run_c hash FLOW_SIZE base loc find (fw_prog ext p) x in fw_handle hash base loc ext (tab x) p = (o, tab x').
Proof.
  intros ext p x. unfold fw_prog, fw_handle. cbv zeta. destruct (negb _); [reflexivity|]. destruct (p_device p =? ext)%N.
  - cbn [run_c x_keys x_map]. unfold has_external. rewrite tfind_tab. destruct (option_map N.to_nat _) as [i|]; [|reflexivity].
    cbn [run_c pool_step x_pool]. change (tpool (tab x)) with (x_pool x Flows). destruct (pool_used (x_pool x Flows) (p_time p) i); reflexivity.
  - rewrite run_bind. pose proof (learn_c hash FLOW_SIZE base loc find (p_time p) (flow_bytes (pkt_flow p)) x) as LC.
    destruct (run_c _ _ _ _ _ (learn_prog _ _) x) as [r x']. destruct LC as [E _]. rewrite E. reflexivity.
Qed.
Lemma fw_run_c : forall ext ps x, let (os, x') := run_c hash FLOW_SIZE base loc find (nrun (fw_prog ext) ps) x in fw_run hash base loc ext (tab x) ps = (os, tab x').
Proof.
  induction ps as [|p ps IH]; intros x; cbn [nrun run_c fw_run]; [reflexivity|]. rewrite run_bind. pose proof (fw_c ext p x) as C. destruct (run_c _ _ _ _ _ (fw_prog ext p) x) as [o x1]. rewrite C.
  rewrite run_bind. specialize (IH x1). destruct (run_c _ _ _ _ _ (nrun _ ps) x1) as [os x2]. rewrite IH. reflexivity.
Qed.
Lemma nat_c : forall wan ea sp r x, let (o, x') := run_c hash FLOW_SIZE base loc find (nat_prog wan ea sp r) x in nat_handle hash base loc wan ea sp (tab x) r = (o, tab x').
Proof.
  intros wan ea sp r x. unfold nat_prog, nat_handle. cbv zeta. destruct (negb (is_ipv4 _ && _)); [reflexivity|]. destruct (p_device (parse r) =? wan)%N.
  - cbn [run_c pool_step]. change (tpool (tab x)) with (x_pool x Flows). destruct (pool_used (x_pool x Flows) _ _); cbn [negb]; [|reflexivity].
    cbn [run_c pool_step x_pool x_keys wset]. change (keys (tab x)) with (x_keys x). destruct (_ || _); reflexivity.
  - rewrite run_bind. pose proof (learn_c hash FLOW_SIZE base loc find (p_time (parse r)) (flow_bytes (pkt_flow (parse r))) x) as LC.
    destruct (run_c _ _ _ _ _ (learn_prog _ _) x) as [i x']. destruct LC as [E _]. rewrite E. destruct i; reflexivity.
Qed.

Definition pol_of (x : impl) (st : pol) : Prop := ptab st = tab x /\ x_dat x = map (fun b => [fst b; snd b]) (buckets st).
Lemma pol_c : forall wan rate burst p x st, pol_of x st -> (forall i, tfind hash ADDR_SIZE base loc (tab x) (pol_key p) = Some i -> i < length (buckets st)) ->
  let (o, x') := run_c hash ADDR_SIZE base loc find (pol_prog wan rate burst p) x in
  exists st', pol_handle hash base loc wan rate burst st p = (o, st') /\ pol_of x' st' /\ length (buckets st') = length (buckets st).
Proof.
  intros wan rate burst p x st (ET & ED) Hb. unfold pol_prog, pol_handle. cbv zeta. rewrite ET. destruct (negb _); [exists st; auto; split; [reflexivity|]; split; [split; assumption|reflexivity]|].
  destruct (p_device p =? wan)%N; [|exists st; split; [reflexivity|]; split; [split; assumption|reflexivity]].
  cbn [run_c x_keys x_map]. rewrite tfind_tab in *. destruct (option_map N.to_nat _) as [i|] eqn:E.
  - specialize (Hb i eq_refl). cbn [run_c pool_step x_dat]. rewrite ED. rewrite (nth_map_cell _ _ _ i (0, 0)%N [0; 0]%N eq_refl Hb). cbn [nth].
    destruct (nth i (buckets st) (0, 0)%N) as [size time]. cbn [fst snd]. destruct (p_length p <? _)%N; cbn [run_c];
      (eexists; split; [reflexivity|]; split; [|cbn [buckets]; apply set_nth_length]; split; [reflexivity|]; cbn [x_dat buckets]; rewrite map_set_nth; reflexivity).
  - destruct (burst <? p_length p)%N; [exists st; split; [reflexivity|]; split; [split; assumption|reflexivity]|]. rewrite run_bind.
    pose proof (put_c hash ADDR_SIZE base loc find (p_time p) (pol_key p) (mkI (x_keys x) (pol_key p) (x_map x) (x_pool x) (x_dat x)) eq_refl E) as P.
    destruct (run_c _ _ _ _ _ (put_prog _ _) _) as [r x']. destruct P as (P1 & (P2 & _) & _).
    change (tab {| x_keys := x_keys x; x_local := pol_key p; x_map := x_map x; x_pool := x_pool x; x_dat := x_dat x |}) with (tab x) in P1. rewrite P1. cbn [x_dat] in P2.
    destruct r as [i|]; cbn [run_c]; (eexists; split; [reflexivity|]; split; [|cbn [buckets]; rewrite ?set_nth_length; reflexivity]; split; [reflexivity|]; cbn [x_dat buckets]; rewrite P2, ED, ?map_set_nth; reflexivity).
Qed.

Definition br_of (x : impl) (b : bridge) : Prop := btab b = tab x /\ x_dat x = map (fun d => [d]) (bdevs b).
Lemma br_c : forall n r b x s', stp_handle n (bstp b) r = (None, s') -> br_of x b ->
  (forall i, tfind hash MAC_SIZE base loc (tab (snd (run_c hash MAC_SIZE base loc find (learn_prog (r_time r) (mac (src_mac r))) x))) (mac (dst_mac r)) = Some i -> i < length (bdevs b)) ->
  (forall i, tfind hash MAC_SIZE base loc (tab x) (mac (dst_mac r)) = Some i -> i < length (bdevs b)) ->
  let (o, x') := run_c hash MAC_SIZE base loc find (br_prog n (r, is_disabled s')) x in
  exists b', br_handle hash base loc n b r = (o, b') /\ br_of x' b' /\ length (bdevs b') = length (bdevs b).
Proof.
  intros n r b x s' ES (ET & ED) Hb1 Hb0. unfold br_handle. rewrite ES. unfold br_prog. cbn [fst snd]. cbv zeta.
  assert (FW : forall x1 b1, br_of x1 b1 -> bstp b1 = s' -> (forall i, tfind hash MAC_SIZE base loc (tab x1) (mac (dst_mac r)) = Some i -> i < length (bdevs b1)) ->
    let (o, x') := run_c hash MAC_SIZE base loc find (NGet (mac (dst_mac r)) (fun f =>
      match f with
      | Some index => NLoad index (fun d => let d := nth 0 d 0%N in
          if negb (d =? r_device r)%N then NSend d (NRet [d]) else NRet [])
      | None => NRet (net_flood_except n (r_device r) (is_disabled s'))
      end)) x1 in o = br_forward hash base loc n b1 r /\ br_of x' b1).
  { intros x1 b1 (ET1 & ED1) EB Hl. cbn [run_c x_keys x_map]. unfold br_forward. rewrite ET1, tfind_tab. rewrite tfind_tab in Hl.
    destruct (option_map N.to_nat _) as [i|]; [|rewrite EB; split; [reflexivity|exact (conj ET1 ED1)]].
    cbn [run_c x_dat]. rewrite ED1. rewrite (nth_map_cell _ _ _ i 0%N [0%N] eq_refl (Hl i eq_refl)). cbn [nth].
    destruct (negb _); cbn [run_c]; (split; [reflexivity|split; [exact ET1|reflexivity]]). }
  unfold br_learn. cbn [btab bdevs bstp]. destruct (negb (N.odd (src_mac r))).
  - rewrite run_bind. pose proof (learn_c hash MAC_SIZE base loc find (r_time r) (mac (src_mac r)) x) as LC. rewrite ET.
    destruct (run_c _ _ _ _ _ (learn_prog _ _) x) as [i x1]. cbn [snd] in Hb1. destruct LC as (E & (K & _) & _). rewrite E. destruct i as [i|].
    + cbn [run_c]. specialize (FW (mkI (x_keys x1) (x_local x1) (x_map x1) (x_pool x1) (set_nth (x_dat x1) i [r_device r])) (mkBr (tab x1) (set_nth (bdevs b) i (r_device r)) s')).
      match type of FW with ?A -> ?B -> ?C -> _ => assert (A1 : A); [split; [reflexivity|cbn [x_dat bdevs]; rewrite K, ED, map_set_nth; reflexivity]|specialize (FW A1 eq_refl); assert (A2 : C); [intros j; cbn [bdevs]; rewrite set_nth_length; apply Hb1|specialize (FW A2)]] end.
      cbn [run_c] in FW. match type of FW with let (_, _) := ?e in _ => destruct e as [o x'] end. destruct FW as [-> FB]. eexists. split; [reflexivity|]. split; [exact FB|]. cbn [bdevs]. apply set_nth_length.
    + specialize (FW x1 (mkBr (tab x1) (bdevs b) s')).
      match type of FW with ?A -> ?B -> ?C -> _ => assert (A1 : A); [split; [reflexivity|cbn [x_dat bdevs]; rewrite K, ED; reflexivity]|specialize (FW A1 eq_refl Hb1)] end.
      cbn [run_c] in FW. cbn [run_c]. match type of FW with let (_, _) := ?e in _ => destruct e as [o x'] end. destruct FW as [-> FB]. eexists. split; [reflexivity|]. split; [exact FB|]. reflexivity.
  - specialize (FW x (mkBr (btab b) (bdevs b) s') (conj ET ED) eq_refl Hb0). match type of FW with let (_, _) := ?e in _ => destruct e as [o x'] end. destruct FW as [-> FB].
    eexists. split; [reflexivity|]. split; [exact FB|]. reflexivity.
Qed.
Fixpoint nat_outs (wan ea sp : N) (tb : table) (rs : list rpkt) : list (option (N * data)) :=
  match rs with [] => [] | r :: rs => let (o, tb') := nat_handle hash base loc wan ea sp tb r in o :: nat_outs wan ea sp tb' rs end.
Lemma nat_run_c : forall wan ea sp rs x, fst (run_c hash FLOW_SIZE base loc find (nrun (nat_prog wan ea sp) rs) x) = nat_outs wan ea sp (tab x) rs.
Proof.
  induction rs as [|r rs IH]; intros x; cbn [nrun run_c nat_outs]; [reflexivity|]. rewrite run_bind. pose proof (nat_c wan ea sp r x) as C. destruct (run_c _ _ _ _ _ (nat_prog wan ea sp r) x) as [o x1]. rewrite C.
  rewrite run_bind. specialize (IH x1). destruct (run_c _ _ _ _ _ (nrun _ rs) x1) as [os x2]. cbn [run_c fst] in *. rewrite IH. reflexivity.
Qed.
End Functions.

(** Whole runs, with the contracts' state beside. *)
Section Runs.
Variable hash : bytes -> N.
Variables base loc : N.
Lemma tfind_vals : forall z st x k, layout_ok (z_key z) base loc (z_cap z) -> agrees z hash base loc st x -> length k = z_key z ->
  tfind hash (z_key z) base loc (tab x) k = vals st k.
Proof. intros z st x k L Ag HK. rewrite tfind_tab. apply (agrees_get z hash base loc L _ _ _ Ag HK). Qed.
Lemma found_lt : forall z st x k i, layout_ok (z_key z) base loc (z_cap z) -> agrees z hash base loc st x -> cinv z st -> length k = z_key z ->
  tfind hash (z_key z) base loc (tab x) k = Some i -> i < z_cap z.
Proof.
  intros z st x k i L Ag I HK E. rewrite (tfind_vals z st x k L Ag HK) in E. destruct (get_view z st k i I E) as (t & Et & _). exact (ci_out _ _ I _ _ Et).
Qed.
(** No lookups of backends: for the functions that have none. *)
Definition no_find : bytes -> pool -> N -> option nat := fun _ _ _ => None.

Lemma pol_run_c : forall cap exp wan rate burst, layout_ok ADDR_SIZE base loc cap -> forall ps x st cst,
  agrees (pol_sizes cap exp) hash base loc cst x -> cinv (pol_sizes cap exp) cst -> Forall ptime_ok ps -> pol_of x st -> length (buckets st) = cap ->
  fst (run_c hash ADDR_SIZE base loc no_find (nrun (pol_prog wan rate burst) ps) x) = fst (pol_run hash base loc wan rate burst st ps).
Proof.
  intros cap exp wan rate burst L. induction ps as [|p ps IH]; intros x st cst Ag I Hp Po Hl; cbn [nrun run_c pol_run]; [reflexivity|]. inversion Hp as [|? ? H1 H2]; subst.
  rewrite run_bind. pose proof (pol_c hash base loc no_find wan rate burst p x st Po) as C.
  assert (B : forall i, tfind hash ADDR_SIZE base loc (tab x) (pol_key p) = Some i -> i < length (buckets st)).
  { intros i E. apply (found_lt (pol_sizes (length (buckets st)) exp) cst x (pol_key p) i); [exact L|exact Ag|exact I|unfold pol_key; apply le_length|exact E]. }
  specialize (C B).
  assert (F : forall k p t b, pool_wf (length (buckets st)) p -> no_find k p t = Some b -> b < 0 /\ pool_abs p b <> None) by discriminate.
  pose proof (run_ok (pol_sizes (length (buckets st)) exp) hash base loc no_find L F _ _ _ _ _ Ag (pol_step_ok _ exp wan rate burst cst p I H1)) as RO. cbn [z_key pol_sizes] in RO.
  destruct (run_c _ _ _ _ _ (pol_prog _ _ _ p) x) as [o x1]. destruct C as (st' & E & Po' & Hl'). destruct RO as (cst' & Ag' & I'). rewrite E.
  rewrite run_bind. specialize (IH x1 st' cst' Ag' I' H2 Po' Hl'). destruct (run_c _ _ _ _ _ (nrun _ ps) x1) as [os x2]. cbn [run_c fst] in *. rewrite IH.
  destruct (pol_run _ _ _ _ _ _ st' ps). reflexivity.
Qed.

(** bridge.c 38-74: the spanning tree, then the program. *)
Fixpoint br_whole (n : nat) (s : stp) (rs : list rpkt) : nprog (list (list N)) :=
  match rs with
  | [] => NRet []
  | r :: rs =>
      match stp_handle n s r with
      | (Some (ds, _), s') => nbind (br_whole n s' rs) (fun l => NRet (ds :: l))
      | (None, s') => nbind (br_prog n (r, is_disabled s')) (fun ds => nbind (br_whole n s' rs) (fun l => NRet (ds :: l)))
      end
  end.
Lemma br_whole_ok : forall cap n exp rs s st, 0 < n -> Forall (fun r => (r_device r < N.of_nat n)%N /\ (r_time r < TIME_MAX)%N) rs -> br_cinv cap n exp st ->
  ok (br_sizes cap n exp) (br_whole n s rs) st (fun _ st' => br_cinv cap n exp st').
Proof.
  intros cap n exp rs s st Hn. revert s st. induction rs as [|r rs IH]; intros s st Hr I; cbn [br_whole]; [exact I|]. inversion Hr as [|? ? H1 H2]; subst.
  destruct (stp_handle n s r) as [[[ds ?]|] s'].
  - apply ok_bind. eapply ok_mono; [|exact (IH s' st H2 I)]. intros l st' H. exact H.
  - apply ok_bind. eapply ok_mono; [|exact (br_step_ok cap n exp st (r, is_disabled s') I H1)]. intros ds st' I'. apply ok_bind. eapply ok_mono; [|exact (IH s' st' H2 I')]. intros l st'' H. exact H.
Qed.
Fixpoint br_outs (n : nat) (b : bridge) (rs : list rpkt) : list (list N) :=
  match rs with [] => [] | r :: rs => let (ds, b') := br_handle hash base loc n b r in ds :: br_outs n b' rs end.
Lemma br_run_c : forall cap n exp, layout_ok MAC_SIZE base loc cap -> 0 < n -> forall rs x b cst,
  agrees (br_sizes cap n exp) hash base loc cst x -> br_cinv cap n exp cst -> Forall (fun r => (r_device r < N.of_nat n)%N /\ (r_time r < TIME_MAX)%N) rs -> br_of x b -> length (bdevs b) = cap ->
  fst (run_c hash MAC_SIZE base loc no_find (br_whole n (bstp b) rs) x) = br_outs n b rs.
Proof.
  intros cap n exp L Hn. induction rs as [|r rs IH]; intros x b cst Ag I Hp Bo Hl; cbn [br_whole br_outs]; [reflexivity|]. inversion Hp as [|? ? H1 H2]; subst.
  destruct (stp_handle n (bstp b) r) as [[[ds u]|] s'] eqn:ES.
  - rewrite run_bind. unfold br_handle. rewrite ES. specialize (IH x (mkBr (btab b) (bdevs b) s') cst Ag I H2 Bo eq_refl). cbn [bstp] in IH.
    destruct (run_c _ _ _ _ _ (br_whole n s' rs) x) as [os x2]. cbn [run_c fst] in *. rewrite IH. reflexivity.
  - set (z := br_sizes (length (bdevs b)) n exp) in *.
    assert (F : forall k p t b', pool_wf (z_pool z Backends) p -> no_find k p t = Some b' -> b' < z_backends z /\ pool_abs p b' <> None) by discriminate.
    rewrite run_bind. pose proof (br_c hash base loc no_find n r b x s' ES Bo) as C.
    assert (LO : ok z (learn_prog (r_time r) (mac (src_mac r))) cst (fun _ st' => cinv z st')).
    { apply (learn_ok' z); [reflexivity|exact (proj1 I)|unfold mac; apply le_length|exact (proj2 H1)| |]; intros; assumption. }
    pose proof (run_ok z hash base loc no_find L F _ _ _ _ _ Ag LO) as RL. change (z_key z) with MAC_SIZE in RL.
    match type of C with ?A -> ?B -> _ => assert (B1 : A); [|assert (B2 : B); [|specialize (C B1 B2)]] end.
    { intros i E. destruct (run_c _ _ _ _ _ (learn_prog _ _) x) as [o1 x1]. destruct RL as (c1 & A1 & I1). cbn [snd] in E. exact (found_lt z c1 x1 _ i L A1 I1 (le_length 6 _) E). }
    { intros i E. exact (found_lt z cst x _ i L Ag (proj1 I) (le_length 6 _) E). }
    pose proof (run_ok z hash base loc no_find L F _ _ _ _ _ Ag (br_step_ok _ n exp cst (r, is_disabled s') I H1)) as RO. change (z_key z) with MAC_SIZE in RO.
    destruct (run_c _ _ _ _ _ (br_prog _ _) x) as [o x1]. destruct C as (b' & E & Bo' & Hl'). destruct RO as (cst' & Ag' & I'). rewrite E.
    rewrite run_bind. specialize (IH x1 b' cst'). rewrite Hl' in IH. specialize (IH Ag' I' H2 Bo' eq_refl).
    assert (ESb : bstp b' = s').
    { unfold br_handle in E. rewrite ES in E. injection E as _ <-. unfold br_learn. destruct (negb _); [|reflexivity]. cbn [btab bdevs bstp]. destruct (tlearn _ _ _ _ _ _ _) as [[?|] ?]; reflexivity. }
    rewrite ESb in IH. destruct (run_c _ _ _ _ _ (br_whole n s' rs) x1) as [os x2]. cbn [run_c fst] in *. rewrite IH. reflexivity.
Qed.

(** The load balancer, with the lookup of cht.c in its table. *)
Definition mg_find (h n : nat) (data : list nat) : bytes -> pool -> N -> option nat := fun k p t => cht_find data h (n - 1) (N.to_nat (hash k)) p t.
Lemma mg_find_ok : forall h n data k p t b, pool_wf (n - 1) p -> mg_find h n data k p t = Some b -> b < n - 1 /\ pool_abs p b <> None.
Proof.
  intros h n data k p t b W E. unfold mg_find, cht_find in E. apply find_some in E as [_ E].
  assert (U : (b < n - 1) /\ pool_abs p b <> None); [|exact U]. pose proof (pool_step_spec (n - 1) p (OUsed t b) W eq_refl) as S. cbn [pool_step spec_step] in S. destruct S as (_ & _ & S).
  destruct (proj1 (proj1 S) E) as (v & Ev & _). split; [|congruence]. unfold pool_abs in Ev. rewrite (proj1 W) in Ev. destruct (Nat.ltb_spec b (n - 1)); [assumption|discriminate Ev].
Qed.
Definition mg_of (data : list nat) (x : impl) (b : balancer) : Prop :=
  flows b = tab x /\ x_dat x = map (fun d => [d]) (flow_backends b) /\ backend_pool b = x_pool x Backends /\ cht_data b = data.
Lemma mg_new_c : forall h n data p x b, mg_of data x b -> x_local x = flow_bytes (pkt_flow p) -> tfind hash FLOW_SIZE base loc (tab x) (flow_bytes (pkt_flow p)) = None ->
  let (o, x') := run_c hash FLOW_SIZE base loc (mg_find h n data) (mg_new p) x in
  exists b', get_new_backend hash base loc n h b (pkt_flow p) (p_time p) = (o, b') /\ mg_of data x' b' /\ flow_backends b' = flow_backends b.
Proof.
  intros h n data p x b (E1 & E2 & E3 & E4) EL EF. unfold mg_new, get_new_backend. cbn [run_c]. rewrite E3, E4.
  change (mg_find h n data (flow_bytes (pkt_flow p)) (x_pool x Backends) (p_time p)) with (cht_find data h (n - 1) (N.to_nat (hash (flow_bytes (pkt_flow p)))) (x_pool x Backends) (p_time p)).
  destruct (cht_find data h (n - 1) _ _ _) as [bk|]; [|cbn [run_c]; exists b; split; [reflexivity|]; split; [split; auto|reflexivity]]. rewrite run_bind.
  pose proof (put_c hash FLOW_SIZE base loc (mg_find h n data) (p_time p) (flow_bytes (pkt_flow p)) x EL EF) as P.
  destruct (run_c _ _ _ _ _ (put_prog _ _) x) as [r x']. destruct P as (P1 & (P2 & P3) & _). cbn [run_c]. rewrite E1, P1. eexists. split; [reflexivity|].
  split; [|reflexivity]. split; [reflexivity|]. cbn [flow_backends backend_pool cht_data]. rewrite P2, P3. auto.
Qed.
Lemma mg_c : forall cap n fexp bexp h data p x b cst, layout_ok FLOW_SIZE base loc cap ->
  agrees (mg_sizes cap n fexp bexp) hash base loc cst x -> cinv (mg_sizes cap n fexp bexp) cst -> mg_of data x b -> length (flow_backends b) = cap ->
  let (o, x') := run_c hash FLOW_SIZE base loc (mg_find h n data) (mg_prog n p) x in
  exists b', mg_handle hash base loc n h b p = (o, b') /\ mg_of data x' b' /\ flow_backends b' = flow_backends b.
Proof.
  intros cap n fexp bexp h data p x b cst L Ag I Mo Hl. pose proof Mo as (E1 & E2 & E3 & E4). unfold mg_prog, mg_handle. destruct (negb _); [cbn [run_c]; exists b; auto|].
  destruct (p_device p <? N.of_nat (n - 1))%N.
  { cbn [run_c pool_step]. rewrite E3. eexists. split; [reflexivity|]. split; [|reflexivity]. split; [exact E1|]. auto. }
  unfold get_backend. rewrite E1. set (k := flow_bytes (pkt_flow p)) in *. set (z := mg_sizes cap n fexp bexp) in *.
  assert (EV : tfind hash FLOW_SIZE base loc (tab x) k = vals cst k) by exact (tfind_vals z cst x k L Ag (flow_bytes_length _)).
  cbn [run_c x_keys x_map]. pose proof (tfind_tab hash FLOW_SIZE base loc x k) as TT. rewrite <- TT. set (x1 := mkI (x_keys x) k (x_map x) (x_pool x) (x_dat x)).
  destruct (tfind hash FLOW_SIZE base loc (tab x) k) as [i|] eqn:EF.
  - symmetry in EV. destruct (get_view z cst k i I EV) as (t & Et & _). pose proof (ci_out _ _ I _ _ Et) as Hi. cbn [z_cap mg_sizes z] in Hi.
    cbn [run_c pool_step x1 x_dat x_pool]. rewrite E2. rewrite (nth_map_cell _ _ _ i 0%N [0%N] eq_refl) by (rewrite Hl; exact Hi). cbn [nth]. rewrite E3.
    destruct (pool_used (x_pool x Backends) (p_time p) (N.to_nat (nth i (flow_backends b) 0%N))).
    + cbn [run_c pool_step x_pool wset]. eexists. split; [reflexivity|]. split; [|reflexivity]. split; [reflexivity|]. auto.
    + cbn [run_c pool_step x_keys x_local x_map x_pool x_dat wset].
      match goal with |- let (_, _) := run_c _ _ _ _ _ (mg_new p) ?y in _ => set (x2 := y) end.
      match goal with |- let (_, _) := _ in exists b', get_new_backend _ _ _ _ _ ?y _ _ = _ /\ _ => set (b2 := y) end.
      assert (Mo2 : mg_of data x2 b2) by (split; [first [reflexivity|exact E1]|]; split; [first [reflexivity|exact E2]|]; split; [first [reflexivity|exact E3]|exact E4]).
      assert (N2 : tfind hash FLOW_SIZE base loc (tab x2) k = None).
      { pose proof (agrees_local z hash base loc L cst x k Ag) as Ag1.
        assert (RO : ok z (NRemove i (NPool Flows (OReturn i) (fun _ => NRet tt))) cst (fun _ st' => vals st' k = None)).
        { cbn [ok pop_ok]. destruct (ci_in _ _ I i t Et) as [A B]. split; [exact Hi|]. split; [rewrite (ci_own _ _ I i Hi), Et; discriminate|]. split; [congruence|]. split; [exact B|].
          split; [apply Nat.ltb_lt; exact Hi|]. intros out m S. cbn [vals]. destruct (ci_vals _ _ I _ _ EV) as (E & _). unfold kupd. rewrite E. rewrite (proj2 (beqb_eq _ _) eq_refl). reflexivity. }
        pose proof (run_ok z hash base loc no_find L ltac:(discriminate) _ _ _ _ _ Ag1 RO) as X. cbn [run_c pool_step] in X. destruct X as (c2 & A2 & V2).
        rewrite tfind_tab. rewrite <- V2. exact (agrees_get z hash base loc L c2 _ k A2 (flow_bytes_length _)). }
      exact (mg_new_c h n data p x2 b2 Mo2 eq_refl N2).
  - apply (mg_new_c h n data p x1 b); [split; [exact E1|]; auto|reflexivity|exact EF].
Qed.
Fixpoint mg_outs (n h : nat) (b : balancer) (ps : list pkt) : list (option N) :=
  match ps with [] => [] | p :: ps => let (o, b') := mg_handle hash base loc n h b p in o :: mg_outs n h b' ps end.
Lemma mg_run_c : forall cap n fexp bexp h data, layout_ok FLOW_SIZE base loc cap -> forall ps x b cst,
  agrees (mg_sizes cap n fexp bexp) hash base loc cst x -> cinv (mg_sizes cap n fexp bexp) cst -> Forall (mg_fits n) ps -> mg_of data x b -> length (flow_backends b) = cap ->
  fst (run_c hash FLOW_SIZE base loc (mg_find h n data) (nrun (mg_prog n) ps) x) = mg_outs n h b ps.
Proof.
  intros cap n fexp bexp h data L. induction ps as [|p ps IH]; intros x b cst Ag I Hp Mo Hl; cbn [nrun run_c mg_outs]; [reflexivity|]. inversion Hp as [|? ? H1 H2]; subst.
  rewrite run_bind. set (z := mg_sizes (length (flow_backends b)) n fexp bexp) in *. pose proof (mg_c _ n fexp bexp h data p x b cst L Ag I Mo eq_refl) as C.
  pose proof (run_ok z hash base loc (mg_find h n data) L (mg_find_ok h n data) _ _ _ _ _ Ag (mg_step_ok _ n fexp bexp cst p I H1)) as RO. change (z_key z) with FLOW_SIZE in RO.
  destruct (run_c _ _ _ _ _ (mg_prog n p) x) as [o x1]. destruct C as (b' & E & Mo' & Hl'). destruct RO as (cst' & Ag' & I'). rewrite E.
  rewrite run_bind. specialize (IH x1 b' cst'). rewrite Hl' in IH. specialize (IH Ag' I' H2 Mo' eq_refl).
  destruct (run_c _ _ _ _ _ (nrun _ ps) x1) as [os x2]. cbn [run_c fst] in *. rewrite IH. reflexivity.
Qed.
End Runs.
