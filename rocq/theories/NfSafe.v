(** * The network functions keep to the contracts *)

From Coq Require Import NArith List Bool Lia Arith Permutation.
From Verif Require Import IndexPool HashMap Table Cht Contracts Firewall Packet NatNF Policer Bridge Maglev.
From Verif Require Import NfProg NfTable.
Import ListNotations.
Open Scope nat_scope.

Lemma cinv_start : forall z zero, cinv z (cstart z zero).
Proof.
  intros z zero. constructor; cbn [cstart ckey own vals adr clen its]; try discriminate; auto.
  - intros. apply repeat_length.
  - unfold count. rewrite (proj2 (length_zero_iff_nil _)); [reflexivity|]. induction (seq 0 (z_cap z)) as [|i l IH]; [reflexivity|]. cbn. exact IH.
Qed.
Lemma cview_start : forall z zero i, cview (cstart z zero) i = None.
Proof. reflexivity. Qed.

(** Storing beside the keys. *)
Lemma store_inv : forall z st d, cinv z st -> cinv z (mkC (ckey st) (own st) (vals st) (adr st) (clen st) (its st) d) /\
  forall j, cview (mkC (ckey st) (own st) (vals st) (adr st) (clen st) (its st) d) j = cview st j.
Proof. intros z st d I. apply cinv_ext; try reflexivity. exact I. Qed.

Section Firewall.
Variables (cap : nat) (exp external : N).
Definition fw_sizes : sizes := mkSizes cap FLOW_SIZE (fun _ => cap) (fun _ => exp) 0 0 2.
Local Notation z := fw_sizes.

(** A view and a set of flows agree about the flows alive at [T] or later. *)
Record fw_view (T : N) (v : nat -> option (bytes * N)) (S : list (flow * N)) : Prop := mkFV {
  fv_lt : forall i kt, v i = Some kt -> i < cap;
  fv_inj : forall i j k t t', v i = Some (k, t) -> v j = Some (k, t') -> i = j;
  fv_keys : forall i k t, v i = Some (k, t) -> exists f, flow_ok f /\ k = flow_bytes f;
  fv_flows : forall f t, In (f, t) S -> flow_ok f;
  fv_nodup : NoDup (map fst S);
  fv_same : forall f t, flow_ok f -> (T <= t + exp)%N -> (In (f, t) S <-> exists i, v i = Some (flow_bytes f, t)) }.
Lemma fv_later : forall T T' v S, (T <= T')%N -> fw_view T v S -> fw_view T' v S.
Proof. intros T T' v S H [A0 A1 B C D E]. constructor; auto. intros f t Hf Ht. apply E; [exact Hf|lia]. Qed.
Lemma fv_ext : forall T v v' S, (forall i, v' i = v i) -> fw_view T v S -> fw_view T v' S.
Proof.
  intros T v v' S X [A0 A1 B C D E]. constructor; auto.
  - intros i kt. rewrite X. apply A0.
  - intros i j k t t'. rewrite !X. apply A1.
  - intros i k t. rewrite X. apply B.
  - intros f t Hf Ht. rewrite (E f t Hf Ht). split; intros [i Hi]; exists i; [rewrite X|rewrite X in Hi]; exact Hi.
Qed.
Lemma fv_live : forall T v S, fw_view T v S -> fw_view T v (filter (alive exp T) S).
Proof.
  intros T v S [A0 A1 B C D E]. constructor; auto.
  - intros f t Hin. apply filter_In in Hin as [Hin _]. eauto.
  - apply NoDup_map_filter. exact D.
  - intros f t Hf Ht. rewrite filter_In, E by assumption. split; [tauto|]. intros H. split; [exact H|].
    apply alive_young. unfold young. cbn. lia.
Qed.
Definition young_in (T : N) (v : nat -> option (bytes * N)) (i : nat) : bool :=
  match v i with Some (_, t) => (T <=? t + exp)%N | None => false end.
Lemma fv_count : forall T v S, fw_view T v S -> (forall e, In e S -> alive exp T e = true) -> length S = length (filter (young_in T v) (seq 0 cap)).
Proof.
  intros T v S R HS.
  assert (P : Permutation (map (fun e => Some (flow_bytes (fst e), snd e)) S) (map v (filter (young_in T v) (seq 0 cap)))).
  { apply NoDup_Permutation.
    - pose proof (fv_nodup _ _ _ R) as D. pose proof (fv_flows _ _ _ R) as F. clear R HS.
      induction S as [|[f t] S IH]; cbn [map fst snd]; [constructor|]. cbn in D. inversion D; subst. constructor.
      + intros Hin. apply in_map_iff in Hin as ([g u] & E & Hin). cbn [fst snd] in E. apply some_pair in E as [E1 E2].
        apply flow_bytes_inj in E1; [|eapply F; right; exact Hin|eapply F; left; reflexivity]. subst g.
        apply H1. apply in_map_iff. exists (f, u). auto.
      + apply IH; [assumption|]. intros; eapply F; right; eauto.
    - assert (ND : NoDup (filter (young_in T v) (seq 0 cap))) by (apply NoDup_filter, seq_NoDup).
      assert (Y : forall i, In i (filter (young_in T v) (seq 0 cap)) -> exists k t, v i = Some (k, t)).
      { intros i Hi. apply filter_In in Hi as [_ Hi]. unfold young_in in Hi. destruct (v i) as [[k t]|]; [eauto|discriminate]. }
      induction (filter (young_in T v) (seq 0 cap)) as [|i l IH]; cbn; [constructor|]. inversion ND; subst. constructor.
      + intros Hin. apply in_map_iff in Hin as (j & E & Hin). destruct (Y i (or_introl eq_refl)) as (k & t & Hv).
        assert (j = i); [|subst; auto]. apply (fv_inj _ _ _ R j i k t t); congruence.
      + apply IH; [assumption|]. intros; apply Y; right; assumption.
    - intros o. split; intros Hin; apply in_map_iff in Hin as (x & <- & Hin); apply in_map_iff.
      + destruct x as [f t]. cbn [fst snd]. pose proof (HS _ Hin) as Ha. apply N.leb_le in Ha. cbn in Ha.
        pose proof (fv_flows _ _ _ R _ _ Hin) as Hf. apply (fv_same _ _ _ R f t Hf Ha) in Hin as [i Hi].
        exists i. split; [exact Hi|]. apply filter_In. split; [apply in_seq|].
        * pose proof (fv_lt _ _ _ R _ _ Hi). lia.
        * unfold young_in. rewrite Hi. apply N.leb_le. exact Ha.
      + apply filter_In in Hin as [_ Hy]. unfold young_in in Hy. destruct (v x) as [[k t]|] eqn:Hv; [|discriminate].
        apply N.leb_le in Hy. destruct (fv_keys _ _ _ R _ _ _ Hv) as (f & Hf & ->).
        exists (f, t). split; [reflexivity|]. apply (fv_same _ _ _ R f t Hf Hy). eauto. }
  apply Permutation_length in P. rewrite !map_length in P. exact P.
Qed.
Lemma fv_touch : forall T v v' S f i, fw_view T v S -> (forall e, In e S -> alive exp T e = true) -> flow_ok f -> i < cap ->
  ((exists t, v i = Some (flow_bytes f, t)) \/
   (forall j t, v j <> Some (flow_bytes f, t)) /\
   (v i = None \/ exists k0 t0, v i = Some (k0, t0) /\ ~ young T exp t0)) ->
  (forall j, v' j = if Nat.eqb j i then Some (flow_bytes f, T) else v j) ->
  fw_view T v' (touch f T S).
Proof.
  intros T v v' S f i [A0 A1 B C D E] HS Hf Hlt Hi V.
  assert (NO : forall j t, j <> i -> v j <> Some (flow_bytes f, t)).
  { intros j t Hne Hj. destruct Hi as [[t' Hi]|[Hn _]]; [|exact (Hn j t Hj)]. apply Hne. exact (A1 _ _ _ _ _ Hj Hi). }
  constructor.
  - intros j kt Hj. rewrite V in Hj. destruct (Nat.eqb_spec j i) as [->|]; [exact Hlt|eauto].
  - intros j j' k t t' Hj Hj'. rewrite V in Hj, Hj'. destruct (Nat.eqb_spec j i) as [E1|N1]; destruct (Nat.eqb_spec j' i) as [E2|N2]; [congruence| | |eauto].
    + apply some_pair in Hj as [<- _]. exfalso. exact (NO _ _ N2 Hj').
    + apply some_pair in Hj' as [<- _]. exfalso. exact (NO _ _ N1 Hj).
  - intros j k t Hj. rewrite V in Hj. destruct (Nat.eqb j i); [apply some_pair in Hj as [<- <-]; eauto|eauto].
  - intros g t [Q|Hin]; [injection Q as <- <-; exact Hf|]. apply filter_In in Hin as [Hin _]. eauto.
  - cbn. constructor; [|apply NoDup_map_filter; exact D].
    intros Hin. apply in_map_iff in Hin as ([g t] & Q & Hin). cbn in Q. subst g. apply filter_In in Hin as [_ Hin]. cbn in Hin.
    rewrite (proj2 (flow_eqb_eq f f) eq_refl) in Hin. discriminate.
  - intros g t Hg Ht. cbn [touch In]. rewrite filter_In. cbn [fst]. split.
    + intros [Q|[Hin Hne]].
      * injection Q as <- <-. exists i. rewrite V, Nat.eqb_refl. reflexivity.
      * apply E in Hin as [j Hj]; [|exact Hg|exact Ht]. exists j. rewrite V.
        destruct (Nat.eqb_spec j i) as [->|]; [|exact Hj]. exfalso.
        assert (g <> f) by (intros ->; rewrite (proj2 (flow_eqb_eq f f) eq_refl) in Hne; discriminate).
        destruct Hi as [[t' Hi]|[_ [Hi|(k0 & t0 & Hi & Hy)]]]; rewrite Hi in Hj; [|discriminate|].
        -- apply some_pair in Hj as [Q _]. apply flow_bytes_inj in Q; [|assumption|assumption]. congruence.
        -- apply some_pair in Hj as [_ ->]. apply Hy. unfold young. lia.
    + intros [j Hj]. rewrite V in Hj. destruct (Nat.eqb_spec j i) as [Ej|Hne].
      * apply some_pair in Hj as [Q <-]. apply flow_bytes_inj in Q; [|assumption|assumption]. subst g. left. reflexivity.
      * right. split; [apply E; eauto|]. apply negb_true_iff. destruct (flow_eqb f g) eqn:Q; [|reflexivity].
        apply flow_eqb_eq in Q. subst g. exfalso. exact (NO _ _ Hne Hj).
Qed.
Lemma fv_has : forall T v S f, fw_view T v S -> (forall e, In e S -> alive exp T e = true) -> flow_ok f ->
  (has f S = true <-> exists i t, v i = Some (flow_bytes f, t) /\ young T exp t).
Proof.
  intros T v S f R HS Hf. rewrite has_In. split.
  - intros [u Hin]. pose proof (HS _ Hin) as Ha. apply N.leb_le in Ha. cbn in Ha. apply (fv_same _ _ _ R f u Hf Ha) in Hin as [j Hj].
    exists j, u. split; [exact Hj|unfold young; lia].
  - intros (i & t & Hi & Hy). exists t. apply (fv_same _ _ _ R f t Hf); [unfold young in Hy; lia|eauto].
Qed.

(** One packet. *)
Lemma fw_step_ok : forall T st S p, cinv z st -> pkt_ok p ->
  ok z (fw_prog external p) st (fun o st' => cinv z st' /\
    ((T <= p_time p)%N -> fw_view T (cview st) S -> o = fst (fw_spec external exp cap S p) /\ fw_view (p_time p) (cview st') (snd (fw_spec external exp cap S p)))).
Proof.
  intros T st S p I Hp. unfold fw_prog, fw_spec. assert (Ht : (p_time p < TIME_MAX)%N) by (unfold pkt_ok in Hp; tauto).
  assert (Hout : (1 - p_device p < 2)%N) by lia.
  destruct (negb (is_ipv4 p && is_tcpudp p)).
  { cbn [ok fst snd]. split; [exact I|]. intros HT R. split; [reflexivity|exact (fv_later _ _ _ _ HT R)]. }
  set (live := filter (alive exp (p_time p)) S).
  assert (HS : forall e, In e live -> alive exp (p_time p) e = true) by (intros e He; apply filter_In in He; tauto).
  assert (RL : (T <= p_time p)%N -> fw_view T (cview st) S -> fw_view (p_time p) (cview st) live) by (intros HT R; apply fv_live; exact (fv_later _ _ _ _ HT R)).
  destruct (p_device p =? external)%N.
  - pose proof (pkt_rev_flow_ok p Hp) as Hf. set (f := pkt_rev_flow p) in *. cbn [ok]. split; [apply flow_bytes_length|].
    destruct (vals st (flow_bytes f)) as [i|] eqn:EV.
    + destruct (get_view z st _ i I EV) as (t & Et & Ev). apply (used_ok' z); [exact I|]. intros b st1 I1 _ K1 O1 V1 M1 Hb.
      assert (W1 : forall j, cview st1 j = cview st j) by (intros j; unfold cview; rewrite M1, K1; reflexivity).
      destruct b.
      * destruct (proj1 Hb eq_refl) as (t' & Et' & Hy). rewrite Et in Et'. injection Et' as <-.
        apply (refresh_ok' z); [reflexivity|exact I1|exact Ht|rewrite M1; eauto|]. intros st2 I2 _ K2 O2 V2. cbn [ok fst snd]. split; [exact Hout|]. split; [exact I2|].
        intros HT R. specialize (RL HT R). rewrite (proj2 (fv_has _ _ _ f RL HS Hf)) by eauto. split; [reflexivity|]. cbn [snd].
        assert (i < cap) by exact (fv_lt _ _ _ R _ _ Ev).
        eapply (fv_touch _ _ _ _ _ i RL HS Hf); [assumption|left; eauto|]. intros j. rewrite V2, W1, K1. destruct (Nat.eqb j i); [|reflexivity].
        destruct (ci_vals _ _ I _ _ EV) as (-> & _). reflexivity.
      * cbn [ok fst snd]. split; [exact I1|]. intros HT R. specialize (RL HT R).
        assert (Hh : has f live = false).
        { destruct (has f live) eqn:Hh; [|reflexivity]. exfalso. apply (fv_has _ _ _ f RL HS Hf) in Hh as (j & u & Hj & Hy).
          assert (j = i) by exact (fv_inj _ _ _ RL _ _ _ _ _ Hj Ev). subst j. rewrite Ev in Hj. injection Hj as <-.
          assert (false = true) by (apply Hb; eauto). discriminate. }
        rewrite Hh. split; [reflexivity|]. exact (fv_ext _ _ _ _ W1 RL).
    + cbn [ok fst snd]. split; [exact I|]. intros HT R. specialize (RL HT R).
      assert (Hh : has f live = false).
      { destruct (has f live) eqn:Hh; [|reflexivity]. exfalso. apply (fv_has _ _ _ f RL HS Hf) in Hh as (j & u & Hj & Hy). exact (not_there z _ _ _ _ I EV Hj). }
      rewrite Hh. split; [reflexivity|exact RL].
  - pose proof (pkt_flow_ok p Hp) as Hf. set (f := pkt_flow p) in *. cbn [fst snd]. apply ok_bind.
    apply (learn_ok' z); [reflexivity|exact I|apply flow_bytes_length|exact Ht| |].
    + intros i st' I' _ (Hi & Hd & V). cbn [ok]. split; [exact Hout|]. split; [exact I'|]. intros HT R. specialize (RL HT R). split; [reflexivity|].
      assert (Hlearn : has f live || (length live <? cap) = true).
      { destruct (has f live) eqn:Hh; [reflexivity|]. cbn [orb]. apply Nat.ltb_lt. rewrite (fv_count _ _ _ RL HS). rewrite <- (seq_length cap 0) at 2.
        assert (Hy : young_in (p_time p) (cview st) i = false).
        { unfold young_in. destruct Hd as [[t Hv]|[Hn [Hv|(k0 & t0 & Hv & Hy)]]]; rewrite Hv; [|reflexivity|].
          - destruct (N.leb_spec (p_time p) (t + exp)); [|reflexivity]. exfalso.
            assert (has f live = true); [|congruence]. apply (fv_has _ _ _ f RL HS Hf). exists i, t. split; [exact Hv|unfold young; lia].
          - apply N.leb_gt. unfold young in Hy. cbn [fw_sizes z_exp] in Hy. lia. }
        assert (Hin : In i (seq 0 cap)) by (apply in_seq; cbn [fw_sizes z_cap] in Hi; lia).
        clear -Hy Hin. induction (seq 0 cap) as [|j l IH]; [destruct Hin|]. cbn. destruct Hin as [->|Hin].
        - rewrite Hy. pose proof (filter_length_le_seq _ (young_in (p_time p) (cview st)) l). lia.
        - destruct (young_in (p_time p) (cview st) j); cbn; specialize (IH Hin); lia. }
      rewrite Hlearn. exact (fv_touch _ _ _ _ f i RL HS Hf Hi Hd V).
    + intros st' I' _ Hall Hn V. cbn [ok]. split; [exact Hout|]. split; [exact I'|]. intros HT R. specialize (RL HT R). split; [reflexivity|].
      assert (Hlearn : has f live || (length live <? cap) = false).
      { apply orb_false_iff. split.
        - destruct (has f live) eqn:Hh; [|reflexivity]. exfalso. apply (fv_has _ _ _ f RL HS Hf) in Hh as (i & t & Hv & _). exact (Hn i t Hv).
        - apply Nat.ltb_ge. rewrite (fv_count _ _ _ RL HS). rewrite <- (seq_length cap 0) at 1.
          assert (Q : filter (young_in (p_time p) (cview st)) (seq 0 cap) = seq 0 cap); [|rewrite Q; lia].
          assert (A : forall i, In i (seq 0 cap) -> young_in (p_time p) (cview st) i = true).
          { intros i Hi. apply in_seq in Hi. destruct (Hall i) as (k & t & Hv & Hy); [cbn; lia|]. unfold young_in. rewrite Hv.
            apply N.leb_le. unfold young in Hy. cbn [fw_sizes z_exp] in Hy. lia. }
          clear -A. induction (seq 0 cap) as [|j l IH]; [reflexivity|]. cbn. rewrite A by (left; reflexivity).
          f_equal. apply IH. intros; apply A; right; assumption. }
      rewrite Hlearn. exact (fv_ext _ _ _ _ V RL).
Qed.
Lemma fw_run_ok : forall ps T st S, cinv z st -> Forall pkt_ok ps ->
  ok z (nrun (fw_prog external) ps) st (fun os _ => ordered T ps -> fw_view T (cview st) S -> os = fst (fw_spec_run external exp cap S ps)).
Proof.
  induction ps as [|p ps IH]; intros T st S I Hp; cbn [nrun]; [cbn; reflexivity|]. inversion Hp as [|? ? H1 H2]; subst. apply ok_bind.
  eapply ok_mono; [|exact (fw_step_ok T st S p I H1)]. intros o st' [I' H']. apply ok_bind.
  eapply ok_mono; [|exact (IH (p_time p) st' (snd (fw_spec external exp cap S p)) I' H2)]. intros os st'' H''. cbn [ok ordered fw_spec_run]. intros [HT Ho] R.
  destruct (H' HT R) as [-> R']. rewrite (H'' Ho R'). destruct (fw_spec external exp cap S p) as [o' S1]. cbn [fst snd]. destruct (fw_spec_run external exp cap S1 ps). reflexivity.
Qed.
Lemma fw_view_start : fw_view 0 (fun _ => None) [].
Proof. constructor; try discriminate; [intros ? ? []|constructor|]. intros f t _ _. split; [intros []|intros [i H]; discriminate H]. Qed.
End Firewall.

(** The NAT: the flows table and the pool of ports. *)
Section Nat.
Variables (cap : nat) (exp wan ext_addr start_port : N).
Definition rpkt_fits (r : rpkt) : Prop := (p_device (parse r) < 2)%N /\ (p_time (parse r) < TIME_MAX)%N.
Lemma nat_step_ok : forall st r, cinv (fw_sizes cap exp) st -> rpkt_fits r ->
  ok (fw_sizes cap exp) (nat_prog wan ext_addr start_port r) st (fun _ st' => cinv (fw_sizes cap exp) st').
Proof.
  intros st r I (Hd & Ht). unfold nat_prog. cbv zeta. destruct (negb _); [exact I|]. assert (Hout : (1 - p_device (parse r) < 2)%N) by lia.
  destruct (p_device (parse r) =? wan)%N.
  - apply (used_ok' _ _ _ _ _ _ _ I). intros b st1 I1 _ K1 O1 V1 M1 Hb. destruct b; [|exact I1]. destruct (proj1 Hb eq_refl) as (t & Et & _).
    apply (refresh_ok' (fw_sizes cap exp)); [reflexivity|exact I1|exact Ht|rewrite M1; eauto|]. intros st2 I2 _ K2 O2 V2. cbn [ok].
    pose proof (ci_out _ _ I _ _ Et) as Hi. split; [exact Hi|]. split.
    + rewrite O2, (ci_own _ _ I1 _ Hi), M1, Et. discriminate.
    + destruct (_ || _); cbn [ok]; [exact I2|]. split; [exact Hout|exact I2].
  - apply ok_bind. apply (learn_ok' (fw_sizes cap exp)); [reflexivity|exact I|apply flow_bytes_length|exact Ht| |].
    + intros i st' I' _ _. cbn [ok]. split; [exact Hout|exact I'].
    + intros st' I' _ _ _ _. exact I'.
Qed.
End Nat.

Section Policer.
Variables (cap : nat) (exp wan rate burst : N).
Definition pol_sizes : sizes := mkSizes cap ADDR_SIZE (fun _ => cap) (fun _ => exp) cap 0 2.
Definition ptime_ok (p : pkt) : Prop := (p_device p < 2)%N /\ (p_time p < TIME_MAX)%N.
Lemma pol_step_ok : forall st p, cinv pol_sizes st -> ptime_ok p ->
  ok pol_sizes (pol_prog wan rate burst p) st (fun _ st' => cinv pol_sizes st').
Proof.
  intros st p I (Hd & Ht). unfold pol_prog. cbv zeta. destruct (negb _); [exact I|]. assert (Hout : (1 - p_device p < 2)%N) by lia.
  destruct (p_device p =? wan)%N; [|cbn [ok]; split; [exact Hout|exact I]]. cbn [ok]. split; [unfold pol_key; apply le_length|].
  destruct (vals st (pol_key p)) as [i|] eqn:EV.
  - destruct (get_view pol_sizes st _ i I EV) as (t & Et & Ev). pose proof (ci_out _ _ I _ _ Et) as Hi.
    apply (refresh_ok' pol_sizes); [reflexivity|exact I|exact Ht|eauto|]. intros st2 I2 _ K2 O2 V2. cbn [ok]. split; [exact Hi|].
    destruct (_ <? _)%N; cbn [ok]; (split; [exact Hi|]); [split; [exact Hout|]|]; apply (store_inv pol_sizes st2 _ I2).
  - destruct (burst <? p_length p)%N; [exact I|]. apply ok_bind. apply (put_ok' pol_sizes); [reflexivity|exact I|unfold pol_key; apply le_length|exact Ht|exact EV| |].
    + intros i st' I' _ (Hi & _). cbn [ok]. split; [exact Hi|]. split; [exact Hout|]. apply (store_inv pol_sizes st' _ I').
    + intros st' I' _ _ _. exact I'.
Qed.
End Policer.

Section Bridge.
Variables (cap n : nat) (exp : N).
Hypothesis Hn : 0 < n.
Definition br_sizes : sizes := mkSizes cap MAC_SIZE (fun _ => cap) (fun _ => exp) cap 0 (N.of_nat n).
Definition frame_fits (fb : rpkt * (N -> bool)) : Prop := (r_device (fst fb) < N.of_nat n)%N /\ (r_time (fst fb) < TIME_MAX)%N.
Definition br_cinv (st : cstate) : Prop := cinv br_sizes st /\ forall i, (nth 0 (cdat st i) 0 < N.of_nat n)%N.
Lemma br_forward_ok : forall st r blocked, br_cinv st ->
  ok br_sizes (NGet (mac (dst_mac r)) (fun f =>
      match f with
      | Some index => NLoad index (fun d => let d := nth 0 d 0%N in
          if negb (d =? r_device r)%N then NSend d (NRet [d]) else NRet [])
      | None => NRet (net_flood_except n (r_device r) blocked)
      end)) st (fun _ st' => br_cinv st').
Proof.
  intros st r blocked I. cbn [ok]. split; [unfold mac; apply le_length|]. destruct (vals st (mac (dst_mac r))) as [i|] eqn:EV; [|exact I].
  destruct (get_view br_sizes st _ i (proj1 I) EV) as (t & Et & _). cbn [ok]. split; [exact (ci_out _ _ (proj1 I) _ _ Et)|].
  destruct (negb _); cbn [ok]; [|exact I]. split; [apply (proj2 I)|exact I].
Qed.
Lemma br_step_ok : forall st fb, br_cinv st -> frame_fits fb -> ok br_sizes (br_prog n fb) st (fun _ st' => br_cinv st').
Proof.
  intros st [r blocked] [I C] (Hd & Ht). cbn [fst snd] in *. unfold br_prog. cbn [fst snd]. cbv zeta. destruct (negb (N.odd (src_mac r))); [|apply br_forward_ok; split; assumption].
  apply ok_bind. apply (learn_ok' br_sizes); [reflexivity|exact I|unfold mac; apply le_length|exact Ht| |].
  - intros i st' I' SR (Hi & _). cbn [ok]. split; [exact Hi|]. apply br_forward_ok. split; [apply (store_inv br_sizes st' _ I')|].
    intros j. cbn [cdat]. unfold upd. destruct (Nat.eqb j i); [exact Hd|]. rewrite (proj1 SR). apply C.
  - intros st' I' SR _ _ _. apply br_forward_ok. split; [exact I'|]. rewrite (proj1 SR). exact C.
Qed.
Lemma br_start : br_cinv (cstart br_sizes [0%N]).
Proof. split; [apply cinv_start|]. intros i. cbn. lia. Qed.
End Bridge.

Section Balancer.
Variables (cap n : nat) (fexp bexp : N).
Definition mg_sizes : sizes :=
  mkSizes cap FLOW_SIZE (fun w => match w with Flows => cap | Backends => n - 1 end) (fun w => match w with Flows => fexp | Backends => bexp end) cap (n - 1) (N.of_nat n).
Definition mg_fits (p : pkt) : Prop := (p_device p < N.of_nat n)%N /\ (p_time p < TIME_MAX)%N.
Lemma mg_new_ok : forall st p, cinv mg_sizes st -> mg_fits p -> vals st (flow_bytes (pkt_flow p)) = None ->
  ok mg_sizes (mg_new p) st (fun _ st' => cinv mg_sizes st').
Proof.
  intros st p I (Hd & Ht) EV. unfold mg_new. cbn [ok]. split; [apply flow_bytes_length|]. split; [cbn; lia|]. intros r Hr. destruct r as [b|]; [|exact I].
  destruct (Hr b eq_refl) as [Hb _]. cbn [mg_sizes z_backends] in Hb. apply ok_bind. apply (put_ok' mg_sizes); [reflexivity|exact I|apply flow_bytes_length|exact Ht|exact EV| |].
  - intros i st' I' _ _. cbn [ok]. split; [cbn; lia|exact I'].
  - intros st' I' _ _ _. cbn [ok]. split; [cbn; lia|exact I'].
Qed.
Lemma mg_step_ok : forall st p, cinv mg_sizes st -> mg_fits p -> ok mg_sizes (mg_prog n p) st (fun _ st' => cinv mg_sizes st').
Proof.
  intros st p I Hp. pose proof Hp as (Hd & Ht). unfold mg_prog. destruct (negb _); [exact I|]. destruct (N.ltb_spec (p_device p) (N.of_nat (n - 1))) as [Hlt|Hge].
  - cbn [ok pop_ok mg_sizes z_pool]. assert (Hi : N.to_nat (p_device p) < n - 1) by lia. rewrite (proj2 (N.ltb_lt _ _) Ht), (proj2 (Nat.ltb_lt _ _) Hi). split; [reflexivity|].
    intros out m S. destruct out; cbn [spec_step] in S; try contradiction. cbn [ok]. destruct I as [I1 I2 I3 I4 I5 I6 I7 I8].
    constructor; cbn [ckey own vals adr clen its wupd]; auto. intros i t H. rewrite S in H. unfold pupd in H. destruct (Nat.eqb_spec i (N.to_nat (p_device p))) as [->|]; [exact Hi|eauto].
  - cbn [ok]. split; [apply flow_bytes_length|]. destruct (vals st (flow_bytes (pkt_flow p))) as [i|] eqn:EV; [|apply mg_new_ok; assumption].
    destruct (get_view mg_sizes st _ i I EV) as (t & Et & Ev). pose proof (ci_out _ _ I _ _ Et) as Hi. cbn [ok pop_ok]. split; [exact Hi|]. split; [reflexivity|].
    intros out m S. destruct out; cbn [spec_step] in S; try contradiction. destruct S as (Hb & Hm).
    set (st1 := mkC (ckey st) (own st) (vals st) (adr st) (clen st) (wupd (its st) Backends m) (cdat st)).
    destruct (cinv_ext mg_sizes st st1) as (I1 & V1); try reflexivity; [intros [] j; [reflexivity|exact (Hm j)]|exact I|].
    assert (REM : ok mg_sizes (NRemove i (NPool Flows (OReturn i) (fun _ => mg_new p))) st1 (fun _ st' => cinv mg_sizes st')).
    { cbn [ok pop_ok]. destruct (ci_in _ _ I1 i t Et) as [A B]. split; [exact Hi|]. split; [rewrite (ci_own _ _ I1 i Hi); cbn [st1 its wupd]; rewrite Et; discriminate|].
      split; [congruence|]. split; [exact B|]. split; [apply Nat.ltb_lt; exact Hi|]. intros out m' S'. destruct out; cbn [spec_step] in S'; try contradiction.
      destruct (remove_inv mg_sizes st1 i m' I1 (ex_intro _ t Et) S') as (I2 & N2 & _). apply mg_new_ok; [exact I2|exact Hp|].
      destruct (ci_vals _ _ I _ _ EV) as (E & _). rewrite <- E. exact N2. }
    destruct b; [|exact REM]. apply (refresh_ok' mg_sizes); [reflexivity|exact I1|exact Ht|exists t; exact Et|]. intros st2 I2 _ _ _ _. cbn [ok]. split; [|exact I2].
    destruct (proj1 Hb eq_refl) as (v & Ev' & _). pose proof (ci_back _ _ I _ _ Ev') as Hbk. cbn [mg_sizes z_pool z_devices] in *. lia.
Qed.
End Balancer.
