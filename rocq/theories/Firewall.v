(** * Packets, flows and the firewall (nf/firewall) *)

From Coq Require Import NArith List Bool Lia Arith Permutation.
From Verif Require Import IndexPool HashMap Table.
Import ListNotations.
Open Scope nat_scope.

(** Little-endian bytes, as the x86 target stores integers. *)
Fixpoint le (n : nat) (v : N) : bytes :=
  match n with O => [] | S n' => (v mod 256)%N :: le n' (v / 256)%N end.

Lemma le_length : forall n v, length (le n v) = n.
Proof. induction n; cbn; auto. Qed.
Lemma le_inj : forall n v w, (v < 256 ^ N.of_nat n)%N -> (w < 256 ^ N.of_nat n)%N -> le n v = le n w -> v = w.
Proof.
  induction n as [|n IH]; intros v w Hv Hw E; [cbn in *; lia|].
  rewrite Nat2N.inj_succ, N.pow_succ_r' in Hv, Hw. cbn [le] in E. injection E as E1 E2.
  apply IH in E2; [|apply N.div_lt_upper_bound; lia|apply N.div_lt_upper_bound; lia].
  rewrite (N.div_mod v 256), (N.div_mod w 256) by lia. congruence.
Qed.

(** include/net/packet.h 16-57: what the code reads of a packet. Header fields are the
    little-endian integers at their offsets. Lengths of headers are not checked by the
    code and not modelled. *)
Record pkt := mkPkt {
  p_device : N; p_time : N; p_length : N;
  e_dst : N; e_src : N; e_type : N;
  ip_proto : N; ip_src : N; ip_dst : N;
  l4_src : N; l4_dst : N }.

(** Widths of the fields; the time is not TIME_MAX (os/time.h), and there are two devices. *)
Definition pkt_ok (p : pkt) : Prop :=
  (p_device p < 2 /\ p_time p < TIME_MAX /\ e_dst p < 2 ^ 48 /\ e_src p < 2 ^ 48 /\ e_type p < 2 ^ 16 /\
   ip_proto p < 2 ^ 8 /\ ip_src p < 2 ^ 32 /\ ip_dst p < 2 ^ 32 /\ l4_src p < 2 ^ 16 /\ l4_dst p < 2 ^ 16)%N.

(** packet.h 68-89: 0x0008 is 0x0800 in network order. *)
Definition is_ipv4 (p : pkt) : bool := (e_type p =? 8)%N.
Definition is_tcpudp (p : pkt) : bool := (ip_proto p =? 6)%N || (ip_proto p =? 17)%N.

(** struct flow, flow_table.h 12-19. *)
Record flow := mkFlow { f_src : N; f_dst : N; f_sport : N; f_dport : N; f_proto : N }.
Definition flow_ok (f : flow) : Prop :=
  (f_src f < 2 ^ 32 /\ f_dst f < 2 ^ 32 /\ f_sport f < 2 ^ 16 /\ f_dport f < 2 ^ 16 /\ f_proto f < 2 ^ 8)%N.
(** Its 16 bytes; the padding is an array member, which the initializers zero. *)
Definition flow_bytes (f : flow) : bytes :=
  le 4 (f_src f) ++ le 4 (f_dst f) ++ le 2 (f_sport f) ++ le 2 (f_dport f) ++ le 1 (f_proto f) ++ [0; 0; 0]%N.
Definition FLOW_SIZE : nat := 16.

Lemma flow_bytes_length : forall f, length (flow_bytes f) = FLOW_SIZE.
Proof. intros. unfold flow_bytes. rewrite !app_length, !le_length. reflexivity. Qed.

Lemma app_inj_len : forall A (a b c d : list A), length a = length c -> a ++ b = c ++ d -> a = c /\ b = d.
Proof.
  induction a as [|x a IH]; intros b [|y c] d Hl E; cbn in *; try discriminate; [auto|].
  injection E as -> E. apply IH in E as [-> ->]; [auto|congruence].
Qed.

Lemma flow_bytes_inj : forall f g, flow_ok f -> flow_ok g -> flow_bytes f = flow_bytes g -> f = g.
Proof.
  intros [a b c d e] [a' b' c' d' e'] (H1 & H2 & H3 & H4 & H5) (H1' & H2' & H3' & H4' & H5') E.
  cbn [f_src f_dst f_sport f_dport f_proto] in *. unfold flow_bytes in E. cbn [f_src f_dst f_sport f_dport f_proto] in E.
  apply app_inj_len in E as [E1 E]; [|rewrite !le_length; reflexivity].
  apply app_inj_len in E as [E2 E]; [|rewrite !le_length; reflexivity].
  apply app_inj_len in E as [E3 E]; [|rewrite !le_length; reflexivity].
  apply app_inj_len in E as [E4 E]; [|rewrite !le_length; reflexivity].
  apply app_inj_len in E as [E5 E]; [|rewrite !le_length; reflexivity].
  apply le_inj in E1; [|exact H1|exact H1']. apply le_inj in E2; [|exact H2|exact H2'].
  apply le_inj in E3; [|exact H3|exact H3']. apply le_inj in E4; [|exact H4|exact H4'].
  apply le_inj in E5; [|exact H5|exact H5']. congruence.
Qed.

Local Opaque flow_bytes.
Lemma some_pair : forall A B (a a' : A) (b b' : B), Some (a, b) = Some (a', b') -> a = a' /\ b = b'.
Proof. intros * E. injection E as -> ->. auto. Qed.

Definition flow_eqb (f g : flow) : bool :=
  (f_src f =? f_src g)%N && (f_dst f =? f_dst g)%N && (f_sport f =? f_sport g)%N && (f_dport f =? f_dport g)%N && (f_proto f =? f_proto g)%N.
Lemma flow_eqb_eq : forall f g, flow_eqb f g = true <-> f = g.
Proof.
  intros [a b c d e] [a' b' c' d' e']. unfold flow_eqb. cbn. rewrite !andb_true_iff, !N.eqb_eq.
  split; [intros ((((-> & ->) & ->) & ->) & ->); reflexivity|intros [= -> -> -> -> ->]; auto].
Qed.

(** firewall.c 47-53 and 37-42. *)
Definition pkt_flow (p : pkt) : flow := mkFlow (ip_src p) (ip_dst p) (l4_src p) (l4_dst p) (ip_proto p).
Definition pkt_rev_flow (p : pkt) : flow := mkFlow (ip_dst p) (ip_src p) (l4_dst p) (l4_src p) (ip_proto p).

Lemma pkt_flow_ok : forall p, pkt_ok p -> flow_ok (pkt_flow p).
Proof. intros p H. unfold pkt_ok in H. unfold flow_ok, pkt_flow. cbn. tauto. Qed.
Lemma pkt_rev_flow_ok : forall p, pkt_ok p -> flow_ok (pkt_rev_flow p).
Proof. intros p H. unfold pkt_ok in H. unfold flow_ok, pkt_rev_flow. cbn. tauto. Qed.

Section Firewall.
Variable hash : bytes -> N.
Variables base loc : N.
Variable external : N.           (* "external device" *)

Notation tlearn' := (tlearn hash FLOW_SIZE base loc).
Notation tfind' := (tfind hash FLOW_SIZE base loc).

(** flow_table.h 53-62. *)
Definition has_external (tb : table) (time : N) (f : flow) : bool * table :=
  match tfind' tb (flow_bytes f) with
  | Some index =>
      if pool_used (tpool tb) time index
      then (true, mkTab (keys tb) (tmap tb) (pool_refresh (tpool tb) time index))
      else (false, tb)
  | None => (false, tb)
  end.

(** firewall.c 26-59: where the packet is sent, if it is. *)
Definition fw_handle (tb : table) (p : pkt) : option N * table :=
  if negb (is_ipv4 p && is_tcpudp p) then (None, tb)
  else if (p_device p =? external)%N then
    let (known, tb') := has_external tb (p_time p) (pkt_rev_flow p) in
    if known then (Some (1 - p_device p)%N, tb') else (None, tb')
  else
    let (_, tb') := tlearn' tb (p_time p) (flow_bytes (pkt_flow p)) in
    (Some (1 - p_device p)%N, tb').

Fixpoint fw_run (tb : table) (ps : list pkt) : list (option N) * table :=
  match ps with
  | [] => ([], tb)
  | p :: ps' =>
      let (o, tb1) := fw_handle tb p in
      let (os, tb2) := fw_run tb1 ps' in (o :: os, tb2)
  end.

(** ** Specification: a set of flows with the time of their last activity, of which at
    most [cap] are alive *)
Definition alive (exp t : N) (e : flow * N) : bool := (t <=? snd e + exp)%N.
Definition has (f : flow) (S : list (flow * N)) : bool := existsb (fun e => flow_eqb f (fst e)) S.
Definition touch (f : flow) (t : N) (S : list (flow * N)) : list (flow * N) :=
  (f, t) :: filter (fun e => negb (flow_eqb f (fst e))) S.

Definition fw_spec (exp : N) (cap : nat) (S : list (flow * N)) (p : pkt) : option N * list (flow * N) :=
  let live := filter (alive exp (p_time p)) S in
  if negb (is_ipv4 p && is_tcpudp p) then (None, S)
  else if (p_device p =? external)%N then
    if has (pkt_rev_flow p) live
    then (Some (1 - p_device p)%N, touch (pkt_rev_flow p) (p_time p) live)
    else (None, live)
  else
    (Some (1 - p_device p)%N,
     if has (pkt_flow p) live || (length live <? cap) then touch (pkt_flow p) (p_time p) live else live).

Fixpoint fw_spec_run (exp : N) (cap : nat) (S : list (flow * N)) (ps : list pkt) : list (option N) * list (flow * N) :=
  match ps with
  | [] => ([], S)
  | p :: ps' =>
      let (o, S1) := fw_spec exp cap S p in
      let (os, S2) := fw_spec_run exp cap S1 ps' in (o :: os, S2)
  end.

(** Times never go back. *)
Fixpoint ordered (T : N) (ps : list pkt) : Prop :=
  match ps with [] => True | p :: ps' => (T <= p_time p)%N /\ ordered (p_time p) ps' end.

(** ** Refinement *)
Lemma alive_young : forall exp t e, alive exp t e = true <-> young t exp (snd e).
Proof. intros exp t [f v]. unfold alive, young. cbn. rewrite N.leb_le. lia. Qed.

Lemma has_In : forall f S, has f S = true <-> exists t, In (f, t) S.
Proof.
  intros. unfold has. rewrite existsb_exists. split.
  - intros ([g t] & Hin & E). apply flow_eqb_eq in E. cbn in E. subst. eauto.
  - intros [t Hin]. exists (f, t). split; [exact Hin|]. apply flow_eqb_eq. reflexivity.
Qed.

Variable cap : nat.
Variable exp : N.
Hypothesis L : layout_ok FLOW_SIZE base loc cap.

(** The table and the set agree about the flows alive at [T] or later. *)
Record fw_rel (T : N) (tb : table) (S : list (flow * N)) : Prop := mkFR {
  fr_ok : table_ok hash FLOW_SIZE base loc cap exp tb;
  fr_keys : forall i k t, view tb i = Some (k, t) -> exists f, flow_ok f /\ k = flow_bytes f;
  fr_flows : forall f t, In (f, t) S -> flow_ok f;
  fr_nodup : NoDup (map fst S);
  fr_same : forall f t, flow_ok f -> (T <= t + exp)%N ->
    (In (f, t) S <-> exists i, view tb i = Some (flow_bytes f, t)) }.

Lemma fr_later : forall T T' tb S, (T <= T')%N -> fw_rel T tb S -> fw_rel T' tb S.
Proof. intros T T' tb S H [A B C D E]. constructor; auto. intros f t Hf Ht. apply E; [exact Hf|lia]. Qed.

(** Only the living matter. *)
Lemma NoDup_map_filter : forall A B (g : A -> B) h l, NoDup (map g l) -> NoDup (map g (filter h l)).
Proof.
  induction l as [|a l IH]; cbn; intros H; [constructor|]. inversion H; subst.
  destruct (h a); cbn; [constructor|]; auto. intros Hin. apply H2.
  apply in_map_iff in Hin as (x & E & Hin). apply filter_In in Hin as [Hin _]. apply in_map_iff. eauto.
Qed.
Lemma fr_live : forall T tb S, fw_rel T tb S -> fw_rel T tb (filter (alive exp T) S).
Proof.
  intros T tb S [A B C D E]. constructor; auto.
  - intros f t Hin. apply filter_In in Hin as [Hin _]. eauto.
  - apply NoDup_map_filter. exact D.
  - intros f t Hf Ht. rewrite filter_In, E by assumption. split; [tauto|]. intros H. split; [exact H|].
    apply alive_young. unfold young. cbn. lia.
Qed.

Definition young_at (T : N) (tb : table) (i : nat) : bool :=
  match view tb i with Some (_, t) => (T <=? t + exp)%N | None => false end.

Lemma youngs_count : forall T tb S, fw_rel T tb S -> (forall e, In e S -> alive exp T e = true) ->
  length S = length (filter (young_at T tb) (seq 0 cap)).
Proof.
  intros T tb S R HS.
  assert (P : Permutation (map (fun e => Some (flow_bytes (fst e), snd e)) S) (map (view tb) (filter (young_at T tb) (seq 0 cap)))).
  { apply NoDup_Permutation.
    - pose proof (fr_nodup _ _ _ R) as D. pose proof (fr_flows _ _ _ R) as F. clear R HS.
      induction S as [|[f t] S IH]; cbn; [constructor|]. cbn in D. inversion D; subst. constructor.
      + intros Hin. apply in_map_iff in Hin as ([g u] & E & Hin). cbn [fst snd] in E. apply some_pair in E as [E1 E2].
        apply flow_bytes_inj in E1; [|eapply F; right; exact Hin|eapply F; left; reflexivity]. subst g.
        apply H1. apply in_map_iff. exists (f, u). auto.
      + apply IH; [assumption|]. intros; eapply F; right; eauto.
    - apply (NoDup_map_inv (fun o => o)). rewrite map_id.
      assert (ND : NoDup (filter (young_at T tb) (seq 0 cap))) by (apply NoDup_filter, seq_NoDup).
      assert (Y : forall i, In i (filter (young_at T tb) (seq 0 cap)) -> exists k t, view tb i = Some (k, t)).
      { intros i Hi. apply filter_In in Hi as [_ Hi]. unfold young_at in Hi. destruct (view tb i) as [[k t]|]; [eauto|discriminate]. }
      induction (filter (young_at T tb) (seq 0 cap)) as [|i l IH]; cbn; [constructor|]. inversion ND; subst. constructor.
      + intros Hin. apply in_map_iff in Hin as (j & E & Hin). destruct (Y i (or_introl eq_refl)) as (k & t & Hv).
        assert (j = i); [|subst; auto]. eapply view_inj with (t := t) (t' := t); [exact L|apply (fr_ok _ _ _ R)| |exact Hv]. congruence.
      + apply IH; [assumption|]. intros; apply Y; right; assumption.
    - intros o. split; intros Hin; apply in_map_iff in Hin as (x & <- & Hin); apply in_map_iff.
      + destruct x as [f t]. cbn [fst snd]. pose proof (HS _ Hin) as Ha. apply N.leb_le in Ha. cbn in Ha.
        pose proof (fr_flows _ _ _ R _ _ Hin) as Hf. apply (fr_same _ _ _ R f t Hf Ha) in Hin as [i Hi].
        exists i. split; [exact Hi|]. apply filter_In. split; [apply in_seq|].
        * pose proof (view_lt hash FLOW_SIZE base loc cap exp _ _ _ (fr_ok _ _ _ R) Hi). lia.
        * unfold young_at. rewrite Hi. apply N.leb_le. exact Ha.
      + apply filter_In in Hin as [_ Hy]. unfold young_at in Hy. destruct (view tb x) as [[k t]|] eqn:Hv; [|discriminate].
        apply N.leb_le in Hy. destruct (fr_keys _ _ _ R _ _ _ Hv) as (f & Hf & ->).
        exists (f, t). split; [reflexivity|]. apply (fr_same _ _ _ R f t Hf Hy). eauto. }
  apply Permutation_length in P. rewrite !map_length in P. exact P.
Qed.

Lemma touch_rel : forall T tb tb' S f i, fw_rel T tb S -> (forall e, In e S -> alive exp T e = true) -> flow_ok f ->
  table_ok hash FLOW_SIZE base loc cap exp tb' ->
  ((exists t, view tb i = Some (flow_bytes f, t)) \/
   (forall j t, view tb j <> Some (flow_bytes f, t)) /\
   (view tb i = None \/ exists k0 t0, view tb i = Some (k0, t0) /\ ~ young T exp t0)) ->
  (forall j, view tb' j = if Nat.eqb j i then Some (flow_bytes f, T) else view tb j) ->
  fw_rel T tb' (touch f T S).
Proof.
  intros T tb tb' S f i [A B C D E] HS Hf Ho Hi V. constructor.
  - exact Ho.
  - intros j k t Hj. rewrite V in Hj. destruct (Nat.eqb j i); [apply some_pair in Hj as [<- <-]; eauto|eauto].
  - intros g t [Q|Hin]; [injection Q as <- <-; exact Hf|]. apply filter_In in Hin as [Hin _]. eauto.
  - cbn. constructor; [|apply NoDup_map_filter; exact D].
    intros Hin. apply in_map_iff in Hin as ([g t] & Q & Hin). cbn in Q. subst g. apply filter_In in Hin as [_ Hin]. cbn in Hin.
    rewrite (proj2 (flow_eqb_eq f f) eq_refl) in Hin. discriminate.
  - intros g t Hg Ht. cbn [touch In]. rewrite filter_In. cbn. split.
    + intros [Q|[Hin Hne]].
      * injection Q as <- <-. exists i. rewrite V, Nat.eqb_refl. reflexivity.
      * apply E in Hin as [j Hj]; [|exact Hg|exact Ht]. exists j. rewrite V.
        destruct (Nat.eqb_spec j i) as [->|]; [|exact Hj]. exfalso.
        assert (g <> f) by (intros ->; rewrite (proj2 (flow_eqb_eq f f) eq_refl) in Hne; discriminate).
        destruct Hi as [[t' Hi]|[_ [Hi|(k0 & t0 & Hi & Hy)]]]; rewrite Hi in Hj; [|discriminate|].
        -- apply some_pair in Hj as [Q _]. apply flow_bytes_inj in Q; [|assumption|assumption]. congruence.
        -- apply some_pair in Hj as [_ ->]. apply Hy. unfold young. lia.
    + intros [j Hj]. rewrite V in Hj. destruct (Nat.eqb_spec j i) as [Ej|Hne].
      * apply some_pair in Hj as [Q <-]. apply flow_bytes_inj in Q; [|assumption|assumption]. subst g. left. reflexivity.
      * right. split; [apply E; eauto|]. apply negb_true_iff. destruct (flow_eqb f g) eqn:Q; [|reflexivity].
        apply flow_eqb_eq in Q. subst g. exfalso. destruct Hi as [[t' Hi]|[Hn _]]; [|exact (Hn j t Hj)].
        apply Hne. eapply view_inj; [exact L|exact A|exact Hj|exact Hi].
Qed.

Lemma fw_step_refines : forall T tb S p, fw_rel T tb S -> pkt_ok p -> (T <= p_time p)%N ->
  let (o, tb') := fw_handle tb p in
  let (o', S') := fw_spec exp cap S p in
  o = o' /\ fw_rel (p_time p) tb' S'.
Proof.
  intros T tb S p R Hp HT. apply (fr_later _ _ _ _ HT) in R. unfold fw_handle, fw_spec.
  destruct (negb (is_ipv4 p && is_tcpudp p)); [split; [reflexivity|exact R]|].
  pose proof (fr_live _ _ _ R) as RL. set (live := filter (alive exp (p_time p)) S) in *.
  assert (HS : forall e, In e live -> alive exp (p_time p) e = true) by (intros e He; apply filter_In in He; tauto).
  assert (Ht : (p_time p < TIME_MAX)%N) by (unfold pkt_ok in Hp; tauto).
  pose proof (fr_ok _ _ _ RL) as Ho.
  destruct (p_device p =? external)%N.
  - pose proof (pkt_rev_flow_ok p Hp) as Hf. set (f := pkt_rev_flow p) in *. unfold has_external.
    pose proof (find_spec hash FLOW_SIZE base loc cap exp L tb (flow_bytes f) Ho (flow_bytes_length f)) as FS.
    destruct (tfind' tb (flow_bytes f)) as [i|] eqn:F.
    + destruct (proj1 (FS i) eq_refl) as [t Hv].
      pose proof (used_spec hash FLOW_SIZE base loc cap exp tb (p_time p) i Ho) as US.
      destruct (pool_used (tpool tb) (p_time p) i).
      * destruct (proj1 US eq_refl) as (k & t' & Hv' & Hy). rewrite Hv in Hv'. apply some_pair in Hv' as [<- <-].
        assert (Hh : has f live = true).
        { apply has_In. exists t. apply (fr_same _ _ _ RL f t Hf); [unfold young in Hy; lia|]. eauto. }
        rewrite Hh. split; [reflexivity|].
        destruct (refresh_ok hash FLOW_SIZE base loc cap exp tb i (p_time p) Ho Ht (ex_intro _ _ Hv)) as [Ho' V].
        eapply touch_rel; [exact RL|exact HS|exact Hf|exact Ho'|left; exists t; exact Hv|].
        rewrite <- (view_key _ _ _ _ Hv) in V. exact V.
      * assert (Hh : has f live = false).
        { destruct (has f live) eqn:Hh; [|reflexivity]. exfalso. apply has_In in Hh as [u Hin].
          pose proof (HS _ Hin) as Ha. apply N.leb_le in Ha. cbn in Ha.
          apply (fr_same _ _ _ RL f u Hf Ha) in Hin as [j Hj].
          assert (j = i) by (eapply view_inj; [exact L|exact Ho|exact Hj|exact Hv]). subst j.
          assert (false = true); [|discriminate]. apply US. exists (flow_bytes f), u. split; [exact Hj|unfold young; lia]. }
        rewrite Hh. split; [reflexivity|exact RL].
    + assert (Hh : has f live = false).
      { destruct (has f live) eqn:Hh; [|reflexivity]. exfalso. apply has_In in Hh as [u Hin].
        pose proof (HS _ Hin) as Ha. apply N.leb_le in Ha. cbn in Ha.
        apply (fr_same _ _ _ RL f u Hf Ha) in Hin as [j Hj].
        assert (None = Some j) by (apply FS; eauto). discriminate. }
      rewrite Hh. split; [reflexivity|exact RL].
  - pose proof (pkt_flow_ok p Hp) as Hf. set (f := pkt_flow p) in *.
    pose proof (learn_spec hash FLOW_SIZE base loc cap exp L tb (p_time p) (flow_bytes f) Ho (flow_bytes_length f) Ht) as LS.
    destruct (tlearn' tb (p_time p) (flow_bytes f)) as [r tb'] eqn:E. destruct LS as [Ho' LS].
    split; [reflexivity|].
    pose proof (youngs_count _ _ _ RL HS) as HC.
    assert (FH : has f live = true -> exists i t, view tb i = Some (flow_bytes f, t) /\ young (p_time p) exp t).
    { intros Hh. apply has_In in Hh as [u Hin]. pose proof (HS _ Hin) as Ha. apply N.leb_le in Ha. cbn in Ha.
      apply (fr_same _ _ _ RL f u Hf Ha) in Hin as [j Hj]. exists j, u. split; [exact Hj|unfold young; lia]. }
    destruct r as [i|].
    + destruct LS as (Hi & Hd & V).
      assert (Hlearn : has f live || (length live <? cap) = true).
      { destruct (has f live) eqn:Hh; [reflexivity|]. cbn. apply Nat.ltb_lt. rewrite HC.
        rewrite <- (seq_length cap 0) at 2.
        assert (Hy : young_at (p_time p) tb i = false).
        { unfold young_at. destruct Hd as [[t Hv]|[Hn [Hv|(k0 & t0 & Hv & Hy)]]]; rewrite Hv; [|reflexivity|].
          - destruct (N.leb_spec (p_time p) (t + exp)); [|reflexivity]. exfalso.
            assert (has f live = true); [|congruence]. apply has_In. exists t. apply (fr_same _ _ _ RL f t Hf); eauto.
          - apply N.leb_gt. unfold young in Hy. lia. }
        assert (Hin : In i (seq 0 cap)) by (apply in_seq; lia).
        clear -Hy Hin. induction (seq 0 cap) as [|j l IH]; [destruct Hin|]. cbn. destruct Hin as [->|Hin].
        - rewrite Hy. pose proof (filter_length_le_seq _ (young_at (p_time p) tb) l). lia.
        - destruct (young_at (p_time p) tb j); cbn; specialize (IH Hin); lia. }
      rewrite Hlearn. eapply touch_rel; eauto.
    + destruct LS as (Hall & Hn & V).
      assert (Hlearn : has f live || (length live <? cap) = false).
      { apply orb_false_iff. split.
        - destruct (has f live) eqn:Hh; [|reflexivity]. exfalso. destruct (FH eq_refl) as (i & t & Hv & _). exact (Hn i t Hv).
        - apply Nat.ltb_ge. rewrite HC. rewrite <- (seq_length cap 0) at 1.
          assert (Q : filter (young_at (p_time p) tb) (seq 0 cap) = seq 0 cap); [|rewrite Q; lia].
          assert (A : forall i, In i (seq 0 cap) -> young_at (p_time p) tb i = true).
          { intros i Hi. apply in_seq in Hi. destruct (Hall i) as (k & t & Hv & Hy); [lia|]. unfold young_at. rewrite Hv.
            apply N.leb_le. unfold young in Hy. lia. }
          clear -A. induction (seq 0 cap) as [|j l IH]; [reflexivity|]. cbn. rewrite A by (left; reflexivity).
          f_equal. apply IH. intros; apply A; right; assumption. }
      rewrite Hlearn. destruct RL as [A B C D F]. constructor; auto.
      * intros i k t Hi. rewrite V in Hi. eauto.
      * intros g t Hg Ht'. rewrite F by assumption. split; intros [j Hj]; exists j; [rewrite V|rewrite V in Hj]; exact Hj.
Qed.

Lemma fw_run_refines : forall ps T tb S, fw_rel T tb S -> Forall pkt_ok ps -> ordered T ps ->
  fst (fw_run tb ps) = fst (fw_spec_run exp cap S ps) /\
  exists T', fw_rel T' (snd (fw_run tb ps)) (snd (fw_spec_run exp cap S ps)).
Proof.
  induction ps as [|p ps IH]; intros T tb S R Hp Hor; [cbn; eauto|].
  inversion Hp; subst. destruct Hor as [H0 Hor]. cbn [fw_run fw_spec_run].
  pose proof (fw_step_refines T tb S p R H1 H0) as ST.
  destruct (fw_handle tb p) as [o tb1]. destruct (fw_spec exp cap S p) as [o' S1]. destruct ST as [<- R1].
  destruct (IH _ tb1 S1 R1 H2 Hor) as [E R2].
  destruct (fw_run tb1 ps) as [os tb2]. destruct (fw_spec_run exp cap S1 ps) as [os' S2]. cbn in *. subst os'. auto.
Qed.

Lemma fw_init_rel : (N.of_nat cap <= 2 ^ 63)%N -> fw_rel 0 (talloc FLOW_SIZE cap exp) [].
Proof.
  intros HC. constructor.
  - apply talloc_ok; [exact L|exact HC].
  - intros i k t H. rewrite talloc_view in H. discriminate.
  - intros f t [].
  - constructor.
  - intros f t _ _. split; [intros []|]. intros [i H]. rewrite talloc_view in H. discriminate.
Qed.

Theorem fw_correct : forall ps, (N.of_nat cap <= 2 ^ 63)%N -> Forall pkt_ok ps -> ordered 0 ps ->
  fst (fw_run (talloc FLOW_SIZE cap exp) ps) = fst (fw_spec_run exp cap [] ps).
Proof. intros ps HC Hp Ho. apply (fw_run_refines ps 0); auto. apply fw_init_rel. exact HC. Qed.

(** ** Histories, whatever the clock does: latest event first *)
Definition event := (pkt * option N)%type.
(** The packet is from inside and of flow [f]. *)
Definition opens (f : flow) (e : event) : bool :=
  is_ipv4 (fst e) && is_tcpudp (fst e) && negb (p_device (fst e) =? external)%N && flow_eqb f (pkt_flow (fst e)).
(** The packet is from outside, is the reverse of [f], and was let through. *)
Definition answers (f : flow) (e : event) : bool :=
  is_ipv4 (fst e) && is_tcpudp (fst e) && (p_device (fst e) =? external)%N && flow_eqb f (pkt_rev_flow (fst e)) &&
  match snd e with Some _ => true | None => false end.
Fixpoint last_active (f : flow) (h : list event) : option N :=
  match h with
  | [] => None
  | e :: h' => if opens f e || answers f e then Some (p_time (fst e)) else last_active f h'
  end.

Inductive fw_hist : list event -> table -> Prop :=
| fh_nil : fw_hist [] (talloc FLOW_SIZE cap exp)
| fh_cons : forall h tb p o tb', fw_hist h tb -> pkt_ok p -> fw_handle tb p = (o, tb') -> fw_hist ((p, o) :: h) tb'.

Lemma fw_hist_inv : (N.of_nat cap <= 2 ^ 63)%N -> forall h tb, fw_hist h tb ->
  table_ok hash FLOW_SIZE base loc cap exp tb /\
  forall i k t, view tb i = Some (k, t) ->
    exists f, flow_ok f /\ k = flow_bytes f /\ last_active f h = Some t /\ exists e, In e h /\ opens f e = true.
Proof.
  intros HC h tb H. induction H as [|h tb p o tb' H [IHo IH] Hp E].
  { split; [apply talloc_ok; [exact L|exact HC]|]. intros i k t Q. rewrite talloc_view in Q. discriminate. }
  assert (Ht : (p_time p < TIME_MAX)%N) by (unfold pkt_ok in Hp; tauto).
  assert (Same : forall o', (forall f, flow_ok f -> (exists i t, view tb i = Some (flow_bytes f, t)) -> opens f (p, o') || answers f (p, o') = false) ->
    forall i k t, view tb i = Some (k, t) ->
    exists f, flow_ok f /\ k = flow_bytes f /\ last_active f ((p, o') :: h) = Some t /\ exists e, In e ((p, o') :: h) /\ opens f e = true).
  { intros o' Hno i k t Hv. destruct (IH i k t Hv) as (f & Hf & -> & Hl & e & Hin & He). exists f. split; [exact Hf|].
    split; [reflexivity|]. cbn [last_active]. rewrite Hno by eauto. split; [exact Hl|]. exists e. split; [right; exact Hin|exact He]. }
  assert (Touch : forall o' tb1 f0 i0, flow_ok f0 -> opens f0 (p, o') || answers f0 (p, o') = true ->
    (forall f, opens f (p, o') || answers f (p, o') = true -> f = f0) ->
    (opens f0 (p, o') = true \/ exists t, view tb i0 = Some (flow_bytes f0, t)) ->
    (forall j t, j <> i0 -> view tb j <> Some (flow_bytes f0, t)) ->
    (forall j, view tb1 j = if Nat.eqb j i0 then Some (flow_bytes f0, p_time p) else view tb j) ->
    forall i k t, view tb1 i = Some (k, t) ->
    exists f, flow_ok f /\ k = flow_bytes f /\ last_active f ((p, o') :: h) = Some t /\ exists e, In e ((p, o') :: h) /\ opens f e = true).
  { intros o' tb1 f0 i0 Hf0 Ht0 Huniq Hop Hother V i k t Hv. rewrite V in Hv. destruct (Nat.eqb_spec i i0) as [->|Hne].
    - apply some_pair in Hv as [<- <-]. exists f0. split; [exact Hf0|]. split; [reflexivity|]. cbn [last_active fst]. rewrite Ht0. split; [reflexivity|].
      destruct Hop as [Hop|[t Ht1]]; [exists (p, o'); split; [left; reflexivity|exact Hop]|].
      destruct (IH _ _ _ Ht1) as (f & Hf & Q & _ & e & Hin & He). apply flow_bytes_inj in Q; [|assumption|assumption]. subst f.
      exists e. split; [right; exact Hin|exact He].
    - destruct (IH i k t Hv) as (f & Hf & -> & Hl & e & Hin & He). exists f. split; [exact Hf|]. split; [reflexivity|].
      cbn [last_active]. destruct (opens f (p, o') || answers f (p, o')) eqn:Q.
      + apply Huniq in Q. subst f. exfalso. exact (Hother i t Hne Hv).
      + split; [exact Hl|]. exists e. split; [right; exact Hin|exact He]. }
  unfold fw_handle in E. destruct (negb (is_ipv4 p && is_tcpudp p)) eqn:G.
  { injection E as <- <-. split; [exact IHo|]. apply Same. intros f _ _. unfold opens, answers. cbn [fst snd].
    apply negb_true_iff in G. rewrite G. reflexivity. }
  apply negb_false_iff in G. destruct (p_device p =? external)%N eqn:Dv.
  - pose proof (pkt_rev_flow_ok p Hp) as Hf. unfold has_external in E.
    pose proof (find_spec hash FLOW_SIZE base loc cap exp L tb (flow_bytes (pkt_rev_flow p)) IHo (flow_bytes_length _)) as FS.
    assert (Hnone : forall f, opens f (p, None) || answers f (p, None) = false).
    { intros f. unfold opens, answers. cbn [fst snd]. rewrite Dv. cbn. rewrite !andb_false_r. reflexivity. }
    destruct (tfind' tb (flow_bytes (pkt_rev_flow p))) as [i|] eqn:F.
    + destruct (proj1 (FS i) eq_refl) as [t Hv]. destruct (pool_used (tpool tb) (p_time p) i).
      * injection E as <- <-.
        destruct (refresh_ok hash FLOW_SIZE base loc cap exp tb i (p_time p) IHo Ht (ex_intro _ _ Hv)) as [Ho' V].
        split; [exact Ho'|]. rewrite <- (view_key _ _ _ _ Hv) in V.
        eapply Touch; [exact Hf| | | | |exact V].
        -- unfold opens, answers. cbn [fst snd]. rewrite G, Dv, (proj2 (flow_eqb_eq _ _) eq_refl). apply orb_true_r.
        -- intros f Q. unfold opens, answers in Q. cbn [fst snd] in Q. rewrite G, Dv in Q. cbn in Q. rewrite andb_true_r in Q.
           apply flow_eqb_eq in Q. exact Q.
        -- right. exists t. exact Hv.
        -- intros j t' Hne Hj. apply Hne. eapply view_inj; [exact L|exact IHo|exact Hj|exact Hv].
      * injection E as <- <-. split; [exact IHo|]. apply Same. intros f _ _. apply Hnone.
    + injection E as <- <-. split; [exact IHo|]. apply Same. intros f _ _. apply Hnone.
  - pose proof (pkt_flow_ok p Hp) as Hf.
    pose proof (learn_spec hash FLOW_SIZE base loc cap exp L tb (p_time p) (flow_bytes (pkt_flow p)) IHo (flow_bytes_length _) Ht) as LS.
    destruct (tlearn' tb (p_time p) (flow_bytes (pkt_flow p))) as [r tb1]. injection E as <- <-. destruct LS as [Ho' LS].
    assert (Huniq : forall f o', opens f (p, o') || answers f (p, o') = true -> f = pkt_flow p).
    { intros f o' Q. unfold opens, answers in Q. cbn [fst snd] in Q. rewrite G, Dv in Q. cbn in Q. rewrite orb_false_r in Q.
      apply flow_eqb_eq in Q. exact Q. }
    split; [exact Ho'|]. destruct r as [i|].
    + destruct LS as (Hi & Hd & V). eapply Touch; [exact Hf| | | | |exact V].
      * unfold opens. cbn [fst snd]. rewrite G, Dv, (proj2 (flow_eqb_eq _ _) eq_refl). reflexivity.
      * intros f. apply Huniq.
      * left. unfold opens. cbn [fst snd]. rewrite G, Dv, (proj2 (flow_eqb_eq _ _) eq_refl). reflexivity.
      * intros j t Hne Hj. destruct Hd as [[t' Hd]|[Hn _]]; [|exact (Hn j t Hj)]. apply Hne. eapply view_inj; [exact L|exact IHo|exact Hj|exact Hd].
    + destruct LS as (_ & Hn & V). intros i k t Hv. rewrite V in Hv. revert i k t Hv. apply Same. intros f Hf' (i & t & Hv).
      destruct (opens f _ || answers f _) eqn:Q; [|reflexivity]. apply Huniq in Q. subst f. exfalso. exact (Hn i t Hv).
Qed.

Lemma fw_only_open : (N.of_nat cap <= 2 ^ 63)%N -> forall h tb p o tb', fw_hist h tb -> pkt_ok p ->
  fw_handle tb p = (o, tb') -> p_device p = external -> o <> None ->
  exists t, last_active (pkt_rev_flow p) h = Some t /\ (p_time p <= t + exp)%N /\
    exists e, In e h /\ opens (pkt_rev_flow p) e = true /\ snd e <> None.
Proof.
  intros HC h tb p o tb' H Hp E Hd Ho. destruct (fw_hist_inv HC h tb H) as [Hok Hinv].
  unfold fw_handle in E. destruct (negb (is_ipv4 p && is_tcpudp p)); [injection E as <- <-; congruence|].
  rewrite (proj2 (N.eqb_eq _ _) Hd) in E. unfold has_external in E.
  pose proof (find_spec hash FLOW_SIZE base loc cap exp L tb (flow_bytes (pkt_rev_flow p)) Hok (flow_bytes_length _)) as FS.
  destruct (tfind' tb (flow_bytes (pkt_rev_flow p))) as [i|]; [|injection E as <- <-; congruence].
  destruct (proj1 (FS i) eq_refl) as [t Hv].
  pose proof (used_spec hash FLOW_SIZE base loc cap exp tb (p_time p) i Hok) as US.
  destruct (pool_used (tpool tb) (p_time p) i); [|injection E as <- <-; congruence].
  destruct (proj1 US eq_refl) as (k & t' & Hv' & Hy). rewrite Hv in Hv'. apply some_pair in Hv' as [<- <-].
  destruct (Hinv i _ t Hv) as (f & Hf & Q & Hl & e & Hin & He).
  apply flow_bytes_inj in Q; [|apply pkt_rev_flow_ok; exact Hp|exact Hf]. subst f.
  exists t. split; [exact Hl|]. split; [unfold young in Hy; lia|]. exists e. split; [exact Hin|]. split; [exact He|].
  (* packets from inside are always forwarded *)
  clear -H He Hin. induction H as [|h tb0 q o tb1 H IH Hq E]; [destruct Hin|]. destruct Hin as [<-|Hin]; [|auto].
  unfold opens in He. cbn [fst snd] in *. rewrite !andb_true_iff, negb_true_iff in He. destruct He as [[[G1 G2] Dv] _].
  unfold fw_handle in E. rewrite G1, G2, Dv in E. cbn in E.
  destruct (tlearn' tb0 _ _). injection E as <- <-. discriminate.
Qed.
End Firewall.
