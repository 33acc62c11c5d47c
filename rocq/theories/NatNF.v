(** * The NAT (nf/nat) *)

From Coq Require Import NArith ZArith List Bool Lia Arith.
From Verif Require Import IndexPool HashMap Table Firewall Packet.
Import ListNotations.
Open Scope nat_scope.

(** Reading a struct flow back from its bytes. *)
Definition unle (l : bytes) : N := fold_right (fun b acc => b + 256 * acc)%N 0%N l.
Definition unflow (b : bytes) : flow :=
  mkFlow (unle (firstn 4 b)) (unle (firstn 4 (skipn 4 b))) (unle (firstn 2 (skipn 8 b)))
         (unle (firstn 2 (skipn 10 b))) (unle (firstn 1 (skipn 12 b))).

Lemma unle_le : forall n v, (v < 256 ^ N.of_nat n)%N -> unle (le n v) = v.
Proof.
  induction n as [|n IH]; intros v Hv; [cbn in *; lia|]. cbn [le unle fold_right]. fold (unle (le n (v / 256))).
  rewrite Nat2N.inj_succ, N.pow_succ_r' in Hv. rewrite IH by (apply N.div_lt_upper_bound; lia).
  rewrite (N.div_mod v 256) at 3 by lia. lia.
Qed.

Lemma unflow_bytes : forall f, flow_ok f -> unflow (flow_bytes f) = f.
Proof.
  intros [a b c d e] (H1 & H2 & H3 & H4 & H5). cbn [f_src f_dst f_sport f_dport f_proto] in *.
  assert (E : forall n (x y : bytes), length x = n -> firstn n (x ++ y) = x /\ skipn n (x ++ y) = y).
  { intros n x y <-. rewrite firstn_app, skipn_app, Nat.sub_diag, firstn_all, skipn_all. cbn. rewrite app_nil_r. auto. }
  unfold unflow.
  assert (F : flow_bytes (mkFlow a b c d e) = le 4 a ++ le 4 b ++ le 2 c ++ le 2 d ++ le 1 e ++ [0; 0; 0]%N) by reflexivity.
  rewrite F. clear F.
  assert (S4 : forall t, skipn 4 (le 4 a ++ t) = t) by (intros; apply E; apply le_length).
  assert (S8 : forall t, skipn 8 (le 4 a ++ le 4 b ++ t) = t).
  { intros. rewrite app_assoc. apply E. rewrite app_length, !le_length. reflexivity. }
  assert (S10 : forall t, skipn 10 (le 4 a ++ le 4 b ++ le 2 c ++ t) = t).
  { intros. rewrite !app_assoc. apply E. rewrite !app_length, !le_length. reflexivity. }
  assert (S12 : forall t, skipn 12 (le 4 a ++ le 4 b ++ le 2 c ++ le 2 d ++ t) = t).
  { intros. rewrite !app_assoc. apply E. rewrite !app_length, !le_length. reflexivity. }
  rewrite S4, S8, S10, S12.
  rewrite !(fun n v t => proj1 (E n (le n v) t (le_length n v))).
  rewrite !unle_le; [reflexivity|exact H5|exact H4|exact H3|exact H2|exact H1].
Qed.

Section Nat.
Variable hash : bytes -> N.
Variables base loc : N.
Variables wan ext_addr start_port : N.
Notation tlearn' := (tlearn hash FLOW_SIZE base loc).

(** nf/nat/flow_table.h 66 and 60: 16-bit arithmetic. *)
Definition port_index (port : N) : nat := N.to_nat ((port + 65536 - start_port) mod 65536)%N.
Definition index_port (i : nat) : N := ((start_port + N.of_nat i mod 65536) mod 65536)%N.

(** nat.c 46-47 and 61-62 with the checksums, then the two stores. *)
Definition rewrite_dst (d : data) (addr port : N) : data :=
  let d1 := net_packet_checksum_update_32 d (ld32 d (IP + 16)) addr true in
  let d2 := net_packet_checksum_update d1 (ld16 d1 (L4 + 2)) port false in
  st16 (st32 d2 (IP + 16) addr) (L4 + 2) port.
Definition rewrite_src (d : data) (addr port : N) : data :=
  let d1 := net_packet_checksum_update_32 d (ld32 d (IP + 12)) addr true in
  let d2 := net_packet_checksum_update d1 (ld16 d1 L4) port false in
  st16 (st32 d2 (IP + 12) addr) L4 port.

(** nat.c 31-83 with flow_table.h 42-78: the device and the bytes sent, if the packet is
    sent. The Ethernet addresses, which net_transmit rewrites afterwards, are not
    modelled. *)
Definition nat_handle (tb : table) (r : rpkt) : option (N * data) * table :=
  let p := parse r in
  if negb (is_ipv4 p && is_tcpudp p) then (None, tb)
  else if (p_device p =? wan)%N then
    let index := port_index (l4_dst p) in
    if negb (pool_used (tpool tb) (p_time p) index) then (None, tb)
    else
      let tb' := mkTab (keys tb) (tmap tb) (pool_refresh (tpool tb) (p_time p) index) in
      let f := unflow (nth index (keys tb) []) in
      if negb (f_dst f =? ip_src p)%N || negb (f_dport f =? l4_src p)%N || negb (f_proto f =? ip_proto p)%N
      then (None, tb')
      else (Some ((1 - p_device p)%N, rewrite_dst (r_data r) (f_src f) (f_sport f)), tb')
  else
    match tlearn' tb (p_time p) (flow_bytes (pkt_flow p)) with
    | (None, tb') => (None, tb')
    | (Some index, tb') => (Some ((1 - p_device p)%N, rewrite_src (r_data r) ext_addr (index_port index)), tb')
    end.

(** ** What the rewritten packets contain *)
Lemma rewrite_dst_fields : forall d addr port, data_ok d -> (addr < 2 ^ 32)%N -> (port < 2 ^ 16)%N ->
  let d' := rewrite_dst d addr port in
  data_ok d' /\ ld32 d' (IP + 16) = addr /\ ld16 d' (L4 + 2) = port /\ ld16 d' L4 = ld16 d L4 /\ d' (IP + 9)%N = d (IP + 9)%N.
Proof.
  intros d addr port Hd Ha Hp. unfold rewrite_dst. cbv zeta.
  set (d1 := net_packet_checksum_update_32 d (ld32 d (IP + 16)) addr true).
  set (d2 := net_packet_checksum_update d1 (ld16 d1 (L4 + 2)) port false).
  assert (E : forall a, (a < IP + 12 \/ (IP + 13 < a /\ a < L4 + 6))%N -> d2 a = d a).
  { intros a H. unfold d2. rewrite checksum_update_same by (unfold IP, L4 in *; intuition (try discriminate; lia)).
    unfold d1. apply checksum_update_32_same; unfold IP, L4 in *; intuition lia. }
  split; [|split; [|split; [|split]]].
  - apply st16_ok, st32_ok. unfold d2, d1. apply checksum_update_ok, checksum_update_32_ok. exact Hd.
  - rewrite st16_other32 by (unfold IP, L4; lia). apply st32_same. exact Ha.
  - apply st16_same. exact Hp.
  - rewrite st16_other by (unfold IP, L4; lia). rewrite st32_other16 by (unfold IP, L4; lia).
    unfold ld16. rewrite !E by (unfold IP, L4; lia). reflexivity.
  - rewrite st16_byte by (unfold IP, L4; lia). rewrite st32_byte by (unfold IP, L4; lia). apply E. unfold IP, L4. lia.
Qed.
Lemma rewrite_src_fields : forall d addr port, data_ok d -> (addr < 2 ^ 32)%N -> (port < 2 ^ 16)%N ->
  let d' := rewrite_src d addr port in
  data_ok d' /\ ld32 d' (IP + 12) = addr /\ ld16 d' L4 = port /\ ld16 d' (L4 + 2) = ld16 d (L4 + 2) /\
  ld32 d' (IP + 16) = ld32 d (IP + 16) /\ d' (IP + 9)%N = d (IP + 9)%N.
Proof.
  intros d addr port Hd Ha Hp. unfold rewrite_src. cbv zeta.
  set (d1 := net_packet_checksum_update_32 d (ld32 d (IP + 12)) addr true).
  set (d2 := net_packet_checksum_update d1 (ld16 d1 L4) port false).
  assert (E : forall a, (a < IP + 12 \/ (IP + 13 < a /\ a < L4 + 6))%N -> d2 a = d a).
  { intros a H. unfold d2. rewrite checksum_update_same by (unfold IP, L4 in *; intuition (try discriminate; lia)).
    unfold d1. apply checksum_update_32_same; unfold IP, L4 in *; intuition lia. }
  split; [|split; [|split; [|split; [|split]]]].
  - apply st16_ok, st32_ok. unfold d2, d1. apply checksum_update_ok, checksum_update_32_ok. exact Hd.
  - rewrite st16_other32 by (unfold IP, L4; lia). apply st32_same. exact Ha.
  - apply st16_same. exact Hp.
  - rewrite st16_other by (unfold IP, L4; lia). rewrite st32_other16 by (unfold IP, L4; lia).
    unfold ld16. rewrite !E by (unfold IP, L4; lia). reflexivity.
  - rewrite st16_other32 by (unfold IP, L4; lia). rewrite st32_other by (unfold IP, L4; lia).
    unfold ld32, ld16. rewrite !E by (unfold IP, L4; lia). reflexivity.
  - rewrite st16_byte by (unfold IP, L4; lia). rewrite st32_byte by (unfold IP, L4; lia). apply E. unfold IP, L4. lia.
Qed.

(** ** Histories, latest event first *)
Definition nevent := (rpkt * option (N * data))%type.
Variable cap : nat.
Variable exp : N.

Inductive nat_hist : list nevent -> table -> Prop :=
| nh_nil : nat_hist [] (talloc FLOW_SIZE cap exp)
| nh_cons : forall h tb r o tb', nat_hist h tb -> rpkt_ok r -> nat_handle tb r = (o, tb') -> nat_hist ((r, o) :: h) tb'.

Definition inside (e : nevent) : bool := negb (p_device (parse (fst e)) =? wan)%N.
(** The external port an outgoing packet was given. *)
Definition given_port (e : nevent) : option N :=
  if inside e then match snd e with Some (_, d) => Some (ld16 d L4) | None => None end else None.
(** The flow that got port [q] last. *)
Fixpoint owner (q : N) (h : list nevent) : option flow :=
  match h with
  | [] => None
  | e :: h' => match given_port e with
               | Some q' => if (q' =? q)%N then Some (pkt_flow (parse (fst e))) else owner q h'
               | None => owner q h'
               end
  end.
(** The event is translated traffic on port [q]. *)
Definition uses (q : N) (e : nevent) : Prop :=
  given_port e = Some q \/ (inside e = false /\ snd e <> None /\ l4_dst (parse (fst e)) = q).

Lemma index_port_lt : forall i, (index_port i < 2 ^ 16)%N.
Proof. intros. unfold index_port. apply N.mod_lt. lia. Qed.

Hypothesis L : layout_ok FLOW_SIZE base loc cap.
Hypothesis HC : (N.of_nat cap <= 2 ^ 63)%N.
Hypothesis Hstart : (start_port < 65536)%N.
Hypothesis Haddr : (ext_addr < 2 ^ 32)%N.

Lemma port_index_port : forall i, (N.of_nat i < 65536)%N -> port_index (index_port i) = i.
Proof.
  intros i Hi. unfold port_index, index_port. rewrite (N.mod_small (N.of_nat i)) by lia.
  assert (N.of_nat i < 65536)%N by lia. set (n := N.of_nat i) in *.
  replace ((start_port + n) mod 65536 + 65536 - start_port)%N with (if (start_port + n <? 65536)%N then n + 1 * 65536 else n)%N.
  - destruct (start_port + n <? 65536)%N; [rewrite N.mod_add by lia|]; rewrite N.mod_small by lia; unfold n; apply Nat2N.id.
  - destruct (N.ltb_spec (start_port + n) 65536).
    + rewrite N.mod_small by lia. lia.
    + replace ((start_port + n) mod 65536)%N with (start_port + n - 65536)%N; [lia|].
      replace (start_port + n)%N with (start_port + n - 65536 + 1 * 65536)%N at 2 by lia.
      rewrite N.mod_add by lia. rewrite N.mod_small by lia. reflexivity.
Qed.
Lemma index_port_inj : forall i j, (N.of_nat i < 65536)%N -> (N.of_nat j < 65536)%N -> index_port i = index_port j -> i = j.
Proof. intros i j Hi Hj E. rewrite <- (port_index_port i), <- (port_index_port j), E by assumption. reflexivity. Qed.
Lemma index_port_index : forall q, (q < 65536)%N -> index_port (port_index q) = q.
Proof.
  intros q Hq. unfold index_port, port_index. rewrite N2Nat.id. rewrite (N.mod_mod _ 65536) by lia.
  rewrite N.add_mod_idemp_r by lia. replace (start_port + (q + 65536 - start_port))%N with (q + 1 * 65536)%N by lia.
  rewrite N.mod_add by lia. apply N.mod_small. exact Hq.
Qed.
Lemma port_index_lt : forall q, (N.of_nat (port_index q) < 65536)%N.
Proof. intros. unfold port_index. assert ((q + 65536 - start_port) mod 65536 < 65536)%N by (apply N.mod_lt; lia). lia. Qed.

(** Events of a step. *)
Lemma given_out : forall r i, rpkt_ok r -> (p_device (parse r) =? wan)%N = false ->
  given_port (r, Some ((1 - p_device (parse r))%N, rewrite_src (r_data r) ext_addr (index_port i))) = Some (index_port i).
Proof.
  intros r i Hr Hd. unfold given_port, inside. cbn [fst snd]. rewrite Hd. cbn. f_equal.
  apply rewrite_src_fields; [apply Hr|exact Haddr|apply index_port_lt].
Qed.

Lemma nat_inv : forall h tb, nat_hist h tb ->
  table_ok hash FLOW_SIZE base loc cap exp tb /\
  forall i k t, view tb i = Some (k, t) ->
    exists f e, flow_ok f /\ k = flow_bytes f /\ In e h /\ given_port e = Some (index_port i) /\ pkt_flow (parse (fst e)) = f /\
      ((N.of_nat cap <= 65536)%N -> owner (index_port i) h = Some f).
Proof.
  intros h tb H. induction H as [|h tb r o tb' H [IHo IH] Hr E].
  { split; [apply talloc_ok; [exact L|exact HC]|]. intros i k t Q. rewrite talloc_view in Q. discriminate. }
  pose proof (parse_ok r Hr) as Hp. set (p := parse r) in *.
  assert (Ht : (p_time p < TIME_MAX)%N) by (unfold pkt_ok in Hp; tauto).
  assert (Keep : forall o', ((N.of_nat cap <= 65536)%N -> forall i kt, view tb i = Some kt -> given_port (r, o') = Some (index_port i) -> False) ->
    forall i k, (exists t', view tb i = Some (k, t')) ->
    exists f e, flow_ok f /\ k = flow_bytes f /\ In e ((r, o') :: h) /\ given_port e = Some (index_port i) /\ pkt_flow (parse (fst e)) = f /\
      ((N.of_nat cap <= 65536)%N -> owner (index_port i) ((r, o') :: h) = Some f)).
  { intros o' Hno i k [t' Hv]. destruct (IH i k t' Hv) as (f & e & Hf & Hk & Hin & Hg & Hpf & Hown). exists f, e.
    split; [exact Hf|]. split; [exact Hk|]. split; [right; exact Hin|]. split; [exact Hg|]. split; [exact Hpf|].
    intros Hcap. cbn [owner]. destruct (given_port (r, o')) as [q|] eqn:G; [|exact (Hown Hcap)].
    destruct (N.eqb_spec q (index_port i)) as [->|_]; [|exact (Hown Hcap)].
    exfalso. exact (Hno Hcap i _ Hv eq_refl). }
  unfold nat_handle in E. fold p in E. destruct (negb (is_ipv4 p && is_tcpudp p)) eqn:G.
  { injection E as <- <-. split; [exact IHo|]. intros i k t Hv. apply (Keep None); [|eauto].
    intros _ j kt _ Q. unfold given_port in Q. cbn in Q. destruct (inside _); discriminate. }
  destruct (p_device p =? wan)%N eqn:Dv.
  - assert (NG : forall o', given_port (r, o') = None).
    { intros o'. unfold given_port, inside. cbn [fst]. fold p. rewrite Dv. reflexivity. }
    assert (Keep' : forall o' i k t, view tb i = Some (k, t) ->
      exists f e, flow_ok f /\ k = flow_bytes f /\ In e ((r, o') :: h) /\ given_port e = Some (index_port i) /\ pkt_flow (parse (fst e)) = f /\
      ((N.of_nat cap <= 65536)%N -> owner (index_port i) ((r, o') :: h) = Some f)).
    { intros o' i k t Hv. apply (Keep o'); [|eauto]. intros _ j kt _ Q. rewrite NG in Q. discriminate. }
    pose proof (used_spec hash FLOW_SIZE base loc cap exp tb (p_time p) (port_index (l4_dst p)) IHo) as US.
    set (index := port_index (l4_dst p)) in *.
    destruct (pool_used (tpool tb) (p_time p) index); cbn [negb] in E; [|injection E as <- <-; split; [exact IHo|apply Keep']].
    destruct (proj1 US eq_refl) as (k0 & t0 & Hv0 & _).
    destruct (refresh_ok hash FLOW_SIZE base loc cap exp tb index (p_time p) IHo Ht (ex_intro _ _ Hv0)) as [Ho' V].
    match type of E with (if ?b then _ else _) = _ => destruct b end; injection E as <- <-; (split; [exact Ho'|]);
      intros i k t Hv; rewrite V in Hv; destruct (Nat.eqb_spec i index) as [->|];
      [apply some_pair in Hv as [<- <-]; rewrite <- (view_key _ _ _ _ Hv0); eapply Keep'; exact Hv0|eapply Keep'; exact Hv
      |apply some_pair in Hv as [<- <-]; rewrite <- (view_key _ _ _ _ Hv0); eapply Keep'; exact Hv0|eapply Keep'; exact Hv].
  - pose proof (pkt_flow_ok p Hp) as Hf.
    pose proof (learn_spec hash FLOW_SIZE base loc cap exp L tb (p_time p) (flow_bytes (pkt_flow p)) IHo (flow_bytes_length _) Ht) as LS.
    destruct (tlearn' tb (p_time p) (flow_bytes (pkt_flow p))) as [[i0|] tb1]; destruct LS as [Ho' LS].
    + assert (Eo : o = Some ((1 - p_device p)%N, rewrite_src (r_data r) ext_addr (index_port i0))) by congruence.
      assert (Etb : tb' = tb1) by congruence. subst o tb'. clear E. split; [exact Ho'|]. destruct LS as (Hi & Hd & V).
      pose proof (given_out r i0 Hr Dv) as GO. fold p in GO. intros i k t Hv. rewrite V in Hv. destruct (Nat.eqb_spec i i0) as [->|Hne].
      * apply some_pair in Hv as [<- <-]. exists (pkt_flow p). eexists. split; [exact Hf|]. split; [reflexivity|].
        split; [left; reflexivity|]. split; [exact GO|]. split; [reflexivity|]. intros _. cbn [owner]. rewrite GO, N.eqb_refl. reflexivity.
      * destruct (IH i k t Hv) as (f & e & Hf' & Hk & Hin & Hg & Hpf & Hown). exists f, e.
        split; [exact Hf'|]. split; [exact Hk|]. split; [right; exact Hin|]. split; [exact Hg|]. split; [exact Hpf|].
        intros Hcap. cbn [owner]. rewrite GO. destruct (N.eqb_spec (index_port i0) (index_port i)) as [Q|_]; [|exact (Hown Hcap)].
        exfalso. apply Hne. symmetry. apply index_port_inj; [lia| |exact Q].
        pose proof (view_lt _ _ _ _ _ _ _ _ _ IHo Hv). lia.
    + injection E as <- <-. split; [exact Ho'|]. destruct LS as (_ & _ & V). intros i k t Hv. rewrite V in Hv. apply (Keep None); [|eauto].
      intros _ j kt _ Q. unfold given_port in Q. cbn in Q. destruct (inside _); discriminate.
Qed.

(** A reply is delivered to the owner of the port. *)
Theorem nat_reply : forall h tb r dev d' tb', (N.of_nat cap <= 65536)%N -> nat_hist h tb -> rpkt_ok r ->
  nat_handle tb r = (Some (dev, d'), tb') -> p_device (parse r) = wan ->
  exists f, owner (l4_dst (parse r)) h = Some f /\
    dev = (1 - wan)%N /\ ld32 d' (IP + 16) = f_src f /\ ld16 d' (L4 + 2) = f_sport f /\
    f_dst f = ip_src (parse r) /\ f_dport f = l4_src (parse r) /\ f_proto f = ip_proto (parse r).
Proof.
  intros h tb r dev d' tb' Hcap Hh Hr E Hw. destruct (nat_inv h tb Hh) as [Hok Hinv].
  unfold nat_handle in E. destruct (negb (is_ipv4 (parse r) && is_tcpudp (parse r))); [discriminate|].
  rewrite (proj2 (N.eqb_eq _ _) Hw) in E. pose proof (parse_ok r Hr) as Hp. set (p := parse r) in *.
  pose proof (used_spec hash FLOW_SIZE base loc cap exp tb (p_time p) (port_index (l4_dst p)) Hok) as US.
  destruct (pool_used (tpool tb) (p_time p) (port_index (l4_dst p))); cbn [negb] in E; [|discriminate].
  destruct (proj1 US eq_refl) as (k & t & Hv & _).
  destruct (Hinv _ _ _ Hv) as (f & _ & Hf & Hk & _ & _ & _ & Hown). specialize (Hown Hcap).
  rewrite index_port_index in Hown by (unfold pkt_ok in Hp; tauto).
  rewrite <- (view_key _ _ _ _ Hv), Hk, unflow_bytes in E by exact Hf.
  destruct (_ || _ || _) eqn:B in E; [discriminate|]. rewrite !orb_false_iff, !negb_false_iff, !N.eqb_eq in B. destruct B as [[B1 B2] B3].
  assert (E1 : dev = (1 - p_device p)%N) by congruence. assert (E2 : d' = rewrite_dst (r_data r) (f_src f) (f_sport f)) by congruence. clear E.
  exists f. split; [exact Hown|]. split; [congruence|].
  destruct (rewrite_dst_fields (r_data r) (f_src f) (f_sport f)) as (_ & D1 & D2 & _); [apply Hr|apply Hf|apply Hf|].
  subst d'. repeat split; assumption.
Qed.

(** Two live flows never share a port. *)
Fixpoint times_ok (T : N) (h : list nevent) : Prop :=
  match h with [] => True | e :: h' => (p_time (parse (fst e)) <= T)%N /\ times_ok (p_time (parse (fst e))) h' end.

Lemma times_le : forall T T' h, (T <= T')%N -> times_ok T h -> times_ok T' h.
Proof. intros T T' [|e h] H Hh; [exact I|]. cbn in *. split; [lia|tauto]. Qed.

Lemma uses_inv : (N.of_nat cap <= 65536)%N -> forall h tb, nat_hist h tb -> forall T, times_ok T h ->
  (forall i k t, view tb i = Some (k, t) -> (t <= T)%N) /\
  forall e i, In e h -> uses (index_port i) e -> i < cap -> exists k t, view tb i = Some (k, t) /\ (p_time (parse (fst e)) <= t)%N.
Proof.
  intros Hcap h tb H. induction H as [|h tb r o tb' H IH Hr E]; intros T HT.
  { split; [intros i k t Q; rewrite talloc_view in Q; discriminate|intros e i []]. }
  cbn [times_ok fst] in HT. pose proof (parse_ok r Hr) as Hp. destruct HT as [HT HTh].
  destruct (IH _ HTh) as [IH1 IH2]. destruct (nat_inv h tb H) as [IHo _]. set (p := parse r) in *.
  assert (Ht : (p_time p < TIME_MAX)%N) by (unfold pkt_ok in Hp; tauto).
  (* a step that touches nothing or one index *)
  assert (Step : forall tb1 (oi : option nat), (forall j, view tb1 j = match oi with Some i0 => if Nat.eqb j i0 then match view tb1 i0 with Some (k, _) => Some (k, p_time p) | None => None end else view tb j | None => view tb j end) ->
    match oi with Some i0 => exists k, view tb1 i0 = Some (k, p_time p) | None => True end ->
    (forall i, i < cap -> uses (index_port i) (r, o) -> oi = Some i) ->
    (forall i k t, view tb1 i = Some (k, t) -> (t <= T)%N) /\
    forall e i, In e ((r, o) :: h) -> uses (index_port i) e -> i < cap -> exists k t, view tb1 i = Some (k, t) /\ (p_time (parse (fst e)) <= t)%N).
  { intros tb1 oi V Hoi Hu. split.
    - intros i k t Hv. rewrite V in Hv. destruct oi as [i0|].
      + destruct (Nat.eqb_spec i i0) as [->|].
        * destruct (view tb1 i0) as [[k' t']|]; [|discriminate]. injection Hv as _ <-. exact HT.
        * specialize (IH1 _ _ _ Hv). lia.
      + specialize (IH1 _ _ _ Hv). lia.
    - intros e i [<-|Hin] Hus Hi.
      + rewrite (Hu i Hi Hus) in Hoi. destruct Hoi as [k Hk]. exists k, (p_time p). split; [exact Hk|]. cbn [fst]. fold p. lia.
      + destruct (IH2 e i Hin Hus Hi) as (k & t & Hv & Hle). pose proof (IH1 _ _ _ Hv) as Hle2. rewrite V. destruct oi as [i0|].
        * destruct (Nat.eqb_spec i i0) as [->|]; [|eauto]. destruct Hoi as [k' Hk']. rewrite Hk'. exists k', (p_time p).
          split; [reflexivity|]. lia.
        * eauto. }
  unfold nat_handle in E. fold p in E. destruct (negb (is_ipv4 p && is_tcpudp p)).
  { injection E as <- <-. apply (Step tb None); [reflexivity|exact I|].
    intros i _ [Q|(_ & Q & _)]; [unfold given_port in Q; cbn in Q; destruct (inside _); discriminate|cbn in Q; congruence]. }
  destruct (p_device p =? wan)%N eqn:Dv.
  - pose proof (used_spec hash FLOW_SIZE base loc cap exp tb (p_time p) (port_index (l4_dst p)) IHo) as US.
    set (index := port_index (l4_dst p)) in *.
    assert (Hu : forall o', o = o' -> forall i, i < cap -> uses (index_port i) (r, o') -> o' <> None /\ i = index).
    { intros o' _ i Hi [Q|(_ & Q & Q')].
      - unfold given_port, inside in Q. cbn [fst] in Q. fold p in Q. rewrite Dv in Q. discriminate.
      - split; [exact Q|]. cbn [fst] in Q'. fold p in Q'. unfold index. rewrite Q'. symmetry. apply port_index_port. lia. }
    destruct (pool_used (tpool tb) (p_time p) index); cbn [negb] in E.
    + destruct (proj1 US eq_refl) as (k0 & t0 & Hv0 & _).
      destruct (refresh_ok hash FLOW_SIZE base loc cap exp tb index (p_time p) IHo Ht (ex_intro _ _ Hv0)) as [Ho' V].
      match type of E with (if ?b then _ else _) = _ => destruct b end;
        assert (Etb : tb' = mkTab (keys tb) (tmap tb) (pool_refresh (tpool tb) (p_time p) index)) by congruence; subst tb';
        (apply (Step _ (Some index));
        [intros j; rewrite V; destruct (Nat.eqb_spec j index) as [->|]; [rewrite V, Nat.eqb_refl; reflexivity|reflexivity]
        |rewrite V, Nat.eqb_refl; eauto
        |intros i Hi Hus; f_equal; symmetry; eapply Hu; eauto]).
    + injection E as <- <-. apply (Step tb None); [reflexivity|exact I|]. intros i Hi Hus. exfalso. destruct (Hu None eq_refl i Hi Hus). congruence.
  - pose proof (learn_spec hash FLOW_SIZE base loc cap exp L tb (p_time p) (flow_bytes (pkt_flow p)) IHo (flow_bytes_length _) Ht) as LS.
    destruct (tlearn' tb (p_time p) (flow_bytes (pkt_flow p))) as [[i0|] tb1]; destruct LS as [Ho' LS].
    + destruct LS as (Hi & Hd & V). assert (Etb : tb' = tb1) by congruence. subst tb'.
      pose proof (given_out r i0 Hr Dv) as GO. fold p in GO.
      apply (Step tb1 (Some i0)).
      * intros j. rewrite V. destruct (Nat.eqb_spec j i0) as [->|]; [|reflexivity]. rewrite V, Nat.eqb_refl. reflexivity.
      * rewrite V, Nat.eqb_refl. eauto.
      * intros i Hi' Hus. f_equal. assert (Eo : o = Some ((1 - p_device p)%N, rewrite_src (r_data r) ext_addr (index_port i0))) by congruence.
        rewrite Eo in Hus. destruct Hus as [Q|(Q & _)].
        -- rewrite GO in Q. injection Q as Q. apply index_port_inj; [lia|lia|exact Q].
        -- unfold inside in Q. cbn [fst] in Q. fold p in Q. rewrite Dv in Q. discriminate.
    + destruct LS as (_ & _ & V). injection E as <- <-. apply (Step tb1 None); [exact V|exact I|].
      intros i _ [Q|(_ & Q & _)]; [unfold given_port in Q; cbn in Q; destruct (inside _); discriminate|cbn in Q; congruence].
Qed.

Theorem nat_no_sharing : forall h tb r dev d' tb', (N.of_nat cap <= 65536)%N -> nat_hist h tb -> rpkt_ok r ->
  times_ok (p_time (parse r)) h ->
  nat_handle tb r = (Some (dev, d'), tb') -> p_device (parse r) <> wan ->
  forall f, owner (ld16 d' L4) h = Some f -> f <> pkt_flow (parse r) ->
  forall e, In e h -> uses (ld16 d' L4) e -> (p_time (parse (fst e)) + exp < p_time (parse r))%N.
Proof.
  intros h tb r dev d' tb' Hcap Hh Hr HT E Hw f Hown Hne e Hin Hus.
  destruct (nat_inv h tb Hh) as [Hok Hinv]. destruct (uses_inv Hcap h tb Hh _ HT) as [_ Huses].
  pose proof (parse_ok r Hr) as Hp. unfold nat_handle in E. set (p := parse r) in *.
  destruct (negb (is_ipv4 p && is_tcpudp p)); [discriminate|]. rewrite (proj2 (N.eqb_neq _ _) Hw) in E.
  assert (Ht : (p_time p < TIME_MAX)%N) by (unfold pkt_ok in Hp; tauto).
  pose proof (learn_spec hash FLOW_SIZE base loc cap exp L tb (p_time p) (flow_bytes (pkt_flow p)) Hok (flow_bytes_length _) Ht) as LS.
  destruct (tlearn' tb (p_time p) (flow_bytes (pkt_flow p))) as [[i|] tb1]; [|discriminate]. destruct LS as (_ & Hi & Hd & _).
  assert (Ed : d' = rewrite_src (r_data r) ext_addr (index_port i)) by congruence.
  assert (Eq : ld16 d' L4 = index_port i).
  { subst d'. apply rewrite_src_fields; [apply Hr|exact Haddr|apply index_port_lt]. }
  rewrite Eq in *. destruct (Huses e i Hin Hus Hi) as (k & t & Hv & Hle).
  destruct Hd as [[t' Hd]|[_ [Hd|(k0 & t0 & Hd & Hy)]]].
  - rewrite Hv in Hd. apply some_pair in Hd as [Hk _]. destruct (Hinv _ _ _ Hv) as (f' & _ & Hf' & Hk' & _ & _ & _ & Ho').
    rewrite (Ho' Hcap) in Hown. injection Hown as ->. exfalso. apply Hne. apply flow_bytes_inj; [exact Hf'|apply pkt_flow_ok; exact Hp|congruence].
  - congruence.
  - rewrite Hv in Hd. apply some_pair in Hd as [_ <-]. unfold young in Hy. lia.
Qed.
End Nat.

(** ** More flows than ports: two live flows share one *)
Section TooMany.
Variable hash : bytes -> N.
Variables base loc ext_addr start_port exp : N.
Variable cap : nat.
Hypothesis Hcap : N.of_nat cap = 65537%N.
Hypothesis L : layout_ok FLOW_SIZE base loc cap.
Hypothesis Haddr : (ext_addr < 2 ^ 32)%N.
Hypothesis Hstart : (start_port < 65536)%N.

(** A TCP packet from inside (device 0), at time 0, of source [n]. *)
Definition nth_packet (n : nat) : rpkt :=
  mkR 0 0 60 (fun a => if (a =? 12)%N then 8%N else if (a =? 23)%N then 6%N
                       else if (a =? 26)%N then (N.of_nat n mod 256)%N
                       else if (a =? 27)%N then (N.of_nat n / 256 mod 256)%N
                       else if (a =? 28)%N then (N.of_nat n / 65536 mod 256)%N else 0%N).
Lemma nth_packet_ok : forall n, rpkt_ok (nth_packet n).
Proof.
  intros n. split; [cbn; lia|]. split; [cbn; unfold TIME_MAX; lia|]. intros a. cbn [nth_packet r_data].
  repeat match goal with |- context [if ?b then _ else _] => destruct b end; try lia; apply N.mod_lt; lia.
Qed.
Lemma nth_packet_src : forall n, n < cap -> ip_src (parse (nth_packet n)) = N.of_nat n.
Proof.
  intros n Hn. cbn [parse ip_src nth_packet r_data]. unfold ld32, ld16, IP.
  change (14 + 12)%N with 26%N. change (26 + 1)%N with 27%N. change (26 + 2)%N with 28%N. change (28 + 1)%N with 29%N.
  cbn [N.eqb Pos.eqb]. set (m := N.of_nat n). assert (Hm : (m < 65537)%N) by (unfold m; lia).
  rewrite (N.mod_small (m / 65536)) by (apply N.div_lt_upper_bound; lia).
  pose proof (N.div_mod m 256 ltac:(lia)) as D1. pose proof (N.div_mod (m / 256) 256 ltac:(lia)) as D2.
  rewrite N.div_div in D2 by lia. change (256 * 256)%N with 65536%N in D2. lia.
Qed.

Lemma nat_overflow : exists h tb e1 e2 q, nat_hist hash base loc 1 ext_addr start_port cap exp h tb /\
  In e1 h /\ In e2 h /\ pkt_flow (parse (fst e1)) <> pkt_flow (parse (fst e2)) /\
  p_time (parse (fst e1)) = p_time (parse (fst e2)) /\
  given_port 1 e1 = Some q /\ given_port 1 e2 = Some q.
Proof.
  assert (HC : (N.of_nat cap <= 2 ^ 63)%N) by (rewrite Hcap; vm_compute; discriminate).
  assert (G : forall m, m <= cap -> exists h tb, nat_hist hash base loc 1 ext_addr start_port cap exp h tb /\
    (forall n, n < m -> exists i t, view tb i = Some (flow_bytes (pkt_flow (parse (nth_packet n))), t)) /\
    (forall i k t, view tb i = Some (k, t) -> exists n, n < m /\ k = flow_bytes (pkt_flow (parse (nth_packet n)))) /\
    (forall e, In e h -> p_time (parse (fst e)) = 0%N)).
  { induction m as [|m IH]; intros Hm.
    - exists [], (talloc FLOW_SIZE cap exp). split; [constructor|]. split; [lia|]. split; [|intros e []].
      intros i k t Q. rewrite talloc_view in Q. discriminate.
    - destruct IH as (h & tb & Hh & H1 & H2 & H3); [lia|].
      destruct (nat_inv hash base loc 1 ext_addr start_port cap exp L HC Hstart Haddr h tb Hh) as [Hok _].
      set (r := nth_packet m). pose proof (nth_packet_ok m) as Hr. fold r in Hr. pose proof (parse_ok r Hr) as Hp.
      assert (Ht : (p_time (parse r) < TIME_MAX)%N) by (unfold pkt_ok in Hp; tauto).
      set (k0 := flow_bytes (pkt_flow (parse r))).
      pose proof (learn_spec hash FLOW_SIZE base loc cap exp L tb (p_time (parse r)) k0 Hok (flow_bytes_length _) Ht) as LS.
      assert (Hnew : forall n, n < m -> flow_bytes (pkt_flow (parse (nth_packet n))) <> k0).
      { intros n Hn E. apply flow_bytes_inj in E; [|apply pkt_flow_ok, parse_ok, nth_packet_ok|apply pkt_flow_ok; exact Hp].
        apply (f_equal f_src) in E. cbn [f_src pkt_flow] in E. unfold r in E. rewrite !nth_packet_src in E by lia. lia. }
      destruct (tlearn hash FLOW_SIZE base loc tb (p_time (parse r)) k0) as [[i|] tb1] eqn:E.
      + destruct LS as (Hok1 & Hi & Hd & V).
        exists ((r, Some ((1 - p_device (parse r))%N, rewrite_src (r_data r) ext_addr (index_port start_port i))) :: h), tb1.
        split.
        { eapply nh_cons; [exact Hh|exact Hr|]. unfold nat_handle. fold k0. rewrite E. reflexivity. }
        assert (Hold : forall j k t, view tb j = Some (k, t) -> j <> i).
        { intros j k t Hv ->. destruct Hd as [[t' Hd]|[Hn [Hd|(k1 & t1 & Hd & Hy)]]]; [|congruence|].
          - destruct (H2 _ _ _ Hd) as (n & Hn & Q). exact (Hnew n Hn (eq_sym Q)).
          - apply Hy. unfold young. change (p_time (parse r)) with 0%N. lia. }
        split; [|split].
        * intros n Hn. destruct (Nat.eq_dec n m) as [->|Hne].
          -- exists i. eexists. rewrite V, Nat.eqb_refl. reflexivity.
          -- destruct (H1 n) as (j & t & Hv); [lia|]. exists j, t. rewrite V, (proj2 (Nat.eqb_neq j i)) by (eapply Hold; eauto). exact Hv.
        * intros j k t Hv. rewrite V in Hv. destruct (Nat.eqb j i).
          -- apply some_pair in Hv as [<- _]. exists m. split; [lia|reflexivity].
          -- destruct (H2 j k t Hv) as (n & Hn & Q). exists n. split; [lia|exact Q].
        * intros e [<-|Hin]; [reflexivity|auto].
      + (* the table cannot be full yet *)
        exfalso. destruct LS as (_ & Hall & _).
        assert (Hidx : exists g, forall i, i < cap -> g i < m /\ view tb i <> None /\ exists t, view tb i = Some (flow_bytes (pkt_flow (parse (nth_packet (g i)))), t)).
        { assert (P : forall N, N <= cap -> exists g : nat -> nat, forall i, i < N -> g i < m /\ view tb i <> None /\ exists t, view tb i = Some (flow_bytes (pkt_flow (parse (nth_packet (g i)))), t)).
          { induction N as [|N IHN]; intros HN; [exists (fun _ => 0); lia|]. destruct IHN as [g Hg]; [lia|].
            destruct (Hall N) as (k & t & Hv & _); [lia|]. destruct (H2 _ _ _ Hv) as (n & Hn & ->).
            exists (fun i => if i =? N then n else g i). intros i Hi'. destruct (Nat.eqb_spec i N) as [->|].
            - split; [exact Hn|]. split; [congruence|]. eauto.
            - apply Hg. lia. }
          apply (P cap). lia. }
        destruct Hidx as [g Hg].
        assert (ND : NoDup (map g (seq 0 cap))).
        { assert (Inj : forall i j, i < cap -> j < cap -> g i = g j -> i = j).
          { intros i j Hi' Hj' Q. destruct (Hg i Hi') as (_ & _ & t & Hv). destruct (Hg j Hj') as (_ & _ & t' & Hv').
            rewrite Q in Hv. eapply view_inj; [exact L|exact Hok|exact Hv|exact Hv']. }
          assert (S : forall x, In x (seq 0 cap) -> x < cap) by (intros x Hx; apply in_seq in Hx; lia).
          pose proof (seq_NoDup cap 0) as NS. induction (seq 0 cap) as [|x l IHl]; [constructor|]. inversion NS; subst. cbn. constructor.
          - intros Hin. apply in_map_iff in Hin as (y & Q & Hy). apply H4.
            rewrite <- (Inj y x); [exact Hy|apply S; right; exact Hy|apply S; left; reflexivity|exact Q].
          - apply IHl; [intros y Hy; apply S; right; exact Hy|assumption]. }
        assert (length (map g (seq 0 cap)) <= length (seq 0 m)).
        { apply NoDup_incl_length; [exact ND|]. intros x Hx. apply in_map_iff in Hx as (i & <- & Hi'). apply in_seq in Hi'.
          apply in_seq. destruct (Hg i); lia. }
        rewrite map_length, !seq_length in H. lia. }
  destruct (G cap) as (h & tb & Hh & H1 & H2 & H3); [lia|].
  destruct (nat_inv hash base loc 1 ext_addr start_port cap exp L HC Hstart Haddr h tb Hh) as [Hok Hinv].
  (* all indices are in use *)
  assert (Hidx : exists g, forall n, n < cap -> g n < cap /\ exists t, view tb (g n) = Some (flow_bytes (pkt_flow (parse (nth_packet n))), t)).
  { assert (P : forall N, N <= cap -> exists g : nat -> nat, forall n, n < N -> g n < cap /\ exists t, view tb (g n) = Some (flow_bytes (pkt_flow (parse (nth_packet n))), t)).
    { induction N as [|N IHN]; intros HN; [exists (fun _ => 0); lia|]. destruct IHN as [g Hg]; [lia|].
      destruct (H1 N) as (i & t & Hv); [lia|]. exists (fun n => if n =? N then i else g n). intros n Hn.
      destruct (Nat.eqb_spec n N) as [->|]; [|apply Hg; lia]. split; [eapply view_lt; eauto|eauto]. }
    apply (P cap). lia. }
  destruct Hidx as [g Hg].
  assert (Full : forall i, i < cap -> exists n, n < cap /\ g n = i).
  { assert (Inj : forall a b, a < cap -> b < cap -> g a = g b -> a = b).
    { intros a b Ha Hb Q. destruct (Hg a Ha) as (_ & t & Hv). destruct (Hg b Hb) as (_ & t' & Hv'). rewrite Q, Hv' in Hv.
      apply some_pair in Hv as [Q' _]. apply flow_bytes_inj in Q'; [|apply pkt_flow_ok, parse_ok, nth_packet_ok|apply pkt_flow_ok, parse_ok, nth_packet_ok].
      apply (f_equal f_src) in Q'. cbn [f_src pkt_flow] in Q'. rewrite !nth_packet_src in Q' by lia. lia. }
    assert (ND : NoDup (map g (seq 0 cap))).
    { assert (S : forall x, In x (seq 0 cap) -> x < cap) by (intros x Hx; apply in_seq in Hx; lia).
      pose proof (seq_NoDup cap 0) as NS. induction (seq 0 cap) as [|x l IHl]; [constructor|]. inversion NS; subst. cbn. constructor.
      - intros Hin. apply in_map_iff in Hin as (y & Q & Hy). apply H4.
        rewrite <- (Inj y x); [exact Hy|apply S; right; exact Hy|apply S; left; reflexivity|exact Q].
      - apply IHl; [intros y Hy; apply S; right; exact Hy|assumption]. }
    intros i Hi. assert (Hin : In i (map g (seq 0 cap))).
    { apply (NoDup_length_incl ND (l' := seq 0 cap)); [rewrite map_length; lia| |apply in_seq; lia].
      intros x Hx. apply in_map_iff in Hx as (n & <- & Hn). apply in_seq in Hn. apply in_seq. destruct (Hg n); lia. }
    apply in_map_iff in Hin as (n & <- & Hn). apply in_seq in Hn. exists n. split; [lia|reflexivity]. }
  assert (V : forall i, i < cap -> exists k t, view tb i = Some (k, t)).
  { intros i Hi. destruct (Full i Hi) as (n & Hn & <-). destruct (Hg n Hn) as (_ & t & Hv). eauto. }
  destruct (V 0) as (k1 & t1 & Hv1); [lia|].
  assert (Hj : exists j, N.of_nat j = 65536%N) by (exists (N.to_nat 65536); apply N2Nat.id). destruct Hj as [j Hj].
  destruct (V j) as (k2 & t2 & Hv2); [lia|].
  destruct (Hinv _ _ _ Hv1) as (f1 & e1 & Hf1 & Hk1 & Hin1 & Hg1 & Hp1 & _).
  destruct (Hinv _ _ _ Hv2) as (f2 & e2 & Hf2 & Hk2 & Hin2 & Hg2 & Hp2 & _).
  exists h, tb, e1, e2, (index_port start_port 0). split; [exact Hh|]. split; [exact Hin1|]. split; [exact Hin2|].
  split.
  { rewrite Hp1, Hp2. intros ->. assert (Q : 0 = j) by (eapply view_inj; [exact L|exact Hok|exact Hv1|rewrite Hk1, <- Hk2; exact Hv2]). lia. }
  split; [rewrite (H3 _ Hin1), (H3 _ Hin2); reflexivity|]. split; [exact Hg1|]. rewrite Hg2. unfold index_port. rewrite Hj. reflexivity.
Qed.
End TooMany.
