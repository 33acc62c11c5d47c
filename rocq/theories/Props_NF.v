(** Property theorems C60 to C67 and C84 to C89: the network functions. *)

From Coq Require Import NArith ZArith Znumtheory List Bool Lia Arith.
From Verif Require Import Solver IndexPool HashMap Cht Table Firewall ExpSet Packet NatNF NatSpec Policer TimedSet Bridge Maglev.
Import ListNotations.
Open Scope nat_scope.

(** What the examples use: a hash, and memory where the arrays and the keys looked up
    are. *)
Definition ex_hash (b : bytes) : N := (fold_right (fun x acc => x + 3 * acc) 0 b mod 2 ^ 32)%N.
Definition ex_base : N := 4096.
Definition ex_loc : N := 64.
Definition tcp (device time src dst sport dport : N) : pkt := mkPkt device time 60 0 0 8 6 src dst sport dport.
Lemma ex_layout : forall k cap, 0 < k -> layout_ok k ex_base ex_loc cap.
Proof. intros k cap H. unfold layout_ok, ex_base, ex_loc. repeat split; try lia; left; lia. Qed.

(** ** C60 *)
Theorem C60_expiring_set : forall hash base loc external exp cap, layout_ok FLOW_SIZE base loc cap -> (N.of_nat cap <= 2 ^ 63)%N ->
  forall ps tb S, Forall pkt_ok ps -> ordered 0 ps ->
  tb = snd (fw_run hash base loc external (talloc FLOW_SIZE cap exp) ps) ->
  S = snd (fw_spec_run external exp cap [] ps) ->
  forall t, Forall (fun p => (p_time p <= t)%N) ps ->
  let e := observe FLOW_SIZE base loc exp cap t tb in
  let live := filter (alive exp t) S in
  (forall f, flow_ok f -> es_contains e (flow_bytes f) = Ok (has f live)) /\
  es_full e = (length live =? cap).
Proof. exact expiring_set_exact. Qed.
Print Assumptions C60_expiring_set.
(** The set's other queries, in any state of a table. *)
Theorem C60_queries : forall ksize base loc hash cap exp, layout_ok ksize base loc cap ->
  forall tb time k i, table_ok hash ksize base loc cap exp tb ->
  (exists b, es_did_refresh (observe ksize base loc exp cap time tb) k = Ok b /\
     (b = true <-> exists j, view tb j = Some (k, time))) /\
  (exists r, es_get_by_index (observe ksize base loc exp cap time tb) i = Ok r /\
     forall k', r = Some k' <-> exists t, view tb i = Some (k', t) /\ young time exp t) /\
  (es_get_index (observe ksize base loc exp cap time tb) k = Some i <-> exists t, view tb i = Some (k, t)).
Proof.
  intros ksize base loc hash cap exp L tb time k i H. split; [|split].
  - apply did_refresh_spec with (hash := hash); assumption.
  - apply get_by_index_spec with (hash := hash); assumption.
  - unfold es_get_index. cbn [observe e2i]. apply e2i_view with (hash := hash) (cap := cap) (exp := exp); assumption.
Qed.
Print Assumptions C60_queries.
Definition ex_fw : list pkt := [tcp 0 10 1 2 3 4; tcp 1 20 2 1 4 3; tcp 0 25 7 2 3 4; tcp 0 31 8 2 3 4; tcp 1 200 2 1 4 3]%N.
Example C60_example :
  let tb := snd (fw_run ex_hash ex_base ex_loc 1 (talloc FLOW_SIZE 2 100) (firstn 4 ex_fw)) in
  let e t := observe FLOW_SIZE ex_base ex_loc 100 2 t tb in
  es_contains (e 120%N) (flow_bytes (mkFlow 1 2 3 4 6)) = Ok true /\ es_full (e 120%N) = true /\
  es_contains (e 121%N) (flow_bytes (mkFlow 1 2 3 4 6)) = Ok false /\ es_full (e 121%N) = false /\
  es_contains (e 120%N) (flow_bytes (mkFlow 8 2 3 4 6)) = Ok false.
Proof. vm_compute. auto. Qed.

(** ** C61 *)
Theorem C61_firewall : forall hash base loc external cap exp, layout_ok FLOW_SIZE base loc cap ->
  forall ps, (N.of_nat cap <= 2 ^ 63)%N -> Forall pkt_ok ps -> ordered 0 ps ->
  fst (fw_run hash base loc external (talloc FLOW_SIZE cap exp) ps) = fst (fw_spec_run external exp cap [] ps).
Proof. exact fw_correct. Qed.
Print Assumptions C61_firewall.
(** Whatever the clock does: only replies to flows opened from inside, not long ago. *)
Theorem C61_only_replies : forall hash base loc external cap exp, layout_ok FLOW_SIZE base loc cap ->
  (N.of_nat cap <= 2 ^ 63)%N -> forall h tb p o tb', fw_hist hash base loc external cap exp h tb -> pkt_ok p ->
  fw_handle hash base loc external tb p = (o, tb') -> p_device p = external -> o <> None ->
  exists t, last_active external (pkt_rev_flow p) h = Some t /\ (p_time p <= t + exp)%N /\
    exists e, In e h /\ opens external (pkt_rev_flow p) e = true /\ snd e <> None.
Proof. exact fw_only_open. Qed.
Print Assumptions C61_only_replies.
Theorem C61_inside_and_others : forall hash base loc external tb p,
  (is_ipv4 p && is_tcpudp p = false -> fst (fw_handle hash base loc external tb p) = None) /\
  (is_ipv4 p && is_tcpudp p = true -> p_device p <> external ->
   fst (fw_handle hash base loc external tb p) = Some (1 - p_device p)%N).
Proof.
  intros hash base loc external tb p. unfold fw_handle. split; intros H.
  - rewrite H. reflexivity.
  - intros Hd. rewrite H. cbn [negb]. rewrite (proj2 (N.eqb_neq _ _) Hd). destruct (tlearn _ _ _ _ _ _ _). reflexivity.
Qed.
Print Assumptions C61_inside_and_others.
Example C61_example : fst (fw_run ex_hash ex_base ex_loc 1 (talloc FLOW_SIZE 2 100) ex_fw) =
  [Some 1; Some 0; Some 1; Some 1; None]%N /\ Forall pkt_ok ex_fw /\ ordered 0 ex_fw.
Proof.
  split; [vm_compute; reflexivity|]. split.
  - repeat constructor; vm_compute; reflexivity.
  - cbn. repeat split; vm_compute; discriminate.
Qed.

(** ** C62 *)
(** A translated reply goes to the flow that was last given the port, and comes from its
    correspondent. *)
Theorem C62_reply_partial : forall hash base loc wan ext_addr start_port cap exp, layout_ok FLOW_SIZE base loc cap ->
  (N.of_nat cap <= 2 ^ 63)%N -> (start_port < 65536)%N -> (ext_addr < 2 ^ 32)%N ->
  forall h tb r dev d' tb', (N.of_nat cap <= 65536)%N -> nat_hist hash base loc wan ext_addr start_port cap exp h tb -> rpkt_ok r ->
  nat_handle hash base loc wan ext_addr start_port tb r = (Some (dev, d'), tb') -> p_device (parse r) = wan ->
  exists f, owner wan (l4_dst (parse r)) h = Some f /\
    dev = (1 - wan)%N /\ ld32 d' (IP + 16) = f_src f /\ ld16 d' (L4 + 2) = f_sport f /\
    f_dst f = ip_src (parse r) /\ f_dport f = l4_src (parse r) /\ f_proto f = ip_proto (parse r).
Proof. exact nat_reply. Qed.
Print Assumptions C62_reply_partial.
(** A port changes owner only when the old owner has been quiet for the expiration time. *)
Theorem C62_no_sharing_partial : forall hash base loc wan ext_addr start_port cap exp, layout_ok FLOW_SIZE base loc cap ->
  (N.of_nat cap <= 2 ^ 63)%N -> (start_port < 65536)%N -> (ext_addr < 2 ^ 32)%N ->
  forall h tb r dev d' tb', (N.of_nat cap <= 65536)%N -> nat_hist hash base loc wan ext_addr start_port cap exp h tb -> rpkt_ok r ->
  times_ok (p_time (parse r)) h ->
  nat_handle hash base loc wan ext_addr start_port tb r = (Some (dev, d'), tb') -> p_device (parse r) <> wan ->
  forall f, owner wan (ld16 d' L4) h = Some f -> f <> pkt_flow (parse r) ->
  forall e, In e h -> uses wan (ld16 d' L4) e -> (p_time (parse (fst e)) + exp < p_time (parse r))%N.
Proof. exact nat_no_sharing. Qed.
Print Assumptions C62_no_sharing_partial.
(** Without the bound on the capacity, which the code does not check, two flows share a
    port at the same time. *)
Theorem C62_sharing_refuted : forall hash base loc ext_addr start_port exp cap, layout_ok FLOW_SIZE base loc cap -> N.of_nat cap = 65537%N ->
  (ext_addr < 2 ^ 32)%N -> (start_port < 65536)%N ->
  exists h tb e1 e2 q, nat_hist hash base loc 1 ext_addr start_port cap exp h tb /\
  In e1 h /\ In e2 h /\ pkt_flow (parse (fst e1)) <> pkt_flow (parse (fst e2)) /\
  p_time (parse (fst e1)) = p_time (parse (fst e2)) /\
  given_port 1 e1 = Some q /\ given_port 1 e2 = Some q.
Proof. intros. eapply nat_overflow; eassumption. Qed.
Print Assumptions C62_sharing_refuted.
Example C62_sharing_example : exists cap, layout_ok FLOW_SIZE ex_base ex_loc cap /\ N.of_nat cap = 65537%N.
Proof. exists (N.to_nat 65537). split; [apply ex_layout; unfold FLOW_SIZE; lia|apply N2Nat.id]. Qed.
(** A TCP frame. *)
Definition frame (device time src dst sport dport : N) : rpkt :=
  mkR device time 60 (st16 (st16 (st32 (st32 (fun a => if (a =? 12)%N then 8%N else if (a =? 23)%N then 6%N else 0%N) (IP + 12) src) (IP + 16) dst) L4 sport) (L4 + 2) dport).
Example C62_example :
  let handle := nat_handle ex_hash ex_base ex_loc 1 99 1000 in
  let s0 := talloc FLOW_SIZE 2 100 in
  let '(o1, s1) := handle s0 (frame 0 10 1 2 3 4) in
  let '(o2, s2) := handle s1 (frame 0 11 7 2 3 4) in
  let '(o3, s3) := handle s2 (frame 1 12 2 99 4 1000) in
  let '(o4, s4) := handle s3 (frame 1 13 5 99 4 1001) in
  option_map (fun x => (fst x, ld32 (snd x) (IP + 12), ld16 (snd x) L4)) o1 = Some (1, 99, 1000)%N /\
  option_map (fun x => (fst x, ld32 (snd x) (IP + 12), ld16 (snd x) L4)) o2 = Some (1, 99, 1001)%N /\
  option_map (fun x => (fst x, ld32 (snd x) (IP + 16), ld16 (snd x) (L4 + 2))) o3 = Some (0, 1, 3)%N /\
  o4 = None.
Proof. vm_compute. auto. Qed.

(** ** C63 *)
(** The map finds exactly the flows of the array's used entries, each at its index. *)
Definition bijection (hash : bytes -> N) (base loc : N) (cap : nat) (tb : table) : Prop :=
  (forall f i, flow_ok f -> (tfind hash FLOW_SIZE base loc tb (flow_bytes f) = Some i <->
     i < cap /\ nth i (keys tb) [] = flow_bytes f /\ exists t, pool_abs (tpool tb) i = Some t)) /\
  (forall i t, pool_abs (tpool tb) i = Some t -> i < cap /\ exists f, flow_ok f /\ nth i (keys tb) [] = flow_bytes f) /\
  (forall i j f, nth i (keys tb) [] = flow_bytes f -> nth j (keys tb) [] = flow_bytes f -> pool_abs (tpool tb) i <> None ->
     pool_abs (tpool tb) j <> None -> i = j).
Lemma bijection_of : forall hash base loc cap exp tb, layout_ok FLOW_SIZE base loc cap -> table_ok hash FLOW_SIZE base loc cap exp tb ->
  (forall i k t, view tb i = Some (k, t) -> exists f, flow_ok f /\ k = flow_bytes f) -> bijection hash base loc cap tb.
Proof.
  intros hash base loc cap exp tb L H HF. unfold bijection.
  assert (V : forall i k, (exists t, view tb i = Some (k, t)) <-> nth i (keys tb) [] = k /\ exists t, pool_abs (tpool tb) i = Some t).
  { intros i k. unfold view. split.
    - intros [t E]. destruct (pool_abs (tpool tb) i) as [u|]; [|discriminate]. split; [congruence|eauto].
    - intros (E & t & ->). exists t. congruence. }
  split; [|split].
  - intros f i Hf. rewrite (find_spec hash FLOW_SIZE base loc cap exp L tb (flow_bytes f) H (flow_bytes_length f) i), V.
    split; [|tauto]. intros Q. split; [|exact Q]. apply V in Q as [t Q]. exact (view_lt hash FLOW_SIZE base loc cap exp tb i _ H Q).
  - intros i t E. assert (Q : view tb i = Some (nth i (keys tb) [], t)) by (unfold view; rewrite E; reflexivity).
    split; [exact (view_lt hash FLOW_SIZE base loc cap exp tb i _ H Q)|exact (HF _ _ _ Q)].
  - intros i j f Ei Ej Pi Pj.
    destruct (proj2 (V i (flow_bytes f))) as [t1 V1]; [split; [exact Ei|destruct (pool_abs (tpool tb) i); [eauto|congruence]]|].
    destruct (proj2 (V j (flow_bytes f))) as [t2 V2]; [split; [exact Ej|destruct (pool_abs (tpool tb) j); [eauto|congruence]]|].
    eapply view_inj; eauto.
Qed.
Theorem C63_firewall : forall hash base loc external cap exp, layout_ok FLOW_SIZE base loc cap -> (N.of_nat cap <= 2 ^ 63)%N ->
  forall h tb, fw_hist hash base loc external cap exp h tb -> bijection hash base loc cap tb.
Proof.
  intros hash base loc external cap exp L HC h tb Hh. destruct (fw_hist_inv hash base loc external cap exp L HC h tb Hh) as [H HF].
  apply (bijection_of hash base loc cap exp tb L H). intros i k t Q. destruct (HF i k t Q) as (f & A & B & _). eauto.
Qed.
Print Assumptions C63_firewall.
Theorem C63_nat : forall hash base loc wan ext_addr start_port cap exp, layout_ok FLOW_SIZE base loc cap ->
  (N.of_nat cap <= 2 ^ 63)%N -> (start_port < 65536)%N -> (ext_addr < 2 ^ 32)%N ->
  forall h tb, nat_hist hash base loc wan ext_addr start_port cap exp h tb -> bijection hash base loc cap tb.
Proof.
  intros hash base loc wan ext_addr start_port cap exp L HC Hs Ha h tb Hh.
  destruct (nat_inv hash base loc wan ext_addr start_port cap exp L HC Hs Ha h tb Hh) as [H HF].
  apply (bijection_of hash base loc cap exp tb L H). intros i k t Q. destruct (HF i k t Q) as (f & e & A & B & _). eauto.
Qed.
Print Assumptions C63_nat.
Example C63_example :
  let tb := snd (fw_run ex_hash ex_base ex_loc 1 (talloc FLOW_SIZE 2 100) ex_fw) in
  tfind ex_hash FLOW_SIZE ex_base ex_loc tb (flow_bytes (mkFlow 1 2 3 4 6)) = Some 0 /\
  tfind ex_hash FLOW_SIZE ex_base ex_loc tb (flow_bytes (mkFlow 7 2 3 4 6)) = Some 1 /\
  tfind ex_hash FLOW_SIZE ex_base ex_loc tb (flow_bytes (mkFlow 8 2 3 4 6)) = None.
Proof. vm_compute. auto. Qed.

(** ** C64 *)
(** The bound, with the rate per nanosecond, when the rate divides the burst (and the
    expiration time does not overflow). *)
Theorem C64_divides_partial : forall hash base loc wan rate burst cap, layout_ok ADDR_SIZE base loc cap -> (N.of_nat cap <= 2 ^ 63)%N ->
  (0 < rate)%N -> (0 < burst)%N -> (burst mod rate = 0)%N -> (10 ^ 9 * burst < 2 ^ 64)%N ->
  forall st0 before during, pol_init rate burst cap = Some st0 -> Forall pol_pkt_ok (before ++ during) -> ordered 0 (before ++ during) ->
  forall t1 t2, (t1 <= t2)%N -> (forall p, In p during -> (t1 <= p_time p <= t2)%N) ->
  forall a, (a < 2 ^ 32)%N ->
  (total wan a during (skipn (length before) (fst (pol_run hash base loc wan rate burst st0 (before ++ during)))) <= burst + rate * (t2 - t1))%N.
Proof.
  intros hash base loc wan rate burst cap L HC Hr Hb Hm Hov. apply pol_limit with (cap := cap); try assumption.
  - apply N.le_refl.
  - pose proof (N.div_mod burst rate ltac:(lia)). lia.
  - unfold pol_exp. rewrite N.mod_small by exact Hov. apply N.div_le_mono; lia.
Qed.
Print Assumptions C64_divides_partial.
(** Twice the rate when the rate does not divide the burst. *)
Theorem C64_twice_partial : forall hash base loc wan rate burst cap, layout_ok ADDR_SIZE base loc cap -> (N.of_nat cap <= 2 ^ 63)%N ->
  (0 < rate)%N -> (rate <= burst)%N -> (10 ^ 9 * burst < 2 ^ 64)%N ->
  forall st0 before during, pol_init rate burst cap = Some st0 -> Forall pol_pkt_ok (before ++ during) -> ordered 0 (before ++ during) ->
  forall t1 t2, (t1 <= t2)%N -> (forall p, In p during -> (t1 <= p_time p <= t2)%N) ->
  forall a, (a < 2 ^ 32)%N ->
  (total wan a during (skipn (length before) (fst (pol_run hash base loc wan rate burst st0 (before ++ during)))) <= burst + 2 * rate * (t2 - t1))%N.
Proof.
  intros hash base loc wan rate burst cap L HC Hr Hb Hov. apply pol_limit with (cap := cap); try assumption; try lia.
  - pose proof (N.div_mod burst rate ltac:(lia)). pose proof (N.mod_lt burst rate ltac:(lia)).
    assert (1 <= burst / rate)%N by (apply N.div_le_lower_bound; lia). nia.
  - unfold pol_exp. rewrite N.mod_small by exact Hov. apply N.div_le_mono; lia.
Qed.
Print Assumptions C64_twice_partial.
Definition wan_pkt (time len : N) : pkt := mkPkt 1 time len 0 0 8 17 5 7 1 2.
Definition ex_pol (rate burst : N) (ps : list pkt) : N :=
  match pol_init rate burst 2 with
  | Some st => total 1 7 ps (fst (pol_run ex_hash ex_base ex_loc 1 rate burst st ps))
  | None => 0%N
  end.
Example C64_example : ex_pol 10 1000 [wan_pkt 5 600; wan_pkt 15 600; wan_pkt 16 505; wan_pkt 17 505]%N = 1105%N.
Proof. vm_compute. reflexivity. Qed.
(** C64 fails when the burst is less than the rate (an allowance of less than a
    nanosecond's worth): nothing is limited. *)
Theorem C64_small_burst_refuted : exists rate burst ps, (0 < rate)%N /\ (0 < burst)%N /\
  (forall p, In p ps -> p_time p = 0%N) /\ (ex_pol rate burst ps > burst)%N.
Proof.
  exists 100%N, 50%N, [wan_pkt 0 40; wan_pkt 0 40; wan_pkt 0 40]%N. split; [lia|]. split; [vm_compute; (reflexivity || discriminate)|]. split; [|vm_compute; reflexivity].
  intros p [<-|[<-|[<-|[]]]]; reflexivity.
Qed.
Print Assumptions C64_small_burst_refuted.
(** When the rate does not divide the burst: a bucket is full too early. *)
Theorem C64_rounding_refuted : exists rate burst ps t, (0 < rate)%N /\ (rate <= burst)%N /\
  (forall p, In p ps -> (p_time p <= t)%N) /\ (ex_pol rate burst ps > burst + rate * t)%N.
Proof.
  exists 60%N, 119%N, [wan_pkt 0 119; wan_pkt 1 118; wan_pkt 2 118]%N, 2%N. split; [lia|]. split; [vm_compute; (reflexivity || discriminate)|]. split; [|vm_compute; reflexivity].
  intros p [<-|[<-|[<-|[]]]]; cbn; lia.
Qed.
Print Assumptions C64_rounding_refuted.
(** When the expiration time overflows: buckets are forgotten too early. *)
Definition ex_pol1 (rate burst : N) (ps : list pkt) : N :=
  match pol_init rate burst 1 with
  | Some st => total 1 7 ps (fst (pol_run ex_hash ex_base ex_loc 1 rate burst st ps))
  | None => 0%N
  end.
Theorem C64_overflow_refuted : exists rate burst ps t, (0 < rate)%N /\ (burst mod rate = 0)%N /\
  (forall p, In p ps -> (p_time p <= t)%N) /\ (ex_pol1 rate burst ps > burst + rate * t)%N.
Proof.
  exists 1%N, (2 ^ 55)%N, [wan_pkt 0 (2 ^ 55); mkPkt 1 1 1 0 0 8 17 5 8 1 2; wan_pkt 2 (2 ^ 55)]%N, 2%N.
  split; [lia|]. split; [vm_compute; reflexivity|]. split; [|vm_compute; reflexivity].
  intros p [<-|[<-|[<-|[]]]]; cbn; lia.
Qed.
Print Assumptions C64_overflow_refuted.
(** The packet's time is in nanoseconds, and the bucket is refilled by the rate for each
    of them, though the expiration time is that of a rate per second: rate and burst of
    1000, three packets of 900 bytes in 2 nanoseconds. *)
Theorem C64_per_second_refuted : exists rate burst ps t, (0 < rate)%N /\ (burst mod rate = 0)%N /\
  (forall p, In p ps -> (p_time p <= t)%N) /\ (ex_pol rate burst ps > burst + rate * t / 10 ^ 9)%N.
Proof.
  exists 1000%N, 1000%N, [wan_pkt 0 900; wan_pkt 1 900; wan_pkt 2 900]%N, 2%N. split; [lia|]. split; [vm_compute; (reflexivity || discriminate)|]. split; [|vm_compute; reflexivity].
  intros p [<-|[<-|[<-|[]]]]; cbn; lia.
Qed.
Print Assumptions C64_per_second_refuted.

(** ** C65 *)
Theorem C65_never_back : forall hash base loc n b r, ~ In (r_device r) (fst (br_handle hash base loc n b r)).
Proof. exact br_not_back. Qed.
Print Assumptions C65_never_back.
(** A live address is sent where it was last seen; others are flooded, unless they are
    still in the table though their time has passed. Frames the spanning tree takes are
    excluded. *)
Theorem C65_destination_partial : forall hash base loc n cap exp, layout_ok MAC_SIZE base loc cap -> (N.of_nat cap <= 2 ^ 63)%N ->
  forall self_bid upd h b r out b', br_hist hash base loc n cap exp self_bid upd h b -> frame_ok n r -> in_order (r_time r) h ->
  br_handle hash base loc n b r = (out, b') -> fst (stp_handle n (bstp b) r) = None ->
  let h' := mkEv r false out :: h in
  if knows cap exp (dst_mac r) (r_time r) h'
  then exists d, seen_on (dst_mac r) h' = Some d /\ out = (if (d =? r_device r)%N then [] else [d])
  else out = net_flood_except n (r_device r) (is_disabled (bstp b)) \/
       exists e, In e h /\ tells e = true /\ src_mac (ev_frame e) = dst_mac r /\ (r_time (ev_frame e) + exp < r_time r)%N.
Proof. exact br_destination. Qed.
Print Assumptions C65_destination_partial.
Theorem C65_group : forall hash base loc n cap exp, layout_ok MAC_SIZE base loc cap -> (N.of_nat cap <= 2 ^ 63)%N ->
  forall self_bid upd h b r out b', br_hist hash base loc n cap exp self_bid upd h b -> frame_ok n r -> in_order (r_time r) h ->
  br_handle hash base loc n b r = (out, b') -> fst (stp_handle n (bstp b) r) = None -> N.odd (dst_mac r) = true ->
  out = net_flood_except n (r_device r) (is_disabled (bstp b)).
Proof. exact br_group. Qed.
Print Assumptions C65_group.
Definition eth (device time dst src : N) : rpkt :=
  mkR device time 60 (fun a => if (a <? 6)%N then (dst / 256 ^ a mod 256)%N else if (a <? 12)%N then (src / 256 ^ (a - 6) mod 256)%N else 0%N).
Fixpoint ex_br_run (b : bridge) (rs : list rpkt) : list (list N) * bridge :=
  match rs with
  | [] => ([], b)
  | r :: rs' => let (o, b1) := br_handle ex_hash ex_base ex_loc 3 b r in let (os, b2) := ex_br_run b1 rs' in (o :: os, b2)
  end.
Definition ex_br (upd : N) (rs : list rpkt) : list (list N) :=
  match br_init 3 2 100 7 upd with Some b => fst (ex_br_run b rs) | None => [] end.
Example C65_example :
  ex_br 10000 [eth 0 1 4 2; eth 1 2 2 4; eth 0 3 4 2; eth 2 4 2 6; eth 0 5 4 2; eth 0 6 8 4; eth 0 7 5 2]%N =
    [[1; 2]; [0]; [1]; [0]; [1]; [1; 2]; [1; 2]]%N.
Proof. vm_compute. reflexivity. Qed.
(** Full statement fails: an address whose time has passed is still sent to its old
    device (or dropped there) instead of flooded, until another address takes its place. *)
Theorem C65_stale_refuted : exists rs, ex_br 10000 rs = [[1; 2]; [0]; [0]]%N /\
  (forall r, In r (firstn 2 rs) -> (r_time r <= 2)%N) /\
  (forall r, In r (skipn 2 rs) -> dst_mac r = 2%N /\ r_time r = 5000%N /\ r_device r = 1%N).
Proof.
  exists [eth 0 1 4 2; eth 1 2 2 4; eth 1 5000 2 4]%N. split; [vm_compute; reflexivity|].
  split; [intros r [<-|[<-|[]]]; cbn; lia|intros r [<-|[]]; vm_compute; auto].
Qed.
Print Assumptions C65_stale_refuted.
(** A frame that arrives when an update is due is replaced with a BPDU, and is lost. *)
Theorem C65_update_refuted : exists r, N.odd (dst_mac r) = false /\ dst_mac r <> STP_ADDR /\
  forall b, br_init 3 2 100 7 10 = Some b ->
  stp_handle 3 (bstp b) r = (Some ([1; 2]%N, Some (7, 0, 7)%N), mkStp 11 7 7 0 0 [false; false; false] 10).
Proof.
  exists (eth 0 11 4 2)%N. split; [vm_compute; reflexivity|]. split; [vm_compute; discriminate|].
  intros b E. vm_compute in E. injection E as <-. vm_compute. reflexivity.
Qed.
Print Assumptions C65_update_refuted.

(** ** C66 *)
(** What holds: with the checksum's own place, the update is right exactly when the
    carry is not needed. *)
Theorem C66_carry_partial : forall c old new rest, (c < 65536 -> old < 65536 -> new < 65536 ->
  Forall (fun a => a < 65536) rest -> Exists (fun a => a <> 0) rest -> oc_sum (c :: old :: rest) = 65535 ->
  (oc_sum (csum_word c old new :: new :: rest) = 65535 <-> 65535 + new <= c + old))%N.
Proof. exact csum_update_exact. Qed.
Print Assumptions C66_carry_partial.
(** The same for addresses, of two words each, in the checksum of the TCP or UDP header: it stays valid, whatever the other words it covers,
    if neither word needs the carry. *)
Theorem C66_address_partial : forall d ol oh nl nh in_ip o rest, (data_ok d -> l4_checksum_at d o ->
  ol < 65536 -> oh < 65536 -> nl < 65536 -> nh < 65536 ->
  Forall (fun a => a < 65536) rest -> Exists (fun a => a <> 0) rest -> oc_sum (ld16 d o :: ol :: oh :: rest) = 65535 ->
  65535 + nl <= ld16 d o + ol -> 2 * 65535 + nh + nl <= ld16 d o + ol + oh ->
  oc_sum (ld16 (net_packet_checksum_update_32 d (ol + 65536 * oh) (nl + 65536 * nh) in_ip) o :: nl :: nh :: rest) = 65535)%N.
Proof. exact checksum_update_32_valid. Qed.
Print Assumptions C66_address_partial.
Example C66_address_example : exists d, (data_ok d /\ l4_checksum_at d (L4 + 16) /\ ld16 d (L4 + 16) = 0xFFF0 /\
  oc_sum [0xFFF0; 0xF000; 0xE000; 0x300D] = 65535 /\
  65535 + 0x1000 <= 0xFFF0 + 0xF000 /\ 2 * 65535 + 0x1000 + 0x2000 <= 0xFFF0 + 0xF000 + 0xE000)%N.
Proof.
  exists (fun a => if (a =? 23)%N then 6%N else if (a =? 50)%N then 0xF0%N else if (a =? 51)%N then 0xFF%N else 0%N).
  split; [intros a; repeat match goal with |- context [if ?b then _ else _] => destruct b end; reflexivity|].
  split; [left; split; reflexivity|]. repeat split; vm_compute; try reflexivity; discriminate.
Qed.
(** Which bytes an update may touch. *)
Theorem C66_touches_partial : forall d old new in_ip a, (net_packet_checksum_update d old new in_ip a <> d a ->
  (in_ip = true /\ (a = IP + 12 \/ a = IP + 13)) \/ (d (IP + 9) = 6 /\ (a = L4 + 16 \/ a = L4 + 17)) \/
  (d (IP + 9) = 17 /\ (a = L4 + 6 \/ a = L4 + 7)))%N.
Proof. exact checksum_update_touches. Qed.
Print Assumptions C66_touches_partial.
Example C66_example : (oc_sum [0xA000; 0x9000; 0xCFFE] = 65535 /\
  oc_sum [csum_word 0xA000 0x9000 0x1000; 0x1000; 0xCFFE] = 65535 /\
  oc_sum [csum_word 0xA000 0x9000 0xF000; 0xF000; 0xCFFE] <> 65535)%N.
Proof. vm_compute. repeat split; discriminate. Qed.
(** The update of the IPv4 checksum is made two bytes too far, in the source address: the
    checksum stays as it was and is no longer valid, and the source address changes. *)
Definition ex_ip : data := fun a =>
  nth (N.to_nat a) ([0;0;0;0;0;0; 0;0;0;0;0;0; 8;0; 0x45;0; 0;40; 0;0; 0;0; 64;6; 0x66;0xCE; 10;0;0;1; 10;0;0;2]%N) 0%N.
Theorem C66_wrong_place_refuted : data_ok ex_ip /\ ip_checksum_valid ex_ip /\
  exists addr, (addr < 2 ^ 32)%N /\
  let d' := st32 (net_packet_checksum_update_32 ex_ip (ld32 ex_ip (IP + 16)) addr true) (IP + 16) addr in
  ~ ip_checksum_valid d' /\ ld32 d' (IP + 12) <> ld32 ex_ip (IP + 12) /\ ld16 d' (IP + 10) = ld16 ex_ip (IP + 10).
Proof.
  split; [|split; [vm_compute; reflexivity|]].
  - intros o. unfold ex_ip. destruct (Nat.lt_ge_cases (N.to_nat o) 34) as [H|H].
    + assert (G : forall k, k < 34 -> (nth k ([0;0;0;0;0;0; 0;0;0;0;0;0; 8;0; 0x45;0; 0;40; 0;0; 0;0; 64;6; 0x66;0xCE; 10;0;0;1; 10;0;0;2]%N) 0 < 256)%N).
      { intros k Hk. do 34 (destruct k as [|k]; [vm_compute; reflexivity|]). lia. }
      apply G. exact H.
    + rewrite nth_overflow by exact H. reflexivity.
  - exists 0x0500000A%N. vm_compute. repeat split; discriminate.
Qed.
Print Assumptions C66_wrong_place_refuted.
(** Even in the right place, replacing a word by itself would change the checksum. *)
Theorem C66_identity_refuted : exists c w, (c < 65536 /\ w < 65536)%N /\ csum_word c w w <> c.
Proof. exists 5%N, 7%N. vm_compute. repeat split; discriminate. Qed.
Print Assumptions C66_identity_refuted.
(** Replies translated by the NAT reach the inside with a wrong source address. *)
Theorem C66_nat_source_refuted :
  let handle := nat_handle ex_hash ex_base ex_loc 1 99 1000 in
  let (_, s1) := handle (talloc FLOW_SIZE 2 100) (frame 0 10 1 2 3 4) in
  match fst (handle s1 (frame 1 12 2 99 4 1000)) with
  | Some (_, d') => ld32 d' (IP + 12) <> 2%N
  | None => False
  end.
Proof. vm_compute. discriminate. Qed.
Print Assumptions C66_nat_source_refuted.

(** ** C67 *)
(** A flow stays on its backend when no backend has come up since and backend 0 is not
    alive. *)
Theorem C67_sticky_partial : forall hash base loc n h cap fexp bexp, prime (Z.of_nat h) ->
  forall h1 b1 p1 d h2 b2 p2, mg_hist hash base loc n h cap fexp bexp h1 b1 -> for_backends n p1 = true ->
  fst (mg_handle hash base loc n h b1 p1) = Some d ->
  mg_hist hash base loc n h cap fexp bexp h2 b2 -> for_backends n p2 = true -> pkt_flow p2 = pkt_flow p1 ->
  backend_alive n bexp d (p_time p2) h2 ->
  (forall x, backend_alive n bexp x (p_time p2) h2 -> backend_alive n bexp x (p_time p1) h1) ->
  ~ backend_alive n bexp 0 (p_time p2) h2 ->
  fst (mg_handle hash base loc n h b2 p2) = Some d.
Proof. exact mg_sticky. Qed.
Print Assumptions C67_sticky_partial.
Definition ex_mg_run (n h cap : nat) (fexp bexp : N) (ps : list pkt) : list (option N) :=
  match mg_init n h cap fexp bexp with
  | Some b => (fix run b ps := match ps with
                               | [] => []
                               | p :: ps' => let (o, b') := mg_handle ex_hash ex_base ex_loc n h b p in o :: run b' ps'
                               end) b ps
  | None => []
  end.
Example C67_example : ex_mg_run 4 5 2 100 50
  [tcp 1 0 0 0 0 0; tcp 2 0 0 0 0 0; tcp 3 1 9 8 7 6; tcp 3 2 10 8 7 6; tcp 3 3 9 8 7 6; tcp 3 4 10 8 7 6; tcp 3 60 9 8 7 6]%N =
  [None; None; Some 1; Some 2; Some 1; Some 2; None]%N.
Proof. vm_compute. reflexivity. Qed.
(** The backend of a flow is never recorded: the second packet of a flow goes to backend
    0, when it is alive, though the flow's first packet went to another live backend. *)
Theorem C67_affinity_refuted : exists ps, ex_mg_run 3 5 2 100 50 ps = [None; None; Some 1; Some 0]%N /\
  (forall p q, In p (skipn 2 ps) -> In q (skipn 2 ps) -> pkt_flow p = pkt_flow q) /\
  (forall p, In p ps -> (p_time p <= 2)%N).
Proof.
  exists [tcp 0 0 0 0 0 0; tcp 1 0 0 0 0 0; tcp 2 1 11 8 7 6; tcp 2 2 11 8 7 6]%N.
  split; [vm_compute; reflexivity|]. split.
  - intros p q [<-|[<-|[]]] [<-|[<-|[]]]; reflexivity.
  - intros p [<-|[<-|[<-|[<-|[]]]]]; cbn; lia.
Qed.
Print Assumptions C67_affinity_refuted.
(** Always so: a recorded flow goes to backend 0 while backend 0 is alive. *)
Theorem C67_zero_refuted : forall hash base loc n h cap fexp bexp, layout_ok FLOW_SIZE base loc cap -> (N.of_nat cap <= 2 ^ 63)%N ->
  forall hs b p1 o1 b1 p2, mg_hist hash base loc n h cap fexp bexp hs b -> mpkt_ok n p1 -> for_backends n p1 = true ->
  mg_handle hash base loc n h b p1 = (Some o1, b1) ->
  (exists i, i < cap /\ forall k t, view (flows b) i = Some (k, t) -> ~ young (p_time p1) fexp t) ->
  mpkt_ok n p2 -> for_backends n p2 = true -> pkt_flow p2 = pkt_flow p1 ->
  backend_alive n bexp 0 (p_time p2) ((p1, Some o1) :: hs) ->
  fst (mg_handle hash base loc n h b1 p2) = Some 0%N.
Proof. exact mg_known_to_zero. Qed.
Print Assumptions C67_zero_refuted.

(** ** C84: the firewall meets its specification *)
Theorem C84_firewall_spec : forall hash base loc external exp cap, layout_ok FLOW_SIZE base loc cap -> (N.of_nat cap <= 2 ^ 63)%N ->
  forall h tb p o tb', fw_hist hash base loc external cap exp h tb -> pkt_ok p -> fw_handle hash base loc external tb p = (o, tb') ->
  fw_spec_py external (observe FLOW_SIZE base loc exp cap (p_time p) tb)
                      (observe FLOW_SIZE base loc exp cap (p_time p) tb') p o = Ok true.
Proof. exact fw_meets_spec. Qed.
Print Assumptions C84_firewall_spec.
(** What the specification means, for a firewall with any two tables of the given kind
    before and after: it drops what is not TCP or UDP over IPv4; from outside, it answers
    exactly the flows that were live, and refreshes them; from inside, it forwards
    everything, and remembers the flow unless there was no room. *)
Definition live (exp time : N) (tb : table) (k : bytes) : Prop := exists i t, view tb i = Some (k, t) /\ young time exp t.
Definition no_room (exp time : N) (cap : nat) (tb : table) : Prop := forall i, i < cap -> exists k t, view tb i = Some (k, t) /\ young time exp t.
Theorem C84_spec_meaning : forall hash base loc external exp cap, layout_ok FLOW_SIZE base loc cap ->
  forall tb tb' p o, table_ok hash FLOW_SIZE base loc cap exp tb -> table_ok hash FLOW_SIZE base loc cap exp tb' ->
  let inside := flow_bytes (pkt_rev_flow p) in let outside := flow_bytes (pkt_flow p) in
  fw_spec_py external (observe FLOW_SIZE base loc exp cap (p_time p) tb)
                      (observe FLOW_SIZE base loc exp cap (p_time p) tb') p o = Ok true <->
  ((is_ipv4 p && is_tcpudp p = false -> o = None) /\
   (is_ipv4 p && is_tcpudp p = true -> p_device p = external -> ~ live exp (p_time p) tb inside -> o = None) /\
   (is_ipv4 p && is_tcpudp p = true -> p_device p = external -> live exp (p_time p) tb inside ->
      o = Some (1 - p_device p)%N /\ exists i, view tb' i = Some (inside, p_time p)) /\
   (is_ipv4 p && is_tcpudp p = true -> p_device p <> external ->
      o = Some (1 - p_device p)%N /\ (live exp (p_time p) tb' outside \/ no_room exp (p_time p) cap tb))).
Proof.
  intros hash base loc external exp cap L tb tb' p o H H' inside outside. unfold fw_spec_py. fold inside outside.
  destruct (contains_spec FLOW_SIZE base loc hash cap exp L tb (p_time p) inside H) as (b1 & -> & B1).
  destruct (contains_spec FLOW_SIZE base loc hash cap exp L tb' (p_time p) outside H') as (b2 & -> & B2).
  destruct (did_refresh_spec FLOW_SIZE base loc hash cap exp L tb' (p_time p) inside H') as (b3 & -> & B3).
  pose proof (full_spec FLOW_SIZE base loc hash cap exp tb (p_time p) H) as FU.
  fold (live exp (p_time p) tb inside) in B1. fold (live exp (p_time p) tb' outside) in B2. fold (no_room exp (p_time p) cap tb) in FU.
  assert (SO : match o with Some d => (d =? 1 - p_device p)%N | None => false end = true <-> o = Some (1 - p_device p)%N).
  { destruct o as [d|]; [rewrite N.eqb_eq; split; [intros ->; auto|intros E; injection E; auto]|split; discriminate]. }
  assert (NO : match o with Some _ => false | None => true end = true <-> o = None) by (destruct o; split; auto; discriminate).
  set (so := match o with Some d => (d =? 1 - p_device p)%N | None => false end) in *.
  set (no := match o with Some _ => false | None => true end) in *.
  set (fu := es_full (observe FLOW_SIZE base loc exp cap (p_time p) tb)) in *.
  assert (OK : forall x : bool, Ok x = Ok true <-> x = true) by (intros x; split; [intros E; injection E; auto|intros ->; auto]).
  destruct (is_ipv4 p && is_tcpudp p); cbn [negb bindr].
  - destruct (N.eqb_spec (p_device p) external) as [D|D].
    + destruct b1; cbn [negb bindr]; rewrite OK; [rewrite andb_true_iff|].
      * assert (LV : live exp (p_time p) tb inside) by (apply B1; auto). rewrite SO, B3. intuition (try discriminate; try contradiction).
      * assert (LV : ~ live exp (p_time p) tb inside) by (intros X; apply B1 in X; discriminate). rewrite NO.
        intuition (try discriminate; try contradiction).
    + destruct b2; cbn [negb]; rewrite OK; [|rewrite andb_true_iff]; rewrite SO.
      * assert (LV : live exp (p_time p) tb' outside) by (apply B2; auto). intuition (try discriminate; try contradiction).
      * assert (LV : ~ live exp (p_time p) tb' outside) by (intros X; apply B2 in X; discriminate). rewrite FU.
        intuition (try discriminate; try contradiction).
  - rewrite OK, NO. intuition (try discriminate; try contradiction).
Qed.
Print Assumptions C84_spec_meaning.
(** The specification rejects a firewall that lets an unknown flow in, and one that
    drops an answer. *)
Example C84_example :
  let tb := snd (fw_run ex_hash ex_base ex_loc 1 (talloc FLOW_SIZE 2 100) (firstn 3 ex_fw)) in
  let o t := observe FLOW_SIZE ex_base ex_loc 100 2 t tb in
  fw_spec_py 1 (o 40%N) (o 40%N) (tcp 1 40 2 9 4 3) (Some 0%N) = Ok false /\
  fw_spec_py 1 (o 40%N) (o 40%N) (tcp 1 40 2 9 4 3) None = Ok true /\
  fw_spec_py 1 (o 40%N) (o 40%N) (tcp 1 40 2 1 4 3) None = Ok false.
Proof. vm_compute. auto. Qed.

(** ** C85: the NAT meets its specification *)
Theorem C85_nat_spec : forall hash base loc wan ext_addr start_port exp cap, layout_ok FLOW_SIZE base loc cap ->
  (N.of_nat cap <= 2 ^ 63)%N -> (start_port < 65536)%N -> (ext_addr < 2 ^ 32)%N ->
  forall h tb r o tb', nat_hist hash base loc wan ext_addr start_port cap exp h tb -> rpkt_ok r ->
  nat_handle hash base loc wan ext_addr start_port tb r = (o, tb') ->
  nat_spec_py wan ext_addr start_port
    (observe FLOW_SIZE base loc exp cap (p_time (parse r)) tb)
    (observe FLOW_SIZE base loc exp cap (p_time (parse r)) tb') (parse r) o = Ok true.
Proof. exact nat_meets_spec. Qed.
Print Assumptions C85_nat_spec.
(** What the specification means: it drops what is not TCP or UDP over IPv4; from the WAN
    side, the packets that go to no live flow's port, or to that of a flow with someone
    else; others are sent to the flow's source, and refresh it. From the other side, it
    sends from the external address and the flow's port, or, if there was no room for
    the flow, drops. *)
Theorem C85_spec_meaning : forall hash base loc wan ext_addr start_port exp cap, layout_ok FLOW_SIZE base loc cap ->
  forall tb tb' p o, table_ok hash FLOW_SIZE base loc cap exp tb -> table_ok hash FLOW_SIZE base loc cap exp tb' ->
  (forall i k t, view tb i = Some (k, t) -> exists f, flow_ok f /\ k = flow_bytes f) ->
  let out := flow_bytes (pkt_flow p) in
  let mine f := f_dst f = ip_src p /\ f_dport f = l4_src p /\ f_proto f = ip_proto p in
  let at_port f := flow_ok f /\ exists t, view tb (port_index start_port (l4_dst p)) = Some (flow_bytes f, t) /\ young (p_time p) exp t in
  nat_spec_py wan ext_addr start_port (observe FLOW_SIZE base loc exp cap (p_time p) tb)
                                      (observe FLOW_SIZE base loc exp cap (p_time p) tb') p o = Ok true <->
  ((is_ipv4 p && is_tcpudp p = false -> o = None) /\
   (is_ipv4 p && is_tcpudp p = true -> p_device p = wan -> (forall f, at_port f -> ~ mine f) -> o = None) /\
   (is_ipv4 p && is_tcpudp p = true -> p_device p = wan -> forall f, at_port f -> mine f ->
      (exists i, view tb' i = Some (flow_bytes f, p_time p)) /\
      exists b, o = Some ((1 - p_device p)%N, b) /\ ld32 b (IP + 16) = f_src f /\ ld16 b (L4 + 2) = f_sport f) /\
   (is_ipv4 p && is_tcpudp p = true -> p_device p <> wan -> ~ live exp (p_time p) tb' out -> o = None /\ no_room exp (p_time p) cap tb) /\
   (is_ipv4 p && is_tcpudp p = true -> p_device p <> wan -> live exp (p_time p) tb' out ->
      exists i t b, view tb' i = Some (out, t) /\ o = Some ((1 - p_device p)%N, b) /\
        ld32 b (IP + 12) = ext_addr /\ ld16 b L4 = index_port start_port i)).
Proof.
  intros hash base loc wan ext_addr start_port exp cap L tb tb' p o H H' FL out mine at_port. unfold nat_spec_py. fold out.
  destruct (contains_spec FLOW_SIZE base loc hash cap exp L tb' (p_time p) out H') as (b2 & -> & B2).
  pose proof (full_spec FLOW_SIZE base loc hash cap exp tb (p_time p) H) as FU.
  destruct (get_by_index_spec FLOW_SIZE base loc hash cap exp L tb (p_time p) (port_index start_port (l4_dst p)) H) as (fl & -> & GF).
  fold (live exp (p_time p) tb' out) in B2. fold (no_room exp (p_time p) cap tb) in FU.
  set (fu := es_full (observe FLOW_SIZE base loc exp cap (p_time p) tb)) in *.
  assert (NO : match o with Some _ => false | None => true end = true <-> o = None) by (destruct o; split; auto; discriminate).
  set (no := match o with Some _ => false | None => true end) in *.
  assert (OK : forall x : bool, Ok x = Ok true <-> x = true) by (intros x; split; [intros E; injection E; auto|intros ->; auto]).
  destruct (is_ipv4 p && is_tcpudp p); cbn [negb bindr].
  - destruct (N.eqb_spec (p_device p) wan) as [D|D].
    + destruct fl as [k|].
      * destruct (proj1 (GF k) eq_refl) as [t [Hv Y]]. destruct (FL _ _ _ Hv) as [f [Hf Ef]]. subst k.
        assert (U : unflow (flow_bytes f) = f) by (apply unflow_bytes; auto). rewrite U.
        assert (ONE : forall f', at_port f' -> f' = f).
        { intros f' [Hf' [t' [Hv' _]]]. rewrite Hv in Hv'. assert (E : flow_bytes f' = flow_bytes f) by congruence.
          rewrite <- (unflow_bytes f' Hf'), E. exact U. }
        assert (AT : at_port f) by (split; [auto|exists t; auto]).
        destruct (negb (f_dst f =? ip_src p)%N || negb (f_dport f =? l4_src p)%N || negb (f_proto f =? ip_proto p)%N) eqn:NM.
        -- assert (NF : ~ mine f).
           { intros [X1 [X2 X3]]. rewrite X1, X2, X3, !N.eqb_refl in NM. discriminate. }
           rewrite OK, NO. split.
           ++ intros ->. split; [discriminate|]. split; [auto|]. split; [intros _ _ f' A M; rewrite (ONE f' A) in M; contradiction|].
              split; intros; contradiction.
           ++ intros [_ [X _]]. apply X; auto. intros f' A M. rewrite (ONE f' A) in M. contradiction.
        -- assert (MF : mine f).
           { rewrite !orb_false_iff, !negb_false_iff, !N.eqb_eq in NM. unfold mine. tauto. }
           destruct (did_refresh_spec FLOW_SIZE base loc hash cap exp L tb' (p_time p) (flow_bytes f) H') as (b3 & -> & B3). cbn [bindr].
           rewrite OK, andb_true_iff, B3. split.
           ++ intros [R S]. split; [discriminate|]. split; [intros _ _ X; exfalso; eapply X; eauto|]. split; [|split; intros; contradiction].
              intros _ _ f' A _. rewrite (ONE f' A). split; [auto|]. destruct o as [[d b]|]; [|discriminate].
              rewrite !andb_true_iff, !N.eqb_eq in S. destruct S as [[S1 S2] ->]. exists b. auto.
           ++ intros [_ [_ [X _]]]. destruct (X eq_refl D f AT MF) as [R [b [-> [S1 S2]]]]. split; [auto|].
              rewrite S1, S2, !N.eqb_refl. reflexivity.
      * assert (NA : forall f, ~ at_port f).
        { intros f [_ [t [Hv Y]]]. assert (X : None = Some (flow_bytes f)) by (apply GF; eauto). discriminate. }
        rewrite OK, NO. split.
        -- intros ->. split; [discriminate|]. split; [auto|]. split; [intros _ _ f A; exfalso; eapply NA; eauto|]. split; intros; contradiction.
        -- intros [_ [X _]]. apply X; auto. intros f A. exfalso. eapply NA; eauto.
    + destruct b2; cbn [negb]; rewrite OK.
      * assert (LV : live exp (p_time p) tb' out) by (apply B2; auto). split.
        -- intros S. split; [discriminate|]. split; [intros; contradiction|]. split; [intros; contradiction|]. split; [intros; contradiction|].
           intros _ _ _. destruct o as [[d b]|]; [|discriminate]. unfold es_get_index in S. cbn [observe e2i] in S.
           destruct (assoc beqb (map_entries FLOW_SIZE base loc tb') out) as [i|] eqn:E; [|discriminate].
           apply (e2i_view FLOW_SIZE base loc hash cap exp L tb' out i H') in E as [t Hv].
           rewrite !andb_true_iff, !N.eqb_eq in S. destruct S as [[S1 S2] ->]. exists i, t, b. auto.
        -- intros [_ [_ [_ [_ X]]]]. destruct (X eq_refl D LV) as [i [t [b [Hv [-> [S1 S2]]]]]].
           unfold es_get_index. cbn [observe e2i].
           rewrite (proj2 (e2i_view FLOW_SIZE base loc hash cap exp L tb' out i H') (ex_intro _ t Hv)). rewrite S1, S2, !N.eqb_refl. reflexivity.
      * assert (LV : ~ live exp (p_time p) tb' out) by (intros X; apply B2 in X; discriminate).
        rewrite andb_true_iff, FU, NO. intuition (try discriminate; try contradiction).
  - rewrite OK, NO. intuition (try discriminate; try contradiction).
Qed.
Print Assumptions C85_spec_meaning.
Example C85_example :
  let handle := nat_handle ex_hash ex_base ex_loc 1 99 1000 in
  let '(o1, s1) := handle (talloc FLOW_SIZE 2 100) (frame 0 10 1 2 3 4) in
  let '(o2, s2) := handle s1 (frame 1 12 2 99 4 1000) in
  let o t tb := observe FLOW_SIZE ex_base ex_loc 100 2 t tb in
  let p := parse (frame 1 12 2 99 4 1000) in
  nat_spec_py 1 99 1000 (o 12%N s1) (o 12%N s2) p o2 = Ok true /\
  nat_spec_py 1 99 1000 (o 12%N s1) (o 12%N s2) p None = Ok false /\
  nat_spec_py 1 99 1000 (o 12%N s1) (o 12%N s2) p (option_map (fun x => (1%N, snd x)) o2) = Ok false.
Proof. vm_compute. auto. Qed.

(** ** C86: the drivers *)
Theorem C86_transmit_partial : forall n ingress device len, (ingress < N.of_nat n)%N -> (device < N.of_nat n)%N -> device <> ingress -> len <> 0%N ->
  exists out, tn_transmit ingress device len (repeat 0%N (n - 1)) = Some out /\ forall d, In d (tn_sent ingress out) <-> d = device.
Proof. exact tn_transmit_spec. Qed.
Print Assumptions C86_transmit_partial.
Theorem C86_flood : forall n ingress len d, (ingress < N.of_nat n)%N -> len <> 0%N ->
  (In d (tn_sent ingress (tn_flood n len)) <-> (d < N.of_nat n)%N /\ d <> ingress) /\
  (In d (tn_sent ingress (tn_flood n len)) <-> In d (net_flood n ingress)).
Proof.
  intros n ingress len d H1 H2. split; [|apply drivers_flood; assumption]. rewrite <- net_flood_in. apply drivers_flood; assumption.
Qed.
Print Assumptions C86_flood.
Theorem C86_flood_except : forall n ingress dis len d, (ingress < N.of_nat n)%N -> len <> 0%N ->
  (In d (tn_sent ingress (tn_flood_except n ingress dis len)) <-> (d < N.of_nat n)%N /\ d <> ingress /\ dis d = false) /\
  (In d (tn_sent ingress (tn_flood_except n ingress dis len)) <-> In d (net_flood_except n ingress dis)).
Proof.
  intros n ingress dis len d H1 H2. split; [|apply drivers_flood_except; assumption]. rewrite <- net_flood_except_in. apply drivers_flood_except; assumption.
Qed.
Print Assumptions C86_flood_except.
Example C86_example : tn_sent 1 (tn_flood 4 60) = [0; 2; 3]%N /\
  option_map (tn_sent 1) (tn_transmit 1 3 60 [0; 0; 0]%N) = Some [3%N] /\
  tn_sent 1 (tn_flood_except 4 1 (fun d => (d =? 2)%N) 60) = [0; 3]%N.
Proof. vm_compute. auto. Qed.
(** Transmitting on the device the packet came from (as the router may): TinyNF sends it
    elsewhere, or writes outside the array when it is the last device. *)
Theorem C86_own_device_refuted :
  (exists n ingress len out, (ingress < N.of_nat n)%N /\ tn_transmit ingress ingress len (repeat 0%N (n - 1)) = Some out /\
     exists d, In d (tn_sent ingress out) /\ d <> ingress) /\
  forall n len, 1 <= n -> tn_transmit (N.of_nat (n - 1)) (N.of_nat (n - 1)) len (repeat 0%N (n - 1)) = None.
Proof.
  split.
  - exists 3, 0%N, 60%N. eexists. split; [reflexivity|]. split; [vm_compute; reflexivity|]. exists 1%N. split; [left; reflexivity|discriminate].
  - intros n len H. unfold tn_transmit, index_from_device. rewrite N.ltb_irrefl, Nat2N.id, repeat_length, Nat.ltb_irrefl. reflexivity.
Qed.
Print Assumptions C86_own_device_refuted.

(** ** C87: the spanning tree *)
(** The root becomes the least of itself and what a BPDU says, whenever one is read. *)
Theorem C87_root_partial : forall n s r o s', stp_handle n s r = (o, s') ->
  root s' = match told s r with Some x => N.min (root s) x | None => root s end /\ self_id s' = self_id s.
Proof. exact stp_root. Qed.
Print Assumptions C87_root_partial.
(** A BPDU that arrives when an update is due is not read. *)
Theorem C87_lost_refuted : exists s r, dst_mac r = STP_ADDR /\ (bpdu_root (r_data r) < root s)%N /\
  root (snd (stp_handle 3 s r)) = root s.
Proof.
  exists (stp_init 3 7 10), (mkR 0 11 60 (fun a => if (a =? 0)%N then 1%N else if (a =? 1)%N then 128%N else if (a =? 2)%N then 194%N else if (a =? 14)%N then 3%N else 0%N)).
  vm_compute. auto.
Qed.
Print Assumptions C87_lost_refuted.
(** Ports that are disabled are not flooded to. *)
Theorem C87_disabled_partial : forall n s r d, In d (net_flood_except n (r_device r) (is_disabled s)) -> is_disabled s d = false.
Proof. intros n s r d H. apply net_flood_except_in in H. tauto. Qed.
Print Assumptions C87_disabled_partial.
Definition bpdu_frame (device time rt : N) : rpkt :=
  mkR device time 60 (fun a => if (a =? 0)%N then 1%N else if (a =? 1)%N then 128%N else if (a =? 2)%N then 194%N else if (a =? 14)%N then rt else 0%N).
Example C87_example : let s0 := stp_init 3 7 100 in
  let s1 := snd (stp_handle 3 s0 (bpdu_frame 1 5 3)) in
  let s2 := snd (stp_handle 3 s1 (bpdu_frame 2 6 9)) in
  root s1 = 3%N /\ root_cost s1 = 10%N /\ root_port s1 = 1%N /\ root s2 = 3%N /\ disabled s2 = [false; false; true].
Proof. vm_compute. auto. Qed.
(** But frames to a learned address are sent to a disabled port. *)
Theorem C87_disabled_refuted :
  ex_br 10000 [eth 1 1 4 2; bpdu_frame 1 2 9; eth 0 3 2 4]%N = [[0; 2]; []; [1]]%N /\
  (forall b, br_init 3 2 100 7 10000 = Some b -> disabled (bstp (snd (ex_br_run b [eth 1 1 4 2; bpdu_frame 1 2 9]%N))) = [false; true; false]).
Proof. split; [vm_compute; reflexivity|]. intros b E. vm_compute in E. injection E as <-. vm_compute. reflexivity. Qed.
Print Assumptions C87_disabled_refuted.

(** ** C88: the load balancer sends to live backends *)
Theorem C88_live : forall hash base loc n h cap fexp bexp, prime (Z.of_nat h) ->
  forall hs b p, mg_hist hash base loc n h cap fexp bexp hs b -> for_backends n p = true ->
  match fst (mg_handle hash base loc n h b p) with
  | Some d => backend_alive n bexp d (p_time p) hs
  | None => forall d, ~ backend_alive n bexp d (p_time p) hs
  end.
Proof. exact mg_live. Qed.
Print Assumptions C88_live.
Theorem C88_only : forall hash base loc n h b p, for_backends n p = false -> (p_device p < N.of_nat n)%N ->
  fst (mg_handle hash base loc n h b p) = None.
Proof. exact mg_only. Qed.
Print Assumptions C88_only.
(** When it starts: at least two devices, and a table higher than the number of backends but not too high. *)
Theorem C88_starts_partial : forall n h cap fexp bexp, prime (Z.of_nat h) ->
  (exists b, mg_init n h cap fexp bexp = Some b) <-> 2 <= n /\ n - 1 < h /\ (N.of_nat h < 40000)%N.
Proof.
  intros n h cap fexp bexp P. unfold mg_init. destruct (Nat.ltb_spec n 2); [split; [intros [b X]; discriminate|lia]|].
  pose proof (prime_ge_2 _ P) as P2. destruct (Nat.eqb_spec h 0); [lia|]. cbn [orb]. unfold MAX_CHT_HEIGHT.
  destruct (N.leb_spec 40000 (N.of_nat h)); [split; [intros [b X]; discriminate|lia]|].
  destruct (Nat.leb_spec h (n - 1)); [split; [intros [b X]; discriminate|lia]|].
  destruct (cht_rows_prime h (n - 1) P) as (data & -> & _). cbn [option_map]. split; [lia|eauto].
Qed.
Print Assumptions C88_starts_partial.
(** Nothing checks that the height is prime. With height 8, which the load balancer accepts, a packet is dropped though a backend is alive. *)
Theorem C88_height_refuted : exists hs b p, mg_hist ex_hash ex_base ex_loc 5 8 2 100 50 hs b /\ mpkt_ok 5 p /\ for_backends 5 p = true /\
  fst (mg_handle ex_hash ex_base ex_loc 5 8 b p) = None /\ backend_alive 5 50 2 (p_time p) hs.
Proof.
  destruct (mg_init 5 8 2 100 50) as [b0|] eqn:E; [|vm_compute in E; discriminate].
  destruct (mg_handle ex_hash ex_base ex_loc 5 8 b0 (tcp 2 1 0 0 0 0)) as [o b1] eqn:E1.
  exists [(tcp 2 1 0 0 0 0, o)], b1, (tcp 4 2 9 8 7 4).
  split; [eapply mh_cons; [apply mh_nil; exact E| |exact E1]; unfold mpkt_ok, flow_ok, TIME_MAX; cbn; lia|]. split; [unfold mpkt_ok, flow_ok, TIME_MAX; cbn; lia|].
  split; [reflexivity|]. split; [|split; [reflexivity|]; exists 1%N; split; [reflexivity|cbn; lia]].
  vm_compute in E. injection E as <-. vm_compute in E1. injection E1 as <- <-. vm_compute. reflexivity.
Qed.
Print Assumptions C88_height_refuted.
Example C88_example : ex_mg_run 4 5 2 100 50
  [tcp 3 0 9 8 7 6; tcp 1 0 0 0 0 0; tcp 3 50 9 8 7 6; tcp 3 51 9 8 7 6]%N = [None; None; Some 1; None]%N /\ prime (Z.of_nat 5).
Proof. split; [vm_compute; reflexivity|exact prime_5]. Qed.

(** ** C89: the load balancer and its specification *)
Theorem C89_maglev_spec_partial : forall hash base loc n h cap fexp bexp, layout_ok FLOW_SIZE base loc cap -> (N.of_nat cap <= 2 ^ 63)%N ->
  forall hs b p o b', mg_hist hash base loc n h cap fexp bexp hs b -> mpkt_ok n p -> mg_handle hash base loc n h b p = (o, b') ->
  (o = None -> for_backends n p = true -> forall d, (d < N.of_nat (n - 1))%N -> last_beat d hs = None) ->
  mg_spec_py n (observe FLOW_SIZE base loc fexp cap (p_time p) (flows b))
             (observe FLOW_SIZE base loc fexp cap (p_time p) (flows b')) (beats n b') p o = Ok true.
Proof. exact mg_meets_spec. Qed.
Print Assumptions C89_maglev_spec_partial.
(** What the specification means: it drops what is not TCP or UDP over IPv4; a packet
    from a backend's device refreshes that backend; a packet for the backends is dropped
    only when there are none, and one that is sent has its flow remembered unless there
    was no room. *)
Theorem C89_spec_meaning : forall hash base loc n exp cap, layout_ok FLOW_SIZE base loc cap ->
  forall tb tb' backends p o, table_ok hash FLOW_SIZE base loc cap exp tb -> table_ok hash FLOW_SIZE base loc cap exp tb' ->
  mg_spec_py n (observe FLOW_SIZE base loc exp cap (p_time p) tb)
               (observe FLOW_SIZE base loc exp cap (p_time p) tb') backends p o = Ok true <->
  ((is_ip_tcpudp p = false -> o = None) /\
   (is_ip_tcpudp p = true -> p_device p <> N.of_nat (n - 1) -> backends (p_device p) = Some (p_time p)) /\
   (is_ip_tcpudp p = true -> p_device p = N.of_nat (n - 1) -> o = None -> forall d, (d < N.of_nat (n - 1))%N -> backends d = None) /\
   (is_ip_tcpudp p = true -> p_device p = N.of_nat (n - 1) -> o <> None ->
      live exp (p_time p) tb' (flow_bytes (pkt_flow p)) \/ no_room exp (p_time p) cap tb)).
Proof.
  intros hash base loc n exp cap L tb tb' backends p o H H'. unfold mg_spec_py.
  destruct (contains_spec FLOW_SIZE base loc hash cap exp L tb' (p_time p) (flow_bytes (pkt_flow p)) H') as (b2 & -> & B2).
  pose proof (full_spec FLOW_SIZE base loc hash cap exp tb (p_time p) H) as FU.
  fold (live exp (p_time p) tb' (flow_bytes (pkt_flow p))) in B2. fold (no_room exp (p_time p) cap tb) in FU.
  set (fu := es_full (observe FLOW_SIZE base loc exp cap (p_time p) tb)) in *.
  assert (OK : forall x : bool, Ok x = Ok true <-> x = true) by (intros x; split; [intros E; injection E; auto|intros ->; auto]).
  destruct (is_ip_tcpudp p); cbn [negb bindr].
  - destruct (N.eqb_spec (p_device p) (N.of_nat (n - 1))) as [D|D].
    + destruct o as [d|].
      * rewrite OK, orb_true_iff, B2, FU. intuition (try discriminate; try contradiction; try congruence).
      * rewrite OK, forallb_forall. split.
        -- intros F. split; [discriminate|]. split; [intros; contradiction|]. split; [|intros; congruence].
           intros _ _ _ d Hd. specialize (F (N.to_nat d)). rewrite N2Nat.id in F. destruct (backends d); [|auto].
           assert (X : false = true) by (apply F; apply in_seq; lia). discriminate.
        -- intros [_ [_ [X _]]] d Hd. apply in_seq in Hd. rewrite X; auto. lia.
    + rewrite OK. split.
      * intros E. destruct (backends (p_device p)) as [t|]; [|discriminate]. apply N.eqb_eq in E. subst t.
        intuition (try discriminate; try contradiction).
      * intros [_ [X _]]. rewrite X by auto. apply N.eqb_refl.
  - rewrite OK. destruct o; intuition (try discriminate; try contradiction).
Qed.
Print Assumptions C89_spec_meaning.
(** When the backends have all expired, the packet is dropped, which the specification
    allows only if no backend was ever heard of. *)
Theorem C89_expired_refuted : exists b p, 
  mg_hist ex_hash ex_base ex_loc 3 5 2 100 50 [(tcp 0 0 0 0 0 0, None)] b /\ mpkt_ok 3 p /\
  let (o, b') := mg_handle ex_hash ex_base ex_loc 3 5 b p in
  mg_spec_py 3 (observe FLOW_SIZE ex_base ex_loc 100 2 (p_time p) (flows b))
             (observe FLOW_SIZE ex_base ex_loc 100 2 (p_time p) (flows b')) (beats 3 b') p o = Ok false.
Proof.
  destruct (mg_init 3 5 2 100 50) as [b0|] eqn:E0; [|vm_compute in E0; discriminate].
  exists (snd (mg_handle ex_hash ex_base ex_loc 3 5 b0 (tcp 0 0 0 0 0 0))), (tcp 2 51 9 8 7 6)%N. split; [|split].
  - eapply mh_cons; [apply mh_nil; exact E0|vm_compute; auto 10|]. vm_compute in E0. injection E0 as <-. vm_compute. reflexivity.
  - vm_compute. auto 10.
  - vm_compute in E0. injection E0 as <-. vm_compute. reflexivity.
Qed.
Print Assumptions C89_expired_refuted.
