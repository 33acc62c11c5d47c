(** Property theorems C155: what the NAT does for the flows it knows. *)

From Coq Require Import NArith List Bool Lia Arith.
From Verif Require Import IndexPool HashMap Table Firewall Packet NatNF NatServe.
Import ListNotations.
Open Scope nat_scope.

(** For all hash functions, placements, addresses, first ports, expiration times, capacities up to the number of ports, and all histories in the order
    of time: a TCP or UDP packet from inside whose flow owns a port is forwarded from the external address and that port. *)
Theorem C155_port_kept : forall hash base loc wan ext_addr start_port cap exp, layout_ok FLOW_SIZE base loc cap -> (N.of_nat cap <= 65536)%N ->
  (start_port < 65536)%N -> (ext_addr < 2 ^ 32)%N ->
  forall h tb T r q, nat_hist hash base loc wan ext_addr start_port cap exp h tb -> times_ok T h -> rpkt_ok r ->
  is_ipv4 (parse r) && is_tcpudp (parse r) = true -> p_device (parse r) <> wan -> owner wan q h = Some (pkt_flow (parse r)) ->
  exists d', fst (nat_handle hash base loc wan ext_addr start_port tb r) = Some ((1 - p_device (parse r))%N, d') /\
    ld32 d' (IP + 12) = ext_addr /\ ld16 d' L4 = q.
Proof. intros. eapply nat_keeps; eassumption. Qed.
Print Assumptions C155_port_kept.
(** For all such histories: no flow owns two ports. *)
Theorem C155_one_port : forall hash base loc wan ext_addr start_port cap exp, layout_ok FLOW_SIZE base loc cap -> (N.of_nat cap <= 65536)%N ->
  (start_port < 65536)%N -> (ext_addr < 2 ^ 32)%N ->
  forall h tb T f q q', nat_hist hash base loc wan ext_addr start_port cap exp h tb -> times_ok T h ->
  owner wan q h = Some f -> owner wan q' h = Some f -> q = q'.
Proof.
  intros hash base loc wan ext_addr start_port cap exp L Hc Hs Ha h tb T f q q' H HT O O'.
  destruct (owner_view hash base loc wan ext_addr start_port cap exp L Hc Hs Ha h tb T q f H HT O) as (i & t & _ & -> & V & _).
  destruct (owner_view hash base loc wan ext_addr start_port cap exp L Hc Hs Ha h tb T q' f H HT O') as (j & t' & _ & -> & V' & _).
  f_equal. eapply (view_inj hash FLOW_SIZE base loc cap exp L); [|exact V|exact V'].
  eapply nat_inv; try eassumption; lia.
Qed.
Print Assumptions C155_one_port.
(** For all such histories: a TCP or UDP packet from outside to a flow's port, from the peer of the flow, is let in and goes to the flow's own
    address and port, if a packet of the flow in either direction was translated no longer ago than the expiration time. *)
Theorem C155_replies : forall hash base loc wan ext_addr start_port cap exp, layout_ok FLOW_SIZE base loc cap -> (N.of_nat cap <= 65536)%N ->
  (start_port < 65536)%N -> (ext_addr < 2 ^ 32)%N ->
  forall h tb T r f e, nat_hist hash base loc wan ext_addr start_port cap exp h tb -> times_ok T h -> rpkt_ok r ->
  is_ipv4 (parse r) && is_tcpudp (parse r) = true -> p_device (parse r) = wan -> owner wan (l4_dst (parse r)) h = Some f ->
  f_dst f = ip_src (parse r) -> f_dport f = l4_src (parse r) -> f_proto f = ip_proto (parse r) ->
  In e h -> uses wan (l4_dst (parse r)) e -> (p_time (parse r) <= p_time (parse (fst e)) + exp)%N ->
  exists d', fst (nat_handle hash base loc wan ext_addr start_port tb r) = Some ((1 - wan)%N, d') /\
    ld32 d' (IP + 16) = f_src f /\ ld16 d' (L4 + 2) = f_sport f.
Proof. intros. eapply nat_lets_in; eassumption. Qed.
Print Assumptions C155_replies.
(** For all such histories: if a TCP or UDP packet from inside is dropped, then each of the NAT's ports is owned by another flow, and a packet from or
    to that port came no longer ago than the expiration time.
    Partial: the packet may be one that was dropped, see below. *)
Theorem C155_refusal_partial : forall hash base loc wan ext_addr start_port cap exp, layout_ok FLOW_SIZE base loc cap -> (N.of_nat cap <= 65536)%N ->
  (start_port < 65536)%N -> (ext_addr < 2 ^ 32)%N ->
  forall h tb r, nat_hist hash base loc wan ext_addr start_port cap exp h tb -> rpkt_ok r ->
  is_ipv4 (parse r) && is_tcpudp (parse r) = true -> p_device (parse r) <> wan ->
  fst (nat_handle hash base loc wan ext_addr start_port tb r) = None ->
  forall i, i < cap -> let q := ((start_port + N.of_nat i) mod 65536)%N in
  exists f e, owner wan q h = Some f /\ f <> pkt_flow (parse r) /\ In e h /\
    (given_port wan e = Some q \/ p_device (parse (fst e)) = wan /\ l4_dst (parse (fst e)) = q) /\
    (p_time (parse r) <= p_time (parse (fst e)) + exp)%N.
Proof.
  intros hash base loc wan ext_addr start_port cap exp L Hc Hs Ha h tb r H Hr G Dv E i Hi q.
  assert (Q : q = index_port start_port i) by (unfold q, index_port; rewrite (N.mod_small (N.of_nat i)) by lia; reflexivity). clearbody q. subst q.
  destruct (nat_refuses hash base loc wan ext_addr start_port cap exp L Hc Hs Ha h tb r H Hr G Dv E i Hi) as (f & e & O & Hin & Tc & Hy & Ne).
  exists f, e. repeat split; try assumption. destruct Tc as [Tc|(Tc & _ & Tc')]; [left; exact Tc|right]. split; [|exact Tc'].
  unfold inside in Tc. apply negb_false_iff, N.eqb_eq in Tc. exact Tc.
Qed.
Print Assumptions C155_refusal_partial.

Definition z_hash (b : bytes) : N := (fold_right (fun x acc => x + 3 * acc) 0 b mod 2 ^ 32)%N.
Definition z_frame (device time src dst sport dport : N) : rpkt :=
  mkR device time 60 (st16 (st16 (st32 (st32 (fun a => if (a =? 12)%N then 8%N else if (a =? 23)%N then 6%N else 0%N) (IP + 12) src) (IP + 16) dst) L4 sport) (L4 + 2) dport).
(** The addresses and ports of the packets sent, for the external address 99, the ports from 1000 and an expiration time of 100. *)
Fixpoint z_run (tb : table) (rs : list rpkt) : list (option (N * N * N * N)) * table :=
  match rs with
  | [] => ([], tb)
  | r :: rs' =>
      let (o, tb1) := nat_handle z_hash 4096 64 1 99 1000 tb r in
      let (os, tb2) := z_run tb1 rs' in
      (match o with Some (_, d) => Some (ld32 d (IP + 12), ld32 d (IP + 16), ld16 d L4, ld16 d (L4 + 2)) | None => None end :: os, tb2)
  end.
(** Two flows; the first one comes back after its time, and still has its port; a reply (the update of its
    checksum, applied two bytes too far as C66 shows, has changed its source address); a third flow when both ports are in use. *)
Example C155_example : fst (z_run (talloc FLOW_SIZE 2 100)
    [z_frame 0 10 1 2 30 40; z_frame 0 20 7 2 30 40; z_frame 0 200 1 2 30 40; z_frame 1 210 2 99 40 1000; z_frame 0 215 7 2 30 40; z_frame 0 220 8 2 30 40]%N) =
  [Some (99, 2, 1000, 40); Some (99, 2, 1001, 40); Some (99, 2, 1000, 40); Some (102, 1, 40, 30); Some (99, 2, 1001, 40); None]%N.
Proof. vm_compute. reflexivity. Qed.
(** Strangers can keep the NAT's ports in use: packets from outside that are dropped, since they are not from the flow's peer, keep the flow alive.
    A packet from inside is then dropped though no packet was translated on any port for longer than the expiration time. *)
Theorem C155_refusal_refuted : exists a b c, (p_time (parse a) + 100 < p_time (parse c))%N /\ Forall rpkt_ok [a; b; c] /\
  is_ipv4 (parse c) && is_tcpudp (parse c) = true /\ p_device (parse c) <> 1%N /\
  fst (z_run (talloc FLOW_SIZE 1 100) [a; b; c]) = [Some (99, 2, 1000, 40)%N; None; None] /\
  fst (z_run (talloc FLOW_SIZE 1 100) [a; c]) = [Some (99, 2, 1000, 40)%N; Some (99, 2, 1000, 40)%N].
Proof.
  assert (K : forall dev t s d sp dp, (dev < 2)%N -> (t < TIME_MAX)%N -> rpkt_ok (z_frame dev t s d sp dp)).
  { intros dev t s d sp dp Hd Ht. repeat split; [exact Hd|exact Ht|]. cbn [r_data z_frame]. apply st16_ok, st16_ok, st32_ok, st32_ok. intros a. destruct (a =? 12)%N; [lia|]. destruct (a =? 23)%N; lia. }
  exists (z_frame 0 10 1 2 30 40), (z_frame 1 90 66 99 5 1000), (z_frame 0 150 8 2 30 40). split; [vm_compute; reflexivity|].
  split; [repeat constructor; apply K; reflexivity|]. split; [vm_compute; reflexivity|]. split; [vm_compute; discriminate|]. split; vm_compute; reflexivity.
Qed.
Print Assumptions C155_refusal_refuted.
(** Replies do not arrive as they were sent: the source address of the one below is 2, and 102 when it is delivered. *)
Theorem C155_source_refuted : exists a b, Forall rpkt_ok [a; b] /\ ld32 (r_data b) (IP + 12) = 2%N /\
  fst (z_run (talloc FLOW_SIZE 1 100) [a; b]) = [Some (99, 2, 1000, 40); Some (102, 1, 40, 30)]%N.
Proof.
  assert (K : forall dev t s d sp dp, (dev < 2)%N -> (t < TIME_MAX)%N -> rpkt_ok (z_frame dev t s d sp dp)).
  { intros dev t s d sp dp Hd Ht. repeat split; [exact Hd|exact Ht|]. cbn [r_data z_frame]. apply st16_ok, st16_ok, st32_ok, st32_ok. intros a. destruct (a =? 12)%N; [lia|]. destruct (a =? 23)%N; lia. }
  exists (z_frame 0 10 1 2 30 40), (z_frame 1 20 2 99 40 1000). split; [repeat constructor; apply K; reflexivity|]. split; vm_compute; reflexivity.
Qed.
Print Assumptions C155_source_refuted.
