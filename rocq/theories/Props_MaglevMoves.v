(** Property theorems C158 and C159: when the load balancer moves a flow to another backend, and what its decisions depend on. *)

From Coq Require Import NArith ZArith Znumtheory List Bool Lia Arith.
From Verif Require Import Solver IndexPool HashMap Cht Table Firewall Packet Maglev MaglevMoves.
Import ListNotations.
Open Scope nat_scope.

(** For all hash functions, numbers of devices, prime table heights, capacities and expiration times, any two histories, of the same load balancer or
    of two that are configured alike, and a packet of the same flow after each: if the packets go to different backends, then the first one's is
    not alive at the second packet, or the second one's is not alive at the first packet.
    Partial: provided that backend 0 is not alive both times; otherwise it is false, see below. *)
Theorem C158_moves_partial : forall hash base loc n height cap fexp bexp, prime (Z.of_nat height) ->
  forall h1 b1 p1 d1 h2 b2 p2 d2,
  mg_hist hash base loc n height cap fexp bexp h1 b1 -> for_backends n p1 = true -> fst (mg_handle hash base loc n height b1 p1) = Some d1 ->
  mg_hist hash base loc n height cap fexp bexp h2 b2 -> for_backends n p2 = true -> fst (mg_handle hash base loc n height b2 p2) = Some d2 ->
  pkt_flow p2 = pkt_flow p1 ->
  ~ (backend_alive n bexp 0 (p_time p1) h1 /\ backend_alive n bexp 0 (p_time p2) h2) ->
  d1 <> d2 -> ~ (backend_alive n bexp d1 (p_time p2) h2 /\ backend_alive n bexp d2 (p_time p1) h1).
Proof.
  intros hash base loc n height cap fexp bexp P h1 b1 p1 d1 h2 b2 p2 d2 H1 F1 E1 H2 F2 E2 Ef Z D [A1 A2]. apply D.
  exact (mg_moves hash base loc n height cap fexp bexp P h1 b1 p1 d1 h2 b2 p2 d2 H1 F1 E1 H2 F2 E2 Ef Z A1 A2).
Qed.
Print Assumptions C158_moves_partial.
(** So if a backend [x] comes up and the others stay as they are, each flow stays where it was or goes to [x], and if [x] goes down only the
    flows that were on [x] move. *)
Theorem C158_one_partial : forall hash base loc n height cap fexp bexp, prime (Z.of_nat height) ->
  forall h1 b1 p1 d1 h2 b2 p2 d2 x,
  mg_hist hash base loc n height cap fexp bexp h1 b1 -> for_backends n p1 = true -> fst (mg_handle hash base loc n height b1 p1) = Some d1 ->
  mg_hist hash base loc n height cap fexp bexp h2 b2 -> for_backends n p2 = true -> fst (mg_handle hash base loc n height b2 p2) = Some d2 ->
  pkt_flow p2 = pkt_flow p1 ->
  ~ (backend_alive n bexp 0 (p_time p1) h1 /\ backend_alive n bexp 0 (p_time p2) h2) ->
  (forall d, d <> x -> backend_alive n bexp d (p_time p1) h1 <-> backend_alive n bexp d (p_time p2) h2) ->
  (~ backend_alive n bexp x (p_time p1) h1 -> d2 = d1 \/ d2 = x) /\ (~ backend_alive n bexp x (p_time p2) h2 -> d1 <> x -> d2 = d1).
Proof.
  intros hash base loc n height cap fexp bexp P h1 b1 p1 d1 h2 b2 p2 d2 x H1 F1 E1 H2 F2 E2 Ef Z S.
  pose proof (mg_live hash base loc n height cap fexp bexp P h1 b1 p1 H1 F1) as A1. rewrite E1 in A1.
  pose proof (mg_live hash base loc n height cap fexp bexp P h2 b2 p2 H2 F2) as A2. rewrite E2 in A2.
  pose proof (mg_moves hash base loc n height cap fexp bexp P h1 b1 p1 d1 h2 b2 p2 d2 H1 F1 E1 H2 F2 E2 Ef Z) as M. split; intros Hx.
  - destruct (N.eq_dec d2 x) as [Q|Q]; [right; exact Q|left]. symmetry. apply M; [|apply S; assumption].
    apply S; [intros ->; contradiction|exact A1].
  - intros Q. symmetry. apply M; [apply S; assumption|]. apply S; [intros ->; contradiction|exact A2].
Qed.
Print Assumptions C158_one_partial.

Definition v_hash (b : bytes) : N := (fold_right (fun x acc => x + 3 * acc) 0 b mod 2 ^ 32)%N.
Definition v_tcp (device time src : N) : pkt := mkPkt device time 60 0 0 8 6 src 8 7 6.
Fixpoint v_run (n : nat) (b : balancer) (ps : list pkt) : list (option N) :=
  match ps with [] => [] | p :: ps' => let (o, b') := mg_handle v_hash 4096 64 n 5 b p in o :: v_run n b' ps' end.
(** What four devices, a table of height 5, room for two flows and expiration times of 100 and 50 do with the packets. *)
Definition v_sent (ps : list pkt) : list (option N) := match mg_init 4 5 2 100 50 with Some b => v_run 4 b ps | None => [] end.
(** Backend 1 is alive and gets both flows; backend 2 comes up and one flow moves to it; backend 1 goes down and the other moves too. *)
Example C158_example : v_sent [v_tcp 1 0 0; v_tcp 3 1 9; v_tcp 3 2 10; v_tcp 2 40 0; v_tcp 3 41 9; v_tcp 3 42 10; v_tcp 3 60 9; v_tcp 3 61 10]%N
  = [None; Some 1; Some 1; None; Some 1; Some 2; Some 2; Some 2]%N /\ prime (Z.of_nat 5).
Proof.
  split; [vm_compute; reflexivity|]. apply prime_intro; [lia|]. intros k Hk. assert (Q : (k = 1 \/ k = 2 \/ k = 3 \/ k = 4)%Z) by lia.
  apply Zgcd_1_rel_prime. destruct Q as [->|[->|[->| ->]]]; reflexivity.
Qed.
(** With backend 0 alive all the time, a flow moves from one to the other of two backends that were never down. *)
Theorem C158_zero_refuted : exists ps src, v_sent ps = [None; None; Some 1; Some 0]%N /\
  ps = [v_tcp 0 0 0; v_tcp 1 0 0; v_tcp 3 1 src; v_tcp 3 2 src]%N.
Proof. exists [v_tcp 0 0 0; v_tcp 1 0 0; v_tcp 3 1 11; v_tcp 3 2 11]%N, 11%N. split; vm_compute; reflexivity. Qed.
Print Assumptions C158_zero_refuted.

(** For all hash functions, numbers of devices, prime table heights, capacities and expiration times, and any two histories with the same packets from
    backends, whatever else came in: a packet of the same flow at the same time goes to the same backend, or is dropped in both.
    Partial: provided that backend 0 is not alive; otherwise it is false, see below. *)
Theorem C159_beats_partial : forall hash base loc n height cap fexp bexp, prime (Z.of_nat height) ->
  forall h1 b1 p1 h2 b2 p2, mg_hist hash base loc n height cap fexp bexp h1 b1 -> for_backends n p1 = true ->
  mg_hist hash base loc n height cap fexp bexp h2 b2 -> for_backends n p2 = true ->
  pkt_flow p2 = pkt_flow p1 -> p_time p2 = p_time p1 ->
  filter (fun p => (p_device p <? N.of_nat (n - 1))%N) (map fst h1) = filter (fun p => (p_device p <? N.of_nat (n - 1))%N) (map fst h2) ->
  ~ backend_alive n bexp 0 (p_time p1) h1 ->
  fst (mg_handle hash base loc n height b1 p1) = fst (mg_handle hash base loc n height b2 p2).
Proof. exact mg_beats. Qed.
Print Assumptions C159_beats_partial.
(** The flow of C158's example that moved: with another flow's packets, and its own, or without them. *)
Example C159_example : v_sent [v_tcp 1 0 0; v_tcp 3 1 9; v_tcp 3 2 10; v_tcp 2 40 0; v_tcp 3 41 9; v_tcp 3 42 10]%N = [None; Some 1; Some 1; None; Some 1; Some 2]%N /\
  v_sent [v_tcp 1 0 0; v_tcp 2 40 0; v_tcp 3 42 10]%N = [None; None; Some 2]%N.
Proof. split; vm_compute; reflexivity. Qed.
(** With backend 0 alive, where a flow's second packet goes depends on whether other flows have filled the table before its first. *)
Theorem C159_others_refuted : exists before flow, (forall p, In p before -> p_device p = 3%N /\ ip_src p <> flow) /\
  let beats := [v_tcp 0 0 0; v_tcp 1 0 0]%N in let mine := [v_tcp 3 2 flow; v_tcp 3 3 flow]%N in
  skipn 2 (v_sent (beats ++ mine)) = [Some 1; Some 0]%N /\ skipn 4 (v_sent (beats ++ before ++ mine)) = [Some 1; Some 1]%N.
Proof.
  exists [v_tcp 3 1 12; v_tcp 3 1 13]%N, 11%N. split; [intros p [<-|[<-|[]]]; split; [reflexivity|discriminate|reflexivity|discriminate]|].
  cbv zeta. split; vm_compute; reflexivity.
Qed.
Print Assumptions C159_others_refuted.
