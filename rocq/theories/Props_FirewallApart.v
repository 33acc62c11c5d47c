(** Property theorems C154: flows through the firewall. *)

From Coq Require Import NArith List Bool Lia Arith.
From Verif Require Import IndexPool HashMap Table Firewall TimedSet PolicerExact FirewallApart.
Import ListNotations.
Open Scope nat_scope.

(** For all hash functions, placements of the keys, external devices, capacities, expiration times and histories of packets in the order of time,
    in which the packets from inside belong to no more flows than there is room for: what becomes of the packets of one flow, in both directions,
    is what would have become of them had no other packet come. *)
Theorem C154_apart : forall hash base loc external cap exp ps who f, layout_ok FLOW_SIZE base loc cap -> (N.of_nat cap <= 2 ^ 63)%N ->
  Forall pkt_ok ps -> ordered 0 ps -> length who <= cap ->
  (forall p, In p ps -> is_ipv4 p && is_tcpudp p = true -> p_device p <> external -> In (pkt_flow p) who) ->
  let run := fun qs => fst (fw_run hash base loc external (talloc FLOW_SIZE cap exp) qs) in
  let mine p := is_ipv4 p && is_tcpudp p && flow_eqb f (if (p_device p =? external)%N then pkt_rev_flow p else pkt_flow p) in
  fates mine ps (run ps) = run (filter mine ps).
Proof.
  intros hash base loc external cap exp ps who f L HC P O Hw Hin run mine. unfold run. rewrite !fw_correct; try assumption.
  - change mine with (of_flow external f). apply (fw_apart external exp cap who Hw f) with (T := 0%N); try assumption.
    + split; [constructor|intros x []].
    + split; [constructor|intros x []].
    + intros now _. reflexivity.
  - apply incl_Forall with (l1 := ps); [apply incl_filter|exact P].
  - apply ordered_filter. exact O.
Qed.
Print Assumptions C154_apart.
(** For all such histories, and then a TCP or UDP packet from outside: it comes in exactly when an earlier packet of its flow, no older than the
    expiration time, was forwarded. *)
Theorem C154_replies : forall hash base loc external cap exp ps p os o who, layout_ok FLOW_SIZE base loc cap -> (N.of_nat cap <= 2 ^ 63)%N ->
  Forall pkt_ok (ps ++ [p]) -> ordered 0 (ps ++ [p]) -> length who <= cap ->
  (forall q, In q ps -> is_ipv4 q && is_tcpudp q = true -> p_device q <> external -> In (pkt_flow q) who) ->
  is_ipv4 p && is_tcpudp p = true -> p_device p = external ->
  fst (fw_run hash base loc external (talloc FLOW_SIZE cap exp) (ps ++ [p])) = os ++ [o] ->
  (o <> None <-> exists q o', In (q, Some o') (combine ps os) /\ is_ipv4 q && is_tcpudp q = true /\
     pkt_rev_flow p = (if (p_device q =? external)%N then pkt_rev_flow q else pkt_flow q) /\ (p_time p <= p_time q + exp)%N).
Proof.
  intros hash base loc external cap exp ps p os o who L HC P O Hw Hin Hp Hd E. rewrite fw_correct in E by assumption.
  rewrite spec_run_last in E. apply app_inj_tail in E as [E1 E2]. unfold fw_spec in E2. cbv zeta in E2.
  rewrite Hp, Hd, N.eqb_refl in E2. cbn [negb] in E2.
  pose proof (run_tracks external exp cap who Hw ps p 0 [] [] O Hin) as RT. cbn [app] in RT. rewrite E1 in RT.
  assert (Q : o <> None <-> has (pkt_rev_flow p) (filter (alive exp (p_time p)) (snd (fw_spec_run external exp cap [] ps))) = true)
    by (destruct (has _ _); cbn [fst] in E2; subst o; split; congruence).
  rewrite Q, RT.
  - split.
    + intros ([q o'] & Hq & K1 & K2 & K3). cbn [fst snd] in *. destruct o' as [o'|]; [|congruence]. exists q, o'.
      unfold of_flow, inner_flow in K1. apply andb_true_iff in K1 as [K1 K4]. apply flow_eqb_eq in K4. auto.
    + intros (q & o' & Hq & K1 & K2 & K3). exists (q, Some o'). split; [exact Hq|]. split; [|split; [discriminate|exact K3]].
      cbn [fst]. unfold of_flow, inner_flow. rewrite K1. apply flow_eqb_eq. exact K2.
  - split; [constructor|intros x []].
  - intros g now _. cbn. split; [discriminate|]. intros (e & [] & _).
  - intros e [].
Qed.
Print Assumptions C154_replies.

Definition y_hash (b : bytes) : N := (fold_right (fun x acc => x + 3 * acc) 0 b mod 2 ^ 32)%N.
Definition y_tcp (device time src dst sport dport : N) : pkt := mkPkt device time 60 0 0 8 6 src dst sport dport.
(** Two flows from inside, one of which is kept alive by replies while the other expires, and strangers from outside. *)
Definition y_history : list pkt :=
  [y_tcp 0 10 1 2 3 4; y_tcp 0 12 7 2 3 4; y_tcp 1 80 2 1 4 3; y_tcp 1 90 9 1 4 3; y_tcp 1 150 2 1 4 3; y_tcp 1 151 2 7 4 3]%N.
Example C154_example : let who := [mkFlow 1 2 3 4 6; mkFlow 7 2 3 4 6]%N in
  layout_ok FLOW_SIZE 4096 64 2 /\ Forall pkt_ok y_history /\ ordered 0 y_history /\
  (forall p, In p y_history -> is_ipv4 p && is_tcpudp p = true -> p_device p <> 1%N -> In (pkt_flow p) who) /\
  fst (fw_run y_hash 4096 64 1 (talloc FLOW_SIZE 2 100) y_history) = [Some 1; Some 1; Some 0; None; Some 0; None]%N.
Proof.
  cbv zeta. split; [unfold layout_ok, FLOW_SIZE; lia|]. split; [repeat constructor|]. split; [repeat split; vm_compute; discriminate|].
  split; [|vm_compute; reflexivity]. intros p Hp _ Hd. repeat destruct Hp as [<-|Hp]; try (cbn in *; congruence); cbn; auto.
Qed.
(** The room is needed: with more flows than fit, a flow's replies depend on the others. *)
Theorem C154_room_needed : exists ps f, Forall pkt_ok ps /\ ordered 0 ps /\
  let run := fun qs => fst (fw_run y_hash 4096 64 1 (talloc FLOW_SIZE 1 100) qs) in
  fates (of_flow 1 f) ps (run ps) <> run (filter (of_flow 1 f) ps).
Proof.
  exists [y_tcp 0 10 1 2 3 4; y_tcp 0 12 7 2 3 4; y_tcp 1 20 2 7 4 3]%N, (mkFlow 7 2 3 4 6). split; [repeat constructor|].
  split; [repeat split; vm_compute; discriminate|]. vm_compute. discriminate.
Qed.
Print Assumptions C154_room_needed.
