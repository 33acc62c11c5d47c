(** * Properties of the TinyNF driver's loop: C101-C104 *)

From Coq Require Import NArith List Bool Lia Arith.
From Verif Require Import Bridge NetEnv TinyNF TinyNFFacts TinyNFWire.
Import ListNotations.
Open Scope N_scope.

(** For the examples: a network function counting packets, with two outputs; it sends even ones
    to output 0 and every third one, with one byte cut, to both. Buffers are numbers. *)
Definition ex_nf (x d len : N) (l : list N) : N * N * list N :=
  (x + 1, d + 1000, if x mod 3 =? 2 then [len - 1; len - 1] else if x mod 2 =? 0 then [len; 0] else l).
Example ex_sane : sane_handler ex_nf 2.
Proof.
  intros x d len l L ->. cbn [ex_nf snd]. unfold ex_nf. cbn [snd]. destruct (x mod 3 =? 2); [|destruct (x mod 2 =? 0)];
    (split; [reflexivity|]); repeat constructor; lia.
Qed.
Definition arrive (d len : N) : @action N := Recv d (N.lor (bitl 32) len).
Definition ex_acts : list (@action N) :=
  [arrive 1 60; arrive 2 70; Cpu; Cpu; Cpu; Cpu; Cpu; arrive 3 80] ++ repeat Cpu 16 ++
  [Send 0; Send 1; Send 0; WriteBack 0 2; Send 0; arrive 4 90; Send 1; Send 1; Cpu].

(** ** C101 *)

(** Under every interleaving with the cards: the handler is called on the received packets, each
    once, in order; each output has sent, once, in order and whole, what the handler asked for, up
    to some point; and everything, once the driver is between calls and the output has sent all it
    was given. *)
Theorem C101_in_order_once : forall (D X : Type) (handler : X -> D -> N -> list N -> X * D * list N) outs x0 junk acts s,
  (0 < outs)%nat -> sane_handler handler outs -> run handler outs (started outs x0 junk) acts = Some s ->
  handled s = snd (nf_run handler outs x0 (firstn (length (handled s)) (rx s))) /\
  (length (handled s) <= length (rx s))%nat /\
  forall n, (n < outs)%nat ->
    prefix (tx s n) (to_send n (handled s)) /\
    (apc s = Poll 0 -> tdh s n = tdt s n -> tx s n = to_send n (handled s)).
Proof. intros D X handler outs x0 junk acts s OP HS H. eapply Inv_order; [assumption|]. eapply Inv_reached; eassumption. Qed.
Print Assumptions C101_in_order_once.
Example C101_example : match run ex_nf 2 (started 2 0 (fun _ => 0)) ex_acts with
  | Some s => rx s = [(1, 60); (2, 70); (3, 80); (4, 90)] /\ map fst (handled s) = [1001; 1002; 1003] /\
              tx s 0 = [(1001, 60, 768); (1003, 79, 768)] /\ tx s 1 = [(1003, 79, 768)]
  | None => False end.
Proof. vm_compute. auto. Qed.

(** Whatever the cards do meanwhile, a packet received is handled, and what it causes is given to
    the outputs, within a number of driver steps that depends only on how many packets wait. *)
Theorem C101_progress : forall (D X : Type) (handler : X -> D -> N -> list N -> X * D * list N) outs x0 junk acts s acts' s',
  (0 < outs)%nat -> sane_handler handler outs -> run handler outs (started outs x0 junk) acts = Some s ->
  run handler outs s acts' = Some s' ->
  ((length (rx s) - length (handled s)) * (3 * outs + 6) + 17 * outs + 82 <= cpus acts')%nat ->
  (length (rx s) <= length (handled s'))%nat /\
  forall n, (n < outs)%nat -> tdh s' n = tdt s' n -> prefix (to_send n (firstn (length (rx s)) (handled s'))) (tx s' n).
Proof.
  intros D X handler outs x0 junk acts s acts' s' OP HS H H' C. eapply driver_progress; try eassumption. eapply Inv_reached; eassumption.
Qed.
Print Assumptions C101_progress.
Example C101_progress_example : exists s s', run ex_nf 2 (started 2 0 (fun _ => 0)) ex_acts = Some s /\
  run ex_nf 2 s (repeat Cpu 128) = Some s' /\ length (rx s) = 4%nat /\ length (handled s) = 3%nat /\
  ((length (rx s) - length (handled s)) * (3 * 2 + 6) + 17 * 2 + 82 <= cpus (repeat (@Cpu N) 128))%nat /\ length (handled s') = 4%nat.
Proof.
  destruct (run ex_nf 2 (started 2 0 (fun _ => 0)) ex_acts) as [s|] eqn:E; [|vm_compute in E; discriminate].
  assert (RC : forall k s0, run ex_nf 2 s0 (repeat Cpu k) <> None) by (induction k; [discriminate|intros s0; cbn [repeat run step]; apply IHk]).
  destruct (run ex_nf 2 s (repeat Cpu 128)) as [s'|] eqn:E'; [|exfalso; exact (RC _ _ E')].
  exists s, s'. split; [reflexivity|]. split; [exact E'|].
  assert (A : option_map (fun s => (length (rx s), length (handled s))) (run ex_nf 2 (started 2 0 (fun _ => 0)) ex_acts) = Some (4, 3)%nat) by (vm_compute; reflexivity).
  assert (B : option_map (fun s => length (handled s)) (run ex_nf 2 (started 2 0 (fun _ => 0)) (ex_acts ++ repeat Cpu 128)) = Some 4%nat) by (vm_compute; reflexivity).
  rewrite E in A. cbn [option_map] in A. assert (A1 : length (rx s) = 4%nat) by congruence. assert (A2 : length (handled s) = 3%nat) by congruence.
  rewrite A1, A2. split; [reflexivity|]. split; [reflexivity|]. split; [vm_compute; lia|].
  assert (RA : forall a b s0 s1, run ex_nf 2 s0 a = Some s1 -> run ex_nf 2 s0 (a ++ b) = run ex_nf 2 s1 b).
  { induction a as [|x a IH]; intros b s0 s1 H; cbn [app run] in *; [injection H as <-; reflexivity|]. destruct (step ex_nf 2 x s0); [|discriminate]. apply IH. exact H. }
  rewrite (RA _ _ _ _ E), E' in B. cbn [option_map] in B. congruence.
Qed.

(** With a network function's handler on top: what leaves on a device is what the function's calls
    of net_transmit, net_flood and net_flood_except for the received packets mean (C97), in order. *)
Theorem C101_on_the_wire : forall (X : Type) macs devices ingress (nf_handle : X -> (N -> N) -> N -> X * list cact) x0 junk acts s d,
  nf_safe macs devices ingress nf_handle -> (2 <= devices)%nat -> ingress < N.of_nat devices ->
  run (tn_handler macs devices ingress nf_handle) (devices - 1) (started (devices - 1) x0 junk) acts = Some s ->
  d < N.of_nat devices -> d <> ingress ->
  let sent := tx s (N.to_nat (index_from_device ingress d)) in
  let asked := on_device d (tn_packets macs devices ingress nf_handle x0 (rx s)) in
  prefix sent asked /\
  (apc s = Poll 0 -> length (handled s) = length (rx s) ->
   tdh s (N.to_nat (index_from_device ingress d)) = tdt s (N.to_nat (index_from_device ingress d)) -> sent = asked).
Proof. intros X macs devices ingress nf_handle x0 junk acts s d S D2 I H Dd Di. eapply sent_on_device; eassumption. Qed.
Print Assumptions C101_on_the_wire.
(** Three devices; device 1's agent; the function answers on device 0 or 2 by turns, and floods
    every third packet, shortened. *)
Definition wire_nf (x : N) (data : N -> N) (len : N) : N * list cact :=
  (x + 1, if x mod 3 =? 2 then [CSetLen (len / 2); CFlood 0] else [CData (fun i => data i + x); CTransmit (2 * (x mod 2)) 0]).
Example wire_safe : nf_safe (fun _ _ => 0) 3 1 wire_nf.
Proof.
  intros x data len L. unfold wire_nf. cbn [snd]. destruct (x mod 3 =? 2).
  - split; [|discriminate]. repeat constructor. cbn [len_ok]. apply N.div_lt_upper_bound; [discriminate|]. lia.
  - split; [repeat constructor|]. pose proof (N.mod_lt x 2 ltac:(discriminate)) as M. generalize dependent (x mod 2). intros r M. assert (E : r = 0 \/ r = 1) by lia.
    destruct E as [-> | ->]; discriminate.
Qed.
Definition wire_acts : list (@action (N -> N)) :=
  [Recv (fun _ => 1) (N.lor (bitl 32) 60); Recv (fun _ => 2) (N.lor (bitl 32) 70); Recv (fun _ => 3) (N.lor (bitl 32) 80)] ++
  repeat Cpu 24 ++ [Send 0; Send 0; Send 0; Send 1; Send 1; Send 1].
Example C101_wire_example : exists s, run (tn_handler (fun _ _ => 0) 3 1 wire_nf) 2 (started 2 0 (fun _ _ => 0)) wire_acts = Some s /\
  apc s = Poll 0 /\ length (handled s) = length (rx s) /\ length (rx s) = 3%nat /\
  tdh s (N.to_nat (index_from_device 1 0)) = tdt s (N.to_nat (index_from_device 1 0)) /\
  map (fun f => (fst (fst f) 0, snd (fst f))) (tx s 0%nat) = [(1, 60); (3, 40)] /\
  map (fun f => (fst (fst f) 0, snd (fst f))) (tx s 1%nat) = [(3, 70); (3, 40)].
Proof.
  assert (A : option_map (fun s => (apc s, length (handled s), length (rx s), tdh s 0%nat, tdt s 0%nat,
      map (fun f => (fst (fst f) 0, snd (fst f))) (tx s 0%nat), map (fun f => (fst (fst f) 0, snd (fst f))) (tx s 1%nat)))
    (run (tn_handler (fun _ _ => 0) 3 1 wire_nf) 2 (started 2 0 (fun _ _ => 0)) wire_acts)
    = Some (Poll 0, 3%nat, 3%nat, 3, 3, [(1, 60); (3, 40)], [(3, 70); (3, 40)])) by (vm_compute; reflexivity).
  destruct (run (tn_handler (fun _ _ => 0) 3 1 wire_nf) 2 (started 2 0 (fun _ _ => 0)) wire_acts) as [s|]; [|discriminate].
  exists s. cbn [option_map] in A. injection A as A1 A2 A3 A4 A5 A6 A7. change (N.to_nat (index_from_device 1 0)) with 0%nat.
  do 4 (split; [congruence|]). split; [congruence|]. split; assumption.
Qed.

(** ** C102 *)

(** The card never receives into a buffer still to be sent, being processed, or not yet processed. *)
Theorem C102_no_overwrite : forall (D X : Type) (handler : X -> D -> N -> list N -> X * D * list N) outs x0 junk acts s d meta s',
  (0 < outs)%nat -> sane_handler handler outs -> run handler outs (started outs x0 junk) acts = Some s ->
  step handler outs (Recv d meta) s = Some s' -> ~ in_use outs s (rdh s).
Proof.
  intros D X handler outs x0 junk acts s d meta s' OP HS H R. eapply Inv_no_overwrite; [assumption| |].
  - eapply Inv_reached; eassumption.
  - cbn [step] in R. destruct (N.eqb_spec (rdh s) (rdt s)); [discriminate|assumption].
Qed.
Print Assumptions C102_no_overwrite.
(** In the example, output 1 has not sent the second and third buffers after the driver's steps. *)
Example C102_example : match run ex_nf 2 (started 2 0 (fun _ => 0)) (firstn 26 ex_acts) with
  | Some s => in_use 2 s 1 /\ in_use 2 s 2 /\ rdh s = 3 /\ step ex_nf 2 (arrive 5 60) s <> None
  | None => False end.
Proof.
  assert (A : option_map (fun s => (dist (tdh s 1%nat) 1, dist (tdh s 1%nat) 2, dist (tdh s 1%nat) (delim s), rdh s, rdt s)) (run ex_nf 2 (started 2 0 (fun _ => 0)) (firstn 26 ex_acts))
    = Some (0, 1, 2, 3, 255)) by (vm_compute; reflexivity).
  destruct (run ex_nf 2 (started 2 0 (fun _ => 0)) (firstn 26 ex_acts)) as [s|]; [|discriminate]. cbn [option_map] in A.
  assert (A1 : dist (tdh s 1%nat) 1 = 0) by congruence. assert (A2 : dist (tdh s 1%nat) 2 = 1) by congruence.
  assert (A3 : dist (tdh s 1%nat) (delim s) = 2) by congruence. assert (A4 : rdh s = 3) by congruence. assert (A5 : rdt s = 255) by congruence.
  split; [left; exists 1%nat; rewrite A1, A3; lia|]. split; [left; exists 1%nat; rewrite A2, A3; lia|]. split; [exact A4|].
  cbn [step arrive]. rewrite A4, A5. discriminate.
Qed.

(** ** C103 *)

Definition forward (x : unit) (d len : N) (l : list N) : unit * N * list N := (x, d, [len]).
Example forward_sane : sane_handler forward 1.
Proof. intros x d len l L ->. cbn [forward snd]. split; [reflexivity|]. repeat constructor. exact L. Qed.

(** Packets arrive in bursts while the output, for a moment, sends nothing; 255 packets later it
    sends everything and reports it, as the report-status bits ask. *)
Definition stall_acts : list (@action N) :=
  concat (repeat (repeat (arrive 7 64) 8 ++ repeat Cpu 36) 31) ++ repeat (arrive 7 64) 7 ++ repeat Cpu 36 ++
  repeat (Send 0) 255 ++ [WriteBack 0 192].

(** The driver then never receives again, though all it received was handled, sent and reported. *)
Theorem C103_stalls_refuted : exists s, run forward 1 (started 1 tt (fun _ => 0)) stall_acts = Some s /\
  length (handled s) = length (rx s) /\ length (tx s 0%nat) = length (rx s) /\ drained s 0 /\
  forall acts s', run forward 1 s acts = Some s' -> rx s' = rx s.
Proof.
  assert (A : option_map (fun s => (apc s, N.land (ring s 0%nat (delim s)) (bitl 32), (rdh s, rdt s), (delim s, tdh s 0%nat, tdt s 0%nat), (length (handled s), length (tx s 0%nat), length (rx s))))
    (run forward 1 (started 1 tt (fun _ => 0)) stall_acts) = Some (Poll 0, 0, (255, 255), (255, 255, 255), (255, 255, 255)%nat)) by (vm_compute; reflexivity).
  destruct (run forward 1 (started 1 tt (fun _ => 0)) stall_acts) as [s|]; [|discriminate]. cbn [option_map] in A.
  remember 255%nat as k eqn:EK. clear EK. injection A as A1 A2 A3 A4 A5 A6 A7 A8 A9 A10. exists s.
  split; [reflexivity|]. split; [congruence|]. split; [congruence|]. split; [split; congruence|].
  intros acts s' H. eapply stalled_run; [|exact H]. split; [split|]; congruence.
Qed.
Print Assumptions C103_stalls_refuted.

(** If the driver, whenever it looks, finds every output fewer than 192 packets behind, then
    whenever it waits for a packet the card can receive one. *)
Theorem C103_keeps_receiving_partial : forall (D X : Type) (handler : X -> D -> N -> list N -> X * D * list N) outs x0 junk acts s,
  (0 < outs)%nat -> sane_handler handler outs -> run_with handler outs (within outs 192) (started outs x0 junk) acts s ->
  waiting s -> rdh s <> rdt s.
Proof. intros D X handler outs x0 junk acts s OP HS H W. eapply keeps_receiving; eassumption. Qed.
Print Assumptions C103_keeps_receiving_partial.
Definition busy_acts : list (@action N) :=
  concat (repeat (repeat (arrive 7 64) 8 ++ repeat Cpu 36 ++ repeat (Send 0) 8 ++ [WriteBack 0 8]) 40).
Example C103_example : exists s, run_with forward 1 (within 1 192) (started 1 tt (fun _ => 0)) busy_acts s /\ waiting s /\ N.of_nat (length (rx s)) = 320.
Proof.
  assert (A : option_map (fun s => (apc s, N.land (ring s 0%nat (delim s)) (bitl 32), N.of_nat (length (rx s)))) (run_b forward 1 192 (started 1 tt (fun _ => 0)) busy_acts)
    = Some (Poll 0, 0, 320)) by (vm_compute; reflexivity).
  destruct (run_b forward 1 192 (started 1 tt (fun _ => 0)) busy_acts) as [s|] eqn:E; [|discriminate]. cbn [option_map] in A.
  exists s. split; [apply run_b_with; exact E|]. injection A as A1 A2 A3. split; [split; assumption|assumption].
Qed.

(** ** C104 *)

(** Two agents never use the same transmit queue of a device. *)
Theorem C104_own_queue : forall devices i j n, i < devices -> j < devices -> n < devices -> i <> n -> j <> n ->
  agent_queue devices i n = agent_queue devices j n -> i = j.
Proof.
  intros devices i j n I J N Ni Nj. unfold agent_queue, true_index. intros E.
  assert (B : forall x, x < devices -> x <> n -> (if x <? n then n - 1 else n) < devices - 1) by (intros x X0 X; destruct (N.ltb_spec x n); lia).
  pose proof (B i I Ni) as Bi. pose proof (B j J Nj) as Bj. set (a := if i <? n then n - 1 else n) in *. set (b := if j <? n then n - 1 else n) in *. clearbody a b.
  assert (Q : forall x y, y < devices - 1 -> (x * (devices - 1) + y) / (devices - 1) = x).
  { intros x y Y. rewrite N.div_add_l by lia. rewrite (N.div_small y) by lia. lia. }
  rewrite <- (Q i a Bi), <- (Q j b Bj), E. reflexivity.
Qed.
Print Assumptions C104_own_queue.
Example C104_example : agent_queue 3 0 2 = 1 /\ agent_queue 3 1 2 = 3 /\ agent_queue 3 2 0 = 4.
Proof. vm_compute. auto. Qed.

(** The driver accepts every pair of devices exactly if there are at most eleven devices. *)
Theorem C104_devices : forall devices, 2 <= devices ->
  ((forall i n, i < devices -> n < devices -> i <> n -> queue_ok (agent_queue devices i n) = true) <-> devices <= 11).
Proof.
  intros devices D2. unfold queue_ok, agent_queue, true_index. split.
  - intros H. destruct (N.le_gt_cases devices 11) as [C|C]; [exact C|exfalso].
    specialize (H (devices - 1) (devices - 2) ltac:(lia) ltac:(lia) ltac:(lia)). destruct (N.ltb_spec (devices - 1) (devices - 2)); [lia|].
    apply N.ltb_lt in H. nia.
  - intros L i n I N NE. apply N.ltb_lt. assert ((if i <? n then n - 1 else n) <= devices - 2) by (destruct (N.ltb_spec i n); lia). nia.
Qed.
Print Assumptions C104_devices.
