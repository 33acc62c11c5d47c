(** Property theorems C156: where the bridge sends frames when there is room for all stations. *)

From Coq Require Import NArith List Bool Lia Arith.
From Verif Require Import IndexPool HashMap Table Firewall Packet TimedSet Bridge BridgeRoom.
Import ListNotations.
Open Scope nat_scope.

(** For all hash functions, numbers of devices, capacities, expiration times, spanning tree parameters and histories of frames in the order of time
    from no more stations than there is room for, and then a frame that is not for the spanning tree: if the destination has sent a frame within the
    expiration time, the frame goes to the device of the destination's last frame, or nowhere if it came from there. *)
Theorem C156_known : forall hash base loc n cap exp, layout_ok MAC_SIZE base loc cap -> (N.of_nat cap <= 2 ^ 63)%N ->
  forall self_bid upd h b r out b' who, br_hist hash base loc n cap exp self_bid upd h b -> frame_ok n r -> in_order (r_time r) h ->
  br_handle hash base loc n b r = (out, b') -> fst (stp_handle n (bstp b) r) = None ->
  let h' := mkEv r false out :: h in
  length who <= cap -> (forall e, In e h' -> tells e = true -> In (src_mac (ev_frame e)) who) ->
  forall e, In e h' -> tells e = true -> src_mac (ev_frame e) = dst_mac r -> (r_time r <= r_time (ev_frame e) + exp)%N ->
  exists d, seen_on (dst_mac r) h' = Some d /\ out = (if (d =? r_device r)%N then [] else [d]).
Proof.
  intros hash base loc n cap exp L HC self_bid upd h b r out b' who H Hr O E Es h' Hw Hin e He Ht Hs Hy.
  pose proof (br_destination hash base loc n cap exp L HC self_bid upd h b r out b' H Hr O E Es) as D. cbv zeta in D. fold h' in D.
  assert (St : stations who h').
  { intros e' He' T'. split; [apply Hin; assumption|]. apply (ld48_lt cap HC). destruct He' as [<-|He']; [apply Hr|].
    clear -H He'. induction H as [|h b r out b' H IH Hr E]; [destruct He'|]. destruct He' as [<-|He']; [apply Hr|auto]. }
  assert (Dl : (dst_mac r < 2 ^ 48)%N) by (apply (ld48_lt cap HC); apply Hr).
  assert (O' : in_order (r_time r) h') by (split; [apply N.le_refl|exact O]).
  rewrite (proj2 (knows_room cap exp who Hw h' (r_time r) (dst_mac r) (r_time r) St O' (N.le_refl _) Dl)) in D; [exact D|]. eauto.
Qed.
Print Assumptions C156_known.
(** And if the destination has never told where it is, the frame goes to all other devices that the spanning tree has not blocked. *)
Theorem C156_unknown : forall hash base loc n cap exp, layout_ok MAC_SIZE base loc cap -> (N.of_nat cap <= 2 ^ 63)%N ->
  forall self_bid upd h b r out b', br_hist hash base loc n cap exp self_bid upd h b -> frame_ok n r -> in_order (r_time r) h ->
  br_handle hash base loc n b r = (out, b') -> fst (stp_handle n (bstp b) r) = None ->
  (forall e, In e (mkEv r false out :: h) -> tells e = true -> src_mac (ev_frame e) <> dst_mac r) ->
  forall d, In d out <-> (d < N.of_nat n)%N /\ d <> r_device r /\ is_disabled (bstp b) d = false.
Proof.
  intros hash base loc n cap exp L HC self_bid upd h b r out b' H Hr O E Es Hn d.
  pose proof (br_destination hash base loc n cap exp L HC self_bid upd h b r out b' H Hr O E Es) as D. cbv zeta in D.
  destruct (knows cap exp (dst_mac r) (r_time r) (mkEv r false out :: h)).
  - exfalso. destruct D as (x & S & _). revert S Hn. generalize (mkEv r false out :: h). intros h' S Hn. induction h' as [|e h' IH]; [discriminate|].
    cbn [seen_on] in S. destruct (tells e) eqn:T; cbn [andb] in S; [|apply IH; [exact S|intros e' He'; apply Hn; right; exact He']].
    destruct (N.eqb_spec (src_mac (ev_frame e)) (dst_mac r)) as [Q|Q]; [exact (Hn e (or_introl eq_refl) T Q)|].
    apply IH; [exact S|intros e' He'; apply Hn; right; exact He'].
  - destruct D as [->|(e & He & T & Q & _)]; [|exfalso; exact (Hn e (or_intror He) T Q)]. rewrite net_flood_except_in. tauto.
Qed.
Print Assumptions C156_unknown.

Definition w_hash (b : bytes) : N := (fold_right (fun x acc => x + 3 * acc) 0 b mod 2 ^ 32)%N.
Definition w_eth (device time dst src : N) : rpkt :=
  mkR device time 60 (fun a => if (a <? 6)%N then (dst / 256 ^ a mod 256)%N else if (a <? 12)%N then (src / 256 ^ (a - 6) mod 256)%N else 0%N).
Fixpoint w_run (b : bridge) (rs : list rpkt) : list (list N) * bridge :=
  match rs with
  | [] => ([], b)
  | r :: rs' => let (o, b1) := br_handle w_hash 4096 64 3 b r in let (os, b2) := w_run b1 rs' in (o :: os, b2)
  end.
(** Where three devices, room for [cap] stations and an expiration time of 100 send the frames. *)
Definition w_sent (cap : nat) (rs : list rpkt) : list (list N) :=
  match br_init 3 cap 100 7 10000 with Some b => fst (w_run b rs) | None => [] end.
(** Two stations: unknown, known, known on the same device, and moved. *)
Example C156_example : w_sent 2 [w_eth 0 1 4 2; w_eth 1 2 2 4; w_eth 0 3 4 2; w_eth 1 4 4 2; w_eth 2 5 2 4; w_eth 0 6 4 2]%N = [[1; 2]; [0]; [1]; []; [1]; [2]]%N.
Proof. vm_compute. reflexivity. Qed.
(** The room is needed: frames to a station for which there is none go everywhere, though it has just sent one. *)
Theorem C156_room_needed : exists rs, w_sent 1 rs = [[1; 2]; [0]; [1; 2]]%N /\ w_sent 2 rs = [[1; 2]; [0]; [1]]%N.
Proof. exists [w_eth 0 1 4 2; w_eth 1 2 2 4; w_eth 0 3 4 2]%N. split; vm_compute; reflexivity. Qed.
Print Assumptions C156_room_needed.
