(** Property theorems C115 to C118: the no-op function, the policers and the bridge against
    their published specifications, and C84's smaller specification. *)

From Coq Require Import NArith List Bool Lia Arith Ascii.
From Coq Require Import String.
From Verif Require Import IndexPool HashMap Table Firewall Policer Packet Config TimedSet Bridge NetEnv SmallNF.
Import ListNotations.
Open Scope N_scope.

(** ** C115: the policer in Rust is the policer *)

(** Wherever the Rust policer starts, the C policer starts with the same parameters and
    state, and from then on both give every packet of every history the same verdict. *)
Theorem C115_same_verdicts_partial : forall cfg n wan rate burst cap st, config_ok cfg ->
  rs_init cfg n = Some (wan, rate, burst, cap, st) ->
  pol_nf_init cfg n = Some (wan, rate, burst, cap, st) /\
  forall hash base loc rs, Forall (fun r => r_device r < n /\ data_ok (r_data r)) rs ->
  rs_run hash base loc wan rate burst st rs = pol_run hash base loc wan rate burst st (map parse rs).
Proof.
  intros cfg n wan rate burst cap st H E. rewrite rs_init_spec in E by exact H.
  destruct (pol_nf_init cfg n) as [[[[[w r] b] c] s]|] eqn:P; [|discriminate]. destruct (c =? 0); [discriminate|].
  assert (n = 2).
  { unfold pol_nf_init in P. destruct (N.eqb_spec n 2); [assumption|discriminate]. }
  subst n. split; [exact E|]. intros hash base loc rs HF.
  apply rs_same_run. exact HF.
Qed.
Print Assumptions C115_same_verdicts_partial.
(** The C policer starts where the Rust policer does, and with no flows at all. *)
Theorem C115_same_start_partial : forall cfg n wan rate burst cap st, config_ok cfg ->
  pol_nf_init cfg n = Some (wan, rate, burst, cap, st) -> cap <> 0 -> rs_init cfg n = Some (wan, rate, burst, cap, st).
Proof.
  intros cfg n wan rate burst cap st H E Hc. rewrite rs_init_spec, E by exact H.
  rewrite (proj2 (N.eqb_neq cap 0)) by exact Hc. reflexivity.
Qed.
Print Assumptions C115_same_start_partial.
Definition ex_cfg (flows : N) : config :=
  [(bytes_of "rate", 10); (bytes_of "wan device", 1); (bytes_of "burst", 100); (bytes_of "max flows", flows)].
Lemma ex_cfg_ok : forall f, f < 2 ^ 64 -> config_ok (ex_cfg f).
Proof. intros f H. repeat constructor; cbn [fst snd]; try exact H; repeat constructor; discriminate. Qed.
Definition ex_hash (b : bytes) : N := fold_right (fun x acc => x + 3 * acc) 0 b mod 2 ^ 32.
(** An IPv4 frame to 10.0.0.[host]. *)
Definition to_host (device time len host : N) : rpkt :=
  mkR device time len (fun o => if o =? 12 then 8 else if o =? 14 then 69 else if o =? 30 then 10 else if o =? 33 then host else 0).
(** The first packet of a flow, one that empties the bucket, one that does not fit, one to
    another host, one outwards. *)
Example C115_example :
  match rs_init (ex_cfg 2) 2 with
  | Some (wan, rate, burst, cap, st) => (wan, rate, burst, cap) = (1, 10, 100, 2) /\
      fst (rs_run ex_hash 4096 64 wan rate burst st [to_host 1 5 60 1; to_host 1 6 49 1; to_host 1 6 49 1; to_host 1 6 49 2; to_host 0 6 49 9])
      = [Some 0; Some 0; None; Some 0; Some 1]
  | None => False
  end.
Proof. vm_compute. auto. Qed.
(** Refuted: a configuration the C policer accepts (it then sends nothing in from the WAN)
    and the Rust policer refuses. *)
Theorem C115_no_flows_refuted : exists cfg, config_ok cfg /\ rs_init cfg 2 = None /\ pol_nf_init cfg 2 <> None.
Proof. exists (ex_cfg 0). split; [apply ex_cfg_ok; reflexivity|]. split; [reflexivity|]. vm_compute. discriminate. Qed.
Print Assumptions C115_no_flows_refuted.
(** Refuted: Rust requires references to be aligned to their type. lib.rs 102 makes one to
    the u32 dst_addr (defs.rs 34), which in a packet whose data is aligned to 4 is not. *)
Theorem C115_alignment_refuted : forall data_addr, data_addr mod 4 = 0 -> (data_addr + rs_dst_at) mod 4 <> 0.
Proof. intros a H. rewrite (proj1 rs_fields), <- N.add_mod_idemp_l, H by discriminate. discriminate. Qed.
Print Assumptions C115_alignment_refuted.

(** ** C116: the no-op function *)

(** It starts when both devices are configured, exist, and differ. *)
Theorem C116_start : forall cfg n wan lan, config_ok cfg -> 0 < n < 2 ^ 16 ->
  nop_init cfg n = Some (wan, lan) <->
  configured cfg (bytes_of "wan device") wan /\ configured cfg (bytes_of "lan device") lan /\ wan < n /\ lan < n /\ wan <> lan.
Proof.
  intros cfg n wan lan H Hn. unfold nop_init, os_config_get_device.
  replace ((n + (2 ^ 64 - 1)) mod 2 ^ 64) with (n - 1).
  2:{ replace (n + (2 ^ 64 - 1)) with (n - 1 + 1 * 2 ^ 64) by lia. rewrite N.mod_add by discriminate. symmetry. apply N.mod_small.
      change (2 ^ 16) with 65536 in Hn. change (2 ^ 64) with 18446744073709551616. lia. }
  rewrite !getter_val by (try exact H; lia).
  assert (C : forall name, cstr_ok name -> forall v, os_config_try_get cfg name = Some v <-> configured cfg name v) by (intros; apply try_get_spec; assumption).
  assert (CW := C (bytes_of "wan device") ltac:(repeat constructor; discriminate)).
  assert (CL := C (bytes_of "lan device") ltac:(repeat constructor; discriminate)). clear C.
  destruct (os_config_try_get cfg (bytes_of "wan device")) as [w|].
  2:{ split; [discriminate|]. intros (A & _). apply CW in A. discriminate. }
  destruct (N.leb_spec w (n - 1)).
  2:{ split; [discriminate|]. intros (A & _ & B & _). apply CW in A. injection A as ->. lia. }
  destruct (os_config_try_get cfg (bytes_of "lan device")) as [l|].
  2:{ split; [discriminate|]. intros (_ & A & _). apply CL in A. discriminate. }
  destruct (N.leb_spec l (n - 1)).
  2:{ split; [discriminate|]. intros (_ & A & _ & B & _). apply CL in A. injection A as ->. lia. }
  destruct (N.eqb_spec l w) as [->|E]; cbn [negb].
  - split; [discriminate|]. intros (A & B & _ & _ & D). apply CW in A. apply CL in B. congruence.
  - split.
    + intros X. assert (w = wan /\ l = lan) as [-> ->] by (split; congruence). split; [apply CW; reflexivity|]. split; [apply CL; reflexivity|]. lia.
    + intros (A & B & _). apply CW in A. apply CL in B. congruence.
Qed.
Print Assumptions C116_start.

(** nop/spec.py 1-5, on the device the packet was transmitted on; without one the
    attribute is missing. *)
Definition nop_spec_py (wan lan device : N) (transmitted : option N) : bool :=
  match transmitted with
  | None => false
  | Some d => if device =? wan then d =? lan else d =? wan
  end.
(** What it means: every packet is sent, on the device of the other side. *)
Theorem C116_spec_meaning : forall wan lan device transmitted, nop_spec_py wan lan device transmitted = true <->
  (device = wan -> transmitted = Some lan) /\ (device <> wan -> transmitted = Some wan).
Proof.
  intros wan lan device transmitted. unfold nop_spec_py. destruct transmitted as [d|].
  - destruct (N.eqb_spec device wan) as [D|D]; rewrite N.eqb_eq; split; try (intros ->; tauto); intros [X Y]; [specialize (X D)|specialize (Y D)]; congruence.
  - split; [discriminate|]. intros [X Y]. destruct (N.eq_dec device wan) as [D|D]; [discriminate (X D)|discriminate (Y D)].
Qed.
Print Assumptions C116_spec_meaning.
(** What [w] puts on the wire: one packet, to [d], of length [len], with [data] from its
    thirteenth byte on (the first twelve are the Ethernet addresses). *)
Definition one_packet (w : list (N * N * (N -> N))) (d len : N) (data : N -> N) : Prop :=
  exists data', w = [(d, len, data')] /\ forall i, 12 <= i -> data' i = data i.

Lemma single : forall (l : list N) d, NoDup l -> (forall x, In x l <-> x = d) -> l = [d].
Proof.
  intros l d ND H. destruct l as [|a l]; [destruct (proj2 (H d) eq_refl)|].
  assert (a = d) by (apply H; left; reflexivity). subst a. destruct l as [|b l]; [reflexivity|].
  assert (b = d) by (apply H; right; left; reflexivity). subst b. inversion ND as [|? ? X]. exfalso. apply X. left. reflexivity.
Qed.
Lemma tn_sent_nodup : forall ingress out, NoDup (tn_sent ingress out).
Proof.
  intros. unfold tn_sent. apply FinFun.Injective_map_NoDup.
  - intros x y E. unfold device_from_index in E. destruct (N.ltb_spec (N.of_nat x) ingress), (N.ltb_spec (N.of_nat y) ingress); lia.
  - apply NoDup_filter, seq_NoDup.
Qed.
Lemma transmit_wire : forall macs n ingress len data d f, ingress < N.of_nat n -> d < N.of_nat n -> d <> ingress -> len <> 0 ->
  (exists w, tn_handle macs n ingress len data [CTransmit d f] = Some w /\ one_packet w d len data) /\
  (exists w, dp_handle macs n ingress len data [CTransmit d f] = Some w /\ one_packet w d len data).
Proof.
  intros macs n ingress len data d f Hi Hd Hne Hl.
  assert (HF : forall i, 12 <= i -> handle_flags macs d f data i = data i).
  { intros i H. unfold handle_flags. destruct (N.testbit f 0); [|reflexivity]. rewrite (proj2 (N.ltb_ge i 12) H). reflexivity. }
  split.
  - destruct (tn_transmit_spec n ingress d len Hi Hd Hne Hl) as (out & E & Q).
    eexists. split.
    + unfold tn_handle. cbn [tn_steps tn_step tn_len tn_out tn_data]. rewrite E. reflexivity.
    + unfold tn_wire. cbn [tn_out tn_data]. rewrite (single _ d (tn_sent_nodup _ _) Q). cbn [map]. exists (handle_flags macs d f data).
      split; [|exact HF]. do 3 f_equal. unfold tn_transmit in E. destruct (Nat.ltb_spec (N.to_nat (index_from_device ingress d)) (List.length (repeat 0 (n - 1)))) as [B|B]; [|discriminate].
      injection E as <-. rewrite set_nth_nth, Nat.eqb_refl by exact B. reflexivity.
  - eexists. split.
    + unfold dp_handle. cbn [dp_steps dp_step dp_data dp_queue app]. rewrite (proj2 (N.ltb_lt d (N.of_nat n))) by exact Hd. reflexivity.
    + cbn [dp_data dp_queue map]. exists (handle_flags macs d f data). split; [reflexivity|exact HF].
Qed.

(** Every packet satisfies the specification and goes, once, out of both drivers: on the
    device of the other side, unchanged but for the Ethernet addresses. *)
Theorem C116_forwards : forall cfg n wan lan, config_ok cfg -> (0 < n)%nat -> N.of_nat n < 2 ^ 16 ->
  nop_init cfg (N.of_nat n) = Some (wan, lan) ->
  forall macs ingress len data, ingress < N.of_nat n -> len <> 0 ->
  let d := nop_handle wan lan ingress in
  nop_spec_py wan lan ingress (Some d) = true /\ d <> ingress /\
  (exists w, tn_handle macs n ingress len data [CTransmit d 1] = Some w /\ one_packet w d len data) /\
  (exists w, dp_handle macs n ingress len data [CTransmit d 1] = Some w /\ one_packet w d len data).
Proof.
  intros cfg n wan lan HC H0 Hn E macs ingress len data Hi Hl. cbv zeta.
  apply C116_start in E as (_ & _ & Hw & Hlan & Hne); [|exact HC|lia].
  assert (S : nop_spec_py wan lan ingress (Some (nop_handle wan lan ingress)) = true).
  { unfold nop_spec_py, nop_handle. destruct (ingress =? wan); apply N.eqb_refl. }
  split; [exact S|].
  assert (D : nop_handle wan lan ingress < N.of_nat n /\ nop_handle wan lan ingress <> ingress).
  { unfold nop_handle. destruct (N.eqb_spec ingress wan); lia. }
  split; [apply D|]. apply transmit_wire; tauto.
Qed.
Print Assumptions C116_forwards.
Example C116_example : let cfg := [(bytes_of "lan device", 2); (bytes_of "wan device", 1)] in
  config_ok cfg /\ nop_init cfg 3 = Some (1, 2) /\ map (nop_handle 1 2) [0; 1; 2] = [1; 2; 1] /\
  nop_init cfg 2 = None /\ nop_init [(bytes_of "lan device", 1); (bytes_of "wan device", 1)] 3 = None.
Proof.
  cbv zeta. split; [repeat constructor; cbn [fst snd]; try reflexivity; repeat constructor; discriminate|].
  vm_compute. auto.
Qed.

(** ** C117: the policers' published specification *)

(** policer/spec.py 1-10, the same as rust-policer/spec.py; the rest is comments. *)
Definition policer_spec_py (wan : N) (p : pkt) (transmitted : option N) : bool :=
  if negb (is_ipv4 p) then match transmitted with None => true | Some _ => false end
  else if negb (p_device p =? wan) then match transmitted with None => false | Some _ => true end
  else true.
(** What it means: only IPv4 goes through, and all of it that does not come from the WAN device. *)
Theorem C117_spec_meaning : forall wan p transmitted, policer_spec_py wan p transmitted = true <->
  (is_ipv4 p = false -> transmitted = None) /\ (is_ipv4 p = true -> p_device p <> wan -> exists d, transmitted = Some d).
Proof.
  intros wan p transmitted. unfold policer_spec_py. destruct (is_ipv4 p); cbn [negb].
  - destruct (N.eqb_spec (p_device p) wan) as [D|D]; cbn [negb].
    + split; [intros _; split; [discriminate|intros _ X; contradiction]|reflexivity].
    + destruct transmitted as [d|]; split; try reflexivity; try discriminate.
      * intros _. split; [discriminate|eauto].
      * intros [_ X]. destruct (X eq_refl D) as [d Y]. discriminate.
  - destruct transmitted as [d|]; split; try reflexivity; try discriminate.
    + intros [X _]. discriminate (X eq_refl).
    + intros _. split; [reflexivity|discriminate].
Qed.
Print Assumptions C117_spec_meaning.
(** It says nothing about what comes from the WAN device, nor about where packets go: policers that let
    everything through, let nothing through, or send packets back where they came from meet it. *)
Theorem C117_weak : forall wan p,
  policer_spec_py wan p (if is_ipv4 p then Some (1 - p_device p) else None) = true /\
  policer_spec_py wan p (if is_ipv4 p && negb (p_device p =? wan) then Some (1 - p_device p) else None) = true /\
  policer_spec_py wan p (if is_ipv4 p then Some (p_device p) else None) = true.
Proof. intros wan p. unfold policer_spec_py. destruct (is_ipv4 p), (p_device p =? wan); repeat split; reflexivity. Qed.
Print Assumptions C117_weak.
(** As a specification of the wire: what is sent goes out of the other device, unchanged. *)
Definition policer_wire (r : rpkt) (transmitted : option N) (w : list (N * N * (N -> N))) : Prop :=
  match transmitted with
  | None => w = []
  | Some _ => w = [(1 - r_device r, r_length r, r_data r)]
  end.
Lemma tn_none : forall n ingress len data macs, tn_handle macs n ingress len data [] = Some [].
Proof.
  intros. unfold tn_handle. cbn [tn_steps option_map]. unfold tn_wire. cbn [tn_out].
  assert (tn_sent ingress (repeat 0 (n - 1)) = []) as ->; [|reflexivity].
  destruct (tn_sent ingress (repeat 0 (n - 1))) as [|x l] eqn:E; [reflexivity|]. exfalso.
  assert (In x (tn_sent ingress (repeat 0 (n - 1)))) by (rewrite E; left; reflexivity).
  apply tn_sent_in in H as (i & _ & H & _). apply H. apply nth_repeat.
Qed.
(** The packets the function asks to transmit, with no flags (policer.c 97). *)
Definition asked (o : option N) : list cact := match o with None => [] | Some d => [CTransmit d 0] end.
Theorem C117_policer_spec : forall hash base loc cfg n wan rate burst cap st, config_ok cfg ->
  pol_nf_init cfg n = Some (wan, rate, burst, cap, st) ->
  forall rs r o st', Forall (fun r => r_device r < n /\ data_ok (r_data r)) (rs ++ [r]) -> r_length r <> 0 ->
  pol_handle hash base loc wan rate burst (snd (pol_run hash base loc wan rate burst st (map parse rs))) (parse r) = (o, st') ->
  policer_spec_py wan (parse r) o = true /\
  forall macs,
  (exists w, tn_handle macs 2 (r_device r) (r_length r) (r_data r) (asked o) = Some w /\ policer_wire r o w) /\
  (exists w, dp_handle macs 2 (r_device r) (r_length r) (r_data r) (asked o) = Some w /\ policer_wire r o w).
Proof.
  intros hash base loc cfg n wan rate burst cap st HC E rs r o st' HF Hl Q.
  assert (n = 2) by (unfold pol_nf_init in E; destruct (N.eqb_spec n 2); [assumption|discriminate]). subst n. clear E.
  apply Forall_app in HF as [_ HF]. inversion HF as [|? ? [Hd _] _]; subst.
  set (st1 := snd _) in Q. clearbody st1.
  assert (R : (o = None \/ o = Some (1 - r_device r)) /\ policer_spec_py wan (parse r) o = true).
  { unfold pol_handle in Q. unfold policer_spec_py. cbv zeta in Q. change (p_device (parse r)) with (r_device r) in *.
    destruct (negb (is_ipv4 (parse r))); [injection Q as <- _; auto|].
    destruct (r_device r =? wan); cbn [negb]; [|injection Q as <- _; auto]. split; [|reflexivity].
    repeat match type of Q with
           | context [match ?x with _ => _ end] => destruct x
           end; injection Q as <- _; auto. }
  destruct R as [R S]. split; [exact S|]. intros macs. destruct R as [-> | ->].
  - split; [exists []; split; [apply tn_none|reflexivity]|exists []; split; reflexivity].
  - assert (C : r_device r = 0 \/ r_device r = 1) by lia. cbn [asked]. split.
    + destruct (proj1 (transmit_wire macs 2 (r_device r) (r_length r) (r_data r) (1 - r_device r) 0 ltac:(lia) ltac:(lia) ltac:(lia) Hl)) as (w & A & B & C' & D).
      exists w. split; [exact A|]. cbn [policer_wire]. rewrite C'. do 2 f_equal. clear D.
      unfold tn_handle in A. cbn [tn_steps tn_step tn_len tn_out tn_data] in A.
      destruct (tn_transmit (r_device r) (1 - r_device r) (r_length r) (repeat 0 (2 - 1))) as [out|]; [|discriminate].
      cbn [option_map] in A. change (Some (tn_wire (r_device r) (mkTn (r_length r) (r_data r) out)) = Some w) in A.
      assert (A' : tn_wire (r_device r) (mkTn (r_length r) (r_data r) out) = w) by congruence.
      unfold tn_wire in A'. cbn [tn_data tn_out] in A'. rewrite C' in A'. destruct (tn_sent (r_device r) out); [discriminate|]. cbn [map] in A'. congruence.
    + eexists. split.
      * unfold dp_handle. cbn [dp_steps dp_step]. rewrite (proj2 (N.ltb_lt (1 - r_device r) (N.of_nat 2))) by lia. reflexivity.
      * reflexivity.
Qed.
Print Assumptions C117_policer_spec.
(** The Rust policer as well. *)
Theorem C117_rust_policer_spec : forall hash base loc cfg n wan rate burst cap st, config_ok cfg ->
  rs_init cfg n = Some (wan, rate, burst, cap, st) ->
  forall rs r o st', Forall (fun r => r_device r < n /\ data_ok (r_data r)) (rs ++ [r]) -> r_length r <> 0 ->
  rs_handle hash base loc wan rate burst (snd (rs_run hash base loc wan rate burst st rs)) r = (o, st') ->
  policer_spec_py wan (parse r) o = true /\
  forall macs,
  (exists w, tn_handle macs 2 (r_device r) (r_length r) (r_data r) (asked o) = Some w /\ policer_wire r o w) /\
  (exists w, dp_handle macs 2 (r_device r) (r_length r) (r_data r) (asked o) = Some w /\ policer_wire r o w).
Proof.
  intros hash base loc cfg n wan rate burst cap st HC E rs r o st' HF Hl Q.
  destruct (C115_same_verdicts_partial cfg n wan rate burst cap st HC E) as [P R].
  pose proof HF as HF'. apply Forall_app in HF' as [H1 H2]. inversion H2 as [|? ? [Hd Hk] _]; subst.
  rewrite (R hash base loc rs H1) in Q.
  assert (n = 2) by (unfold pol_nf_init in P; destruct (N.eqb_spec n 2); [assumption|discriminate]). subst n.
  rewrite rs_step in Q by assumption. eapply C117_policer_spec; eassumption.
Qed.
Print Assumptions C117_rust_policer_spec.
Example C117_example :
  policer_spec_py 1 (parse (to_host 0 5 60 1)) None = false /\ policer_spec_py 1 (parse (to_host 0 5 60 1)) (Some 1) = true /\
  policer_spec_py 1 (parse (mkR 0 5 60 (fun _ => 0))) (Some 1) = false.
Proof. vm_compute. auto. Qed.

(** ** C118: the bridge's published specification *)

(** bridge/spec.py 12-48, with the devices the frame really goes to. [old] and [new] are
    the spanning tree's update times before and after; [db] tells whether an address is in
    the filtering database after. A specification that asks for a frame that was not
    transmitted fails. *)
Definition bridge_spec_py (n : nat) (upd old new : N) (db : N -> bool) (r : rpkt) (sent : list N) : bool :=
  if (old + upd) mod 2 ^ 64 <? r_time r then new =? r_time r
  else if dst_mac r =? STP_ADDR then true
  else (match sent with [] => true | _ => negb (existsb (N.eqb (r_device r)) sent) end) &&
       (if negb (db (dst_mac r)) then match sent with [] => false | _ => Nat.eqb (List.length sent) (n - 1) end else true).
Definition in_db (hash : bytes -> N) (base loc : N) (b : bridge) (a : N) : bool :=
  match tfind hash MAC_SIZE base loc (btab b) (mac a) with Some _ => true | None => false end.
Definition meets_bridge_spec (hash : bytes -> N) (base loc : N) (n : nat) (b b' : bridge) (r : rpkt) (out : list N) : Prop :=
  bridge_spec_py n (update_time (bstp b)) (last_update (bstp b)) (last_update (bstp b')) (in_db hash base loc b') r out = true.

(** What it means: once the update time is over the spanning tree is updated at once; otherwise, but for spanning tree messages, a frame
    does not go back, and goes to as many devices as there are others if its destination is not known. *)
Theorem C118_spec_meaning : forall n upd old new db r sent, bridge_spec_py n upd old new db r sent = true <->
  ((old + upd) mod 2 ^ 64 < r_time r -> new = r_time r) /\
  (r_time r <= (old + upd) mod 2 ^ 64 -> dst_mac r <> STP_ADDR ->
     ~ In (r_device r) sent /\ (db (dst_mac r) = false -> sent <> [] /\ List.length sent = (n - 1)%nat)).
Proof.
  intros n upd old new db r sent. unfold bridge_spec_py. destruct (N.ltb_spec ((old + upd) mod 2 ^ 64) (r_time r)) as [T|T].
  - rewrite N.eqb_eq. split; [intros E; split; [auto|lia]|tauto].
  - destruct (N.eqb_spec (dst_mac r) STP_ADDR) as [A|A]; [split; [intros _; split; [lia|contradiction]|reflexivity]|]. rewrite andb_true_iff.
    assert (X : match sent with [] => true | _ => negb (existsb (N.eqb (r_device r)) sent) end = true <-> ~ In (r_device r) sent).
    { destruct sent as [|x l]; [split; [intros _ []|reflexivity]|]. rewrite negb_true_iff. split.
      - intros E I. assert (Y : existsb (N.eqb (r_device r)) (x :: l) = true) by (apply existsb_exists; exists (r_device r); split; [exact I|apply N.eqb_refl]). congruence.
      - intros NI. apply not_true_iff_false. intros Y. apply existsb_exists in Y as (y & Y & Q). apply N.eqb_eq in Q. congruence. }
    rewrite X. destruct (db (dst_mac r)); cbn [negb].
    + split; [intros [H _]; split; [lia|intros _ _; split; [exact H|discriminate]]|intros [_ H]; split; [apply H; assumption|reflexivity]].
    + assert (Y : match sent with [] => false | _ => Nat.eqb (List.length sent) (n - 1) end = true <-> sent <> [] /\ List.length sent = (n - 1)%nat).
      { destruct sent as [|x l]; [split; [discriminate|intros [Y _]; contradiction]|]. rewrite Nat.eqb_eq. split; [split; [discriminate|assumption]|tauto]. }
      rewrite Y. split; [intros [H K]; split; [lia|auto]|intros [_ H]; destruct (H T A); auto].
Qed.
Print Assumptions C118_spec_meaning.
Lemma flood_length : forall n ingress, ingress < N.of_nat n ->
  List.length (filter (fun d => negb (d =? ingress)) (map N.of_nat (seq 0 n))) = (n - 1)%nat.
Proof.
  intros n ingress H.
  assert (G : forall s m, let l := filter (fun d => negb (d =? ingress)) (map N.of_nat (seq s m)) in
    List.length l = if (N.of_nat s <=? ingress) && (ingress <? N.of_nat (s + m)) then (m - 1)%nat else m).
  { intros s m. revert s. induction m as [|m IH]; intros s; cbv zeta.
    - cbn. destruct (_ && _); reflexivity.
    - cbn [seq map filter]. specialize (IH (S s)). cbv zeta in IH. destruct (N.eqb_spec (N.of_nat s) ingress) as [E|E]; cbn [negb List.length].
      + rewrite IH. destruct (N.leb_spec (N.of_nat (S s)) ingress); [lia|]. cbn [andb].
        rewrite (proj2 (N.leb_le _ _)), (proj2 (N.ltb_lt _ _)) by lia. cbn [andb]. lia.
      + rewrite IH. replace (S s + m)%nat with (s + S m)%nat by lia.
        destruct (N.leb_spec (N.of_nat (S s)) ingress), (N.leb_spec (N.of_nat s) ingress); try lia; cbn [andb]; [|reflexivity].
        destruct (N.ltb_spec ingress (N.of_nat (s + S m))); lia. }
  rewrite (G 0%nat n). rewrite (proj2 (N.ltb_lt _ _)) by lia. rewrite (proj2 (N.leb_le _ _)) by lia. reflexivity.
Qed.

(** Missing: the devices the spanning tree blocks. *)
Theorem C118_bridge_spec_partial : forall hash base loc n b r out b', (2 <= n)%nat -> r_device r < N.of_nat n ->
  (forall d, d < N.of_nat n -> d <> r_device r -> is_disabled (bstp b) d = false) ->
  br_handle hash base loc n b r = (out, b') -> meets_bridge_spec hash base loc n b b' r out.
Proof.
  intros hash base loc n b r out b' Hn Hd Hdis E. unfold meets_bridge_spec, bridge_spec_py.
  pose proof (br_not_back hash base loc n b r) as NB. rewrite E in NB. cbn [fst] in NB.
  destruct (N.ltb_spec ((last_update (bstp b) + update_time (bstp b)) mod 2 ^ 64) (r_time r)) as [T|T].
  - unfold br_handle, stp_handle in E. rewrite (proj2 (N.ltb_lt _ _) T) in E. injection E as _ <-. apply N.eqb_refl.
  - destruct (N.eqb_spec (dst_mac r) STP_ADDR) as [A|A]; [reflexivity|].
    assert (X : match out with [] => true | _ :: _ => negb (existsb (N.eqb (r_device r)) out) end = true).
    { destruct out as [|x out]; [reflexivity|]. apply negb_true_iff. apply not_true_iff_false. intros X. apply NB.
      apply existsb_exists in X as (y & Hy & Q). apply N.eqb_eq in Q. congruence. }
    rewrite X. cbn [andb]. unfold br_handle, stp_handle in E. rewrite (proj2 (N.ltb_ge _ _) T) in E. unfold dst_mac in A.
    rewrite (proj2 (N.eqb_neq _ _) A) in E. cbn [negb] in E. set (b1 := br_learn _ _ _ _ _) in E.
    assert (b' = b1) by congruence. assert (Eo : out = br_forward hash base loc n b1 r) by congruence. subst b'. clear E.
    unfold in_db. unfold br_forward in Eo. destruct (tfind hash MAC_SIZE base loc (btab b1) (mac (dst_mac r))) as [i|]; [reflexivity|]. cbn [negb].
    assert (S1 : bstp b1 = bstp b).
    { unfold b1, br_learn. destruct (negb (N.odd (src_mac r))); [|reflexivity]. destruct (tlearn _ _ _ _ _ _ _) as [[i|] tb]; reflexivity. }
    rewrite S1 in Eo.
    assert (L : List.length out = (n - 1)%nat).
    { rewrite Eo, <- (flood_length n (r_device r) Hd). f_equal. unfold net_flood_except. apply filter_ext_in. intros d Hin.
      apply in_map_iff in Hin as (k & <- & Hk). apply in_seq in Hk. destruct (N.eqb_spec (N.of_nat k) (r_device r)) as [|Q]; [reflexivity|].
      cbn [negb andb]. rewrite Hdis by lia. reflexivity. }
    rewrite L, Nat.eqb_refl. destruct out; [cbn in L; lia|reflexivity].
Qed.
Print Assumptions C118_bridge_spec_partial.
(** Exactly when the bridge meets it. *)
Theorem C118_exactly : forall hash base loc n b r out b', r_device r < N.of_nat n -> br_handle hash base loc n b r = (out, b') ->
  (meets_bridge_spec hash base loc n b b' r out <->
   (last_update (bstp b) + update_time (bstp b)) mod 2 ^ 64 < r_time r \/ dst_mac r = STP_ADDR \/ in_db hash base loc b' (dst_mac r) = true \/
   (2 <= n)%nat /\ forall d, d < N.of_nat n -> d <> r_device r -> is_disabled (bstp b) d = false).
Proof.
  intros hash base loc n b r out b' Hd E. unfold meets_bridge_spec. rewrite C118_spec_meaning.
  pose proof (br_not_back hash base loc n b r) as NB. rewrite E in NB. cbn [fst] in NB.
  destruct (N.ltb_spec ((last_update (bstp b) + update_time (bstp b)) mod 2 ^ 64) (r_time r)) as [T|T].
  - split; [auto|]. intros _. split; [|lia]. intros _. unfold br_handle, stp_handle in E. rewrite (proj2 (N.ltb_lt _ _) T) in E. injection E as _ <-. reflexivity.
  - destruct (N.eqb_spec (dst_mac r) STP_ADDR) as [A|A]; [split; [auto|intros _; split; [lia|contradiction]]|].
    unfold br_handle, stp_handle in E. rewrite (proj2 (N.ltb_ge _ _) T) in E. pose proof A as A'. unfold dst_mac in A'.
    rewrite (proj2 (N.eqb_neq _ _) A') in E. cbn [negb] in E. clear A'. set (b1 := br_learn _ _ _ _ _) in E.
    assert (b' = b1) by congruence. assert (Eo : out = br_forward hash base loc n b1 r) by congruence. subst b'. clear E.
    unfold in_db. unfold br_forward in Eo. destruct (tfind hash MAC_SIZE base loc (btab b1) (mac (dst_mac r))) as [i|].
    { split; [auto|]. intros _. split; [lia|]. intros _ _. split; [exact NB|discriminate]. }
    assert (S1 : bstp b1 = bstp b).
    { unfold b1, br_learn. destruct (negb (N.odd (src_mac r))); [|reflexivity]. destruct (tlearn _ _ _ _ _ _ _) as [[i|] tb]; reflexivity. }
    rewrite S1 in Eo.
    set (others := filter (fun d => negb (d =? r_device r)) (map N.of_nat (seq 0 n))).
    assert (LO : List.length others = (n - 1)%nat) by (apply flood_length; exact Hd).
    assert (EO : out = filter (fun d => negb (is_disabled (bstp b) d)) others).
    { rewrite Eo. unfold net_flood_except, others. generalize (map N.of_nat (seq 0 n)). induction l as [|d l IH]; [reflexivity|]. cbn [filter].
      destruct (d =? r_device r); cbn [negb andb filter]; [exact IH|]. destruct (is_disabled (bstp b) d); cbn [negb]; rewrite IH; reflexivity. }
    assert (FL : forall (f : N -> bool) l, (List.length (filter f l) <= List.length l)%nat /\ (List.length (filter f l) = List.length l <-> forall d, In d l -> f d = true)).
    { intros f l. induction l as [|x l [I1 I2]]; cbn [filter List.length]; [split; [lia|split; [intros _ d []|reflexivity]]|].
      destruct (f x) eqn:Fx; cbn [List.length]; (split; [lia|]); split.
      - intros Q d [<-|Hin]; [exact Fx|]. apply I2; [lia|exact Hin].
      - intros Q. f_equal. apply I2. intros d Hin. apply Q. right. exact Hin.
      - lia.
      - intros Q. rewrite (Q x) in Fx; [discriminate|left; reflexivity]. }
    destruct (FL (fun d => negb (is_disabled (bstp b) d)) others) as [_ F2]. rewrite <- EO, LO in F2.
    assert (IO : forall d, In d others <-> d < N.of_nat n /\ d <> r_device r).
    { intros d. unfold others. rewrite filter_In, in_map_iff, negb_true_iff, N.eqb_neq. split.
      - intros [(k & <- & Hk) D]. apply in_seq in Hk. split; [lia|exact D].
      - intros [H D]. split; [|exact D]. exists (N.to_nat d). rewrite N2Nat.id. split; [reflexivity|]. apply in_seq. lia. }
    split.
    + intros [_ H]. destruct (H T A) as [_ K]. destruct (K eq_refl) as [NE L]. right; right; right. split.
      * destruct out; [congruence|]. cbn [List.length] in L. lia.
      * intros d D1 D2. apply negb_true_iff. apply (proj1 F2 L). apply IO. auto.
    + intros [X|[X|[X|[N2 D]]]]; [lia|contradiction|discriminate|]. split; [lia|]. intros _ _. split; [exact NB|]. intros _.
      assert (L : List.length out = (n - 1)%nat) by (apply F2; intros d Hin; apply IO in Hin as [H1 H2]; rewrite (D d H1 H2); reflexivity).
      split; [|exact L]. intros ->. cbn [List.length] in L. lia.
Qed.
Print Assumptions C118_exactly.
(** Frames of [n] bytes of addresses, and a BPDU that claims a root. *)
Definition eth_frame (device time dst src : N) (payload : N -> N) : rpkt :=
  mkR device time 60 (fun a => if a <? 6 then dst / 256 ^ a mod 256 else if a <? 12 then src / 256 ^ (a - 6) mod 256 else payload a).
Definition ex_frame : rpkt := eth_frame 0 6 4 2 (fun _ => 0).
Definition ex_worse : rpkt := eth_frame 2 5 STP_ADDR 8 (fun a => if a =? 14 then 99 else 0).
Example C118_example :
  match br_init 3 2 100 7 1000 with
  | Some b => let (out, b') := br_handle ex_hash 4096 64 3 b ex_frame in
      out = [1; 2] /\ in_db ex_hash 4096 64 b' 4 = false /\ in_db ex_hash 4096 64 b' 2 = true /\
      bridge_spec_py 3 1000 0 0 (in_db ex_hash 4096 64 b') ex_frame [0; 1] = false /\
      bridge_spec_py 3 1000 0 0 (in_db ex_hash 4096 64 b') ex_frame [1] = false
  | None => False
  end.
Proof. vm_compute. repeat split; reflexivity. Qed.
(** Refuted: once a device has heard of a worse root, frames to unknown addresses go to
    fewer devices than the specification says. *)
Theorem C118_blocked_refuted : exists b0 h r out b', br_init 3 2 100 7 1000 = Some b0 /\ frame_ok 3 r /\
  br_hist ex_hash 4096 64 3 2 100 7 1000 h (snd (br_handle ex_hash 4096 64 3 b0 ex_worse)) /\
  br_handle ex_hash 4096 64 3 (snd (br_handle ex_hash 4096 64 3 b0 ex_worse)) r = (out, b') /\
  ~ meets_bridge_spec ex_hash 4096 64 3 (snd (br_handle ex_hash 4096 64 3 b0 ex_worse)) b' r out.
Proof.
  assert (OK : forall d t dst src p, d < 3 -> t < TIME_MAX -> (forall a, p a < 256) -> frame_ok 3 (eth_frame d t dst src p)).
  { intros d t dst src p A B C. split; [exact A|]. split; [exact B|]. intros a. cbn [eth_frame r_data].
    destruct (a <? 6); [apply N.mod_lt; discriminate|]. destruct (a <? 12); [apply N.mod_lt; discriminate|apply C]. }
  destruct (br_init 3 2 100 7 1000) as [b0|] eqn:E; [|discriminate]. exists b0.
  destruct (br_handle ex_hash 4096 64 3 b0 ex_worse) as [o1 b1] eqn:E1.
  eexists. exists ex_frame. destruct (br_handle ex_hash 4096 64 3 b1 ex_frame) as [o2 b2] eqn:E2. exists o2, b2.
  split; [reflexivity|]. split; [apply OK; try reflexivity; intros a; reflexivity|]. cbn [snd]. split.
  { eapply bh_cons; [apply bh_nil; exact E| |exact E1]. apply OK; try reflexivity. intros a. destruct (a =? 14); reflexivity. }
  split; [exact E2|]. unfold meets_bridge_spec.
  assert (b0 = match br_init 3 2 100 7 1000 with Some b => b | None => b0 end) by (rewrite E; reflexivity).
  assert (X : bridge_spec_py 3 (update_time (bstp b1)) (last_update (bstp b1)) (last_update (bstp b2)) (in_db ex_hash 4096 64 b2) ex_frame o2 = false).
  { assert (b1 = snd (br_handle ex_hash 4096 64 3 b0 ex_worse)) by (rewrite E1; reflexivity).
    assert (b2 = snd (br_handle ex_hash 4096 64 3 b1 ex_frame)) by (rewrite E2; reflexivity).
    assert (o2 = fst (br_handle ex_hash 4096 64 3 b1 ex_frame)) by (rewrite E2; reflexivity).
    clear E1 E2 OK. subst o2 b2 b1. cbn in E. injection E as <-. vm_compute. reflexivity. }
  rewrite X. discriminate.
Qed.
Print Assumptions C118_blocked_refuted.

(** ** C84: the smaller specification of the firewall *)

(** firewall/spec-small.py 1-19, on the map before the packet; the firewall's data is never
    written. *)
Definition fw_small_py (external : N) (old : bytes -> bool) (p : pkt) (sent : option N) : bool :=
  if negb (is_ipv4 p) || negb (is_tcpudp p) then match sent with None => true | Some _ => false end
  else if p_device p =? external then
    match sent with
    | None => true
    | Some d => old (flow_bytes (mkFlow (ip_dst p) (ip_src p) (l4_dst p) (l4_src p) (ip_proto p))) && (d =? 1 - p_device p)
    end
  else true.
Theorem C84_small_spec : forall hash base loc external tb p o tb', fw_handle hash base loc external tb p = (o, tb') ->
  fw_small_py external (fun k => match tfind hash FLOW_SIZE base loc tb k with Some _ => true | None => false end) p o = true.
Proof.
  intros hash base loc external tb p o tb' E. unfold fw_handle in E. unfold fw_small_py. rewrite negb_andb in E.
  destruct (negb (is_ipv4 p) || negb (is_tcpudp p)); [injection E as <- _; reflexivity|].
  destruct (p_device p =? external); [|reflexivity].
  unfold has_external in E. change (mkFlow (ip_dst p) (ip_src p) (l4_dst p) (l4_src p) (ip_proto p)) with (pkt_rev_flow p).
  destruct (tfind hash FLOW_SIZE base loc tb (flow_bytes (pkt_rev_flow p))) as [i|].
  - destruct (pool_used (tpool tb) (p_time p) i); injection E as <- _; [rewrite N.eqb_refl|]; reflexivity.
  - injection E as <- _. reflexivity.
Qed.
Print Assumptions C84_small_spec.
Example C84_small_example : fw_small_py 1 (fun _ => false) (mkPkt 1 40 60 0 0 8 6 2 9 4 3) (Some 0) = false /\
  fw_small_py 1 (fun _ => true) (mkPkt 1 40 60 0 0 8 6 2 9 4 3) (Some 0) = true.
Proof. vm_compute. auto. Qed.
