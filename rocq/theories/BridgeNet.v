(** * A network of bridges

    Bridges (nf/bridge, over either driver) connected by cables; hosts at the ports without one.  Frames travel in any order and may be lost. *)

From Coq Require Import NArith List Bool Lia Arith.
From Verif Require Import IndexPool HashMap Table Firewall Packet TimedSet Bridge Ixgbe.
From Verif Require NetEnv.
Import ListNotations.
Open Scope N_scope.

(** ** What a bridge puts on the wire *)

(** struct bpdu_packet after the Ethernet header, written by spanning_tree.h 48-50 and 89-91; little-endian. *)
Definition put_bpdu (bp : bpdu) (d : data) : data :=
  let '(rt, cost, sender) := bp in
  fun i =>
    if (14 <=? i) && (i <? 22) then N.shiftr rt (8 * (i - 14)) mod 256
    else if (22 <=? i) && (i <? 26) then N.shiftr cost (8 * (i - 22)) mod 256
    else if (26 <=? i) && (i <? 34) then N.shiftr sender (8 * (i - 26)) mod 256
    else d i.
(** enum net_transmit_flags, env/include/net/tx.h. *)
Definition UPDATE_ETHER_ADDRS : N := 1.
(** bridge.c 38-74 and spanning_tree.h 43-99: the writes to the packet and the calls to the driver. *)
Definition br_acts (hash : bytes -> N) (base loc : N) (n : nat) (b : bridge) (r : rpkt) : list NetEnv.cact :=
  match stp_handle n (bstp b) r with
  | (Some (_, Some bp), _) =>
      NetEnv.CData (put_bpdu bp (r_data r)) ::
      (if due (bstp b) r then [NetEnv.CSetLen 34] else []) ++ [NetEnv.CFlood UPDATE_ETHER_ADDRS]
  | (Some (_, None), _) => []
  | (None, s') =>
      let b1 := br_learn hash base loc (mkBr (btab b) (bdevs b) s') r in
      match tfind hash MAC_SIZE base loc (btab b1) (mac (dst_mac r)) with
      | Some index => let d := nth index (bdevs b1) 0 in if negb (d =? r_device r) then [NetEnv.CTransmit d 0] else []
      | None => [NetEnv.CExcept (is_disabled (bstp b1)) 0]
      end
  end.

Inductive driver := TinyNF | Dpdk.
Definition wire (drv : driver) (macs : N -> N -> N) (n : nat) (ingress len : N) (d : data) (l : list NetEnv.cact) : option (list (N * N * data)) :=
  match drv with TinyNF => NetEnv.tn_handle macs n ingress len d l | Dpdk => NetEnv.dp_handle macs n ingress len d l end.
(** dpdk/main.c 65-66. *)
Definition dpdk_endpoint (d : N) : list N := [d mod 256; 0; 0; 0; 0; 0].
(** The destination addresses that a driver writes (tinynf/main.c 87-88, dpdk/main.c 65-66). *)
Definition driver_macs (drv : driver) (macs : N -> N -> N) : Prop :=
  forall d i, macs d i < 256 /\
  (i < 6 -> macs d i = nth (N.to_nat i) (match drv with TinyNF => endpoint_mac d | Dpdk => dpdk_endpoint d end) 0).

(** ** The network *)

(** A bridge as built and configured: its hash function, where its table and the looked-up addresses are, its ports, capacity, expiration
    time, identity, update time, driver, and the addresses the driver writes. *)
Record bconf := mkConf {
  c_hash : bytes -> N; c_base : N; c_loc : N; c_n : nat; c_cap : nat; c_exp : N; c_self : N; c_upd : N;
  c_drv : driver; c_macs : N -> N -> N }.
Record frame := mkF { f_br : nat; f_port : N; f_len : N; f_data : data }.
(** Frames in flight, with the bridge and port they will arrive at; frames sent, with the bridge and port they left from (latest first); the
    time each bridge has read last. *)
Record net := mkNet { brs : nat -> bridge; now : nat -> N; flight : list frame; sent : list frame }.

Section Net.
Variable conf : nat -> bconf.
(** Where the cable in a port leads. *)
Variable peer : nat -> N -> option (nat * N).

Definition start (st : net) : Prop :=
  flight st = [] /\ sent st = [] /\ (forall b, now st b = 0) /\
  forall b, br_init (c_n (conf b)) (c_cap (conf b)) (c_exp (conf b)) (c_self (conf b)) (c_upd (conf b)) = Some (brs st b).

Definition arrivals (b : nat) (out : list (N * N * data)) : list frame :=
  flat_map (fun x => match peer b (fst (fst x)) with Some (b', p') => [mkF b' p' (snd (fst x)) (snd x)] | None => [] end) out.
Definition departures (b : nat) (out : list (N * N * data)) : list frame := map (fun x => mkF b (fst (fst x)) (snd (fst x)) (snd x)) out.

(** tinynf/main.c 52-60: the packet as it is given to the bridge; what the bridge sends and what it becomes. *)
Definition received (f : frame) (t : N) : rpkt := mkR (f_port f) t (f_len f) (f_data f).
Definition sends (st : net) (f : frame) (t : N) : option (list (N * N * data)) :=
  let c := conf (f_br f) in
  wire (c_drv c) (c_macs c) (c_n c) (f_port f) (f_len f) (f_data f) (br_acts (c_hash c) (c_base c) (c_loc c) (c_n c) (brs st (f_br f)) (received f t)).
Definition becomes (st : net) (f : frame) (t : N) : bridge :=
  let c := conf (f_br f) in snd (br_handle (c_hash c) (c_base c) (c_loc c) (c_n c) (brs st (f_br f)) (received f t)).
(** Hosts send what they like; frames arrive in any order, at times that do not go back at any bridge; frames can be lost.  (A write outside the
    driver's arrays, [sends] = [None], is the end of the run: C86.) *)
Inductive event := Host (f : frame) | Arrive (f : frame) (t : N) | Lose (f : frame).
Inductive happens : net -> event -> net -> Prop :=
| h_host : forall st f, f_port f < N.of_nat (c_n (conf (f_br f))) -> peer (f_br f) (f_port f) = None -> data_ok (f_data f) ->
    happens st (Host f) (mkNet (brs st) (now st) (f :: flight st) (sent st))
| h_arrive : forall st l1 f l2 t out, flight st = l1 ++ f :: l2 -> now st (f_br f) <= t -> t < TIME_MAX -> sends st f t = Some out ->
    happens st (Arrive f t) (mkNet
      (fun b => if Nat.eqb b (f_br f) then becomes st f t else brs st b) (fun b => if Nat.eqb b (f_br f) then t else now st b)
      (l1 ++ l2 ++ arrivals (f_br f) out) (departures (f_br f) out ++ sent st))
| h_lose : forall st l1 f l2, flight st = l1 ++ f :: l2 -> happens st (Lose f) (mkNet (brs st) (now st) (l1 ++ l2) (sent st)).
Inductive run : net -> list event -> net -> Prop :=
| r_nil : forall st, run st [] st
| r_cons : forall st e st1 es st2, happens st e st1 -> run st1 es st2 -> run st (e :: es) st2.
End Net.

(** ** No frame is ever addressed to the spanning tree *)

Definition to_stp (d : data) : Prop := ld48 d 0 = STP_ADDR.
Lemma endpoint_not_stp : forall drv macs, driver_macs drv macs -> forall dev d, (forall i, i < 12 -> d i = macs dev i) -> ~ to_stp d.
Proof.
  intros drv macs M dev d E. unfold to_stp, ld48, ld32, ld16, STP_ADDR.
  assert (Q : forall i, i < 6 -> d i = nth (N.to_nat i) (match drv with TinyNF => endpoint_mac dev | Dpdk => dpdk_endpoint dev end) 0).
  { intros i I. rewrite E by lia. apply M. exact I. }
  rewrite !Q by lia. change (N.to_nat (0 + 1)) with 1%nat. change (N.to_nat (0 + 2)) with 2%nat. change (N.to_nat (0 + 2 + 1)) with 3%nat.
  change (N.to_nat (0 + 4)) with 4%nat. change (N.to_nat (0 + 4 + 1)) with 5%nat. change (N.to_nat 0) with 0%nat.
  destruct drv; cbn [endpoint_mac dpdk_endpoint nth]; [|pose proof (N.mod_upper_bound dev 256 ltac:(discriminate)); lia].
  assert (forall k, N.shiftr dev k mod 256 < 256) by (intros k; apply N.mod_upper_bound; discriminate). lia.
Qed.
Lemma flags_last : forall macs l d x, forall i, i < 12 -> fold_left (fun x d => NetEnv.handle_flags macs d UPDATE_ETHER_ADDRS x) (l ++ [d]) x i = macs d i.
Proof. intros macs l d x i I. rewrite fold_left_app. cbn [fold_left]. unfold NetEnv.handle_flags. cbn. rewrite (proj2 (N.ltb_lt i 12) I). reflexivity. Qed.
Lemma flags_not_stp : forall drv macs, driver_macs drv macs -> forall l x, l <> [] -> ~ to_stp (fold_left (fun x d => NetEnv.handle_flags macs d UPDATE_ETHER_ADDRS x) l x).
Proof.
  intros drv macs M l x NE. destruct (exists_last NE) as (l' & d & ->). eapply endpoint_not_stp; [exact M|]. intros i I. apply flags_last. exact I.
Qed.

(** What the driver does with each of the bridge's calls: the devices, lengths and data. *)
Lemma wire_flood : forall drv macs, driver_macs drv macs -> forall n ingress len d d' (setlen : bool) out,
  wire drv macs n ingress len d (NetEnv.CData d' :: (if setlen then [NetEnv.CSetLen 34] else []) ++ [NetEnv.CFlood UPDATE_ETHER_ADDRS]) = Some out ->
  forall x, In x out -> ~ to_stp (snd x).
Proof.
  intros drv macs M n ingress len d d' setlen out W x X. destruct drv; cbn [wire] in W.
  - unfold NetEnv.tn_handle in W.
    assert (Q : exists l, NetEnv.tn_steps macs n ingress (NetEnv.mkTn len d (repeat 0 (n - 1))) (NetEnv.CData d' :: (if setlen then [NetEnv.CSetLen 34] else []) ++ [NetEnv.CFlood UPDATE_ETHER_ADDRS])
      = Some (NetEnv.mkTn l (fold_left (fun x d => NetEnv.handle_flags macs d UPDATE_ETHER_ADDRS x) (NetEnv.tn_all n ingress) d') (tn_flood n l))).
    { destruct setlen; cbn; eauto. }
    destruct Q as [l Q]. rewrite Q in W. cbn [option_map] in W. injection W as <-. unfold NetEnv.tn_wire in X. cbn [NetEnv.tn_out NetEnv.tn_data] in X.
    apply in_map_iff in X as (e & <- & X). cbn [snd]. apply (flags_not_stp TinyNF); [exact M|]. intros N0. apply tn_sent_in in X as (i & I & _).
    unfold tn_flood in I. rewrite repeat_length in I. unfold NetEnv.tn_all in N0. apply map_eq_nil in N0. destruct (n - 1)%nat; [lia|discriminate].
  - unfold NetEnv.dp_handle in W.
    assert (Q : NetEnv.dp_steps macs n ingress (NetEnv.mkDp d []) (NetEnv.CData d' :: (if setlen then [NetEnv.CSetLen 34] else []) ++ [NetEnv.CFlood UPDATE_ETHER_ADDRS])
      = Some (NetEnv.mkDp (fold_left (fun x d => NetEnv.handle_flags macs d UPDATE_ETHER_ADDRS x) (net_flood n ingress) d') (net_flood n ingress))).
    { destruct setlen; reflexivity. }
    rewrite Q in W. cbn [option_map] in W. injection W as <-. cbn [NetEnv.dp_data NetEnv.dp_queue] in X. apply in_map_iff in X as (e & <- & X). cbn [snd].
    apply (flags_not_stp Dpdk); [exact M|]. intros N0. rewrite N0 in X. destruct X.
Qed.
Lemma wire_plain : forall drv macs n ingress len d a out, (exists p, a = NetEnv.CTransmit p 0) \/ (exists dis, a = NetEnv.CExcept dis 0) ->
  wire drv macs n ingress len d [a] = Some out -> forall x, In x out -> snd x = d.
Proof.
  intros drv macs n ingress len d a out A W x X.
  assert (HF : forall l y, fold_left (fun x d => NetEnv.handle_flags macs d 0 x) l y = y) by (intros l y; apply NetEnv.handle_flags_all; reflexivity).
  destruct drv; cbn [wire] in W.
  - unfold NetEnv.tn_handle in W. destruct A as [[p ->]|[dis ->]]; cbn [NetEnv.tn_steps NetEnv.tn_step NetEnv.tn_len NetEnv.tn_data NetEnv.tn_out] in W.
    + destruct (tn_transmit _ _ _ _); [|discriminate]. injection W as <-. unfold NetEnv.tn_wire in X. apply in_map_iff in X as (e & <- & X). reflexivity.
    + injection W as <-. unfold NetEnv.tn_wire in X. apply in_map_iff in X as (e & <- & X). cbn [snd NetEnv.tn_data]. apply HF.
  - unfold NetEnv.dp_handle in W. destruct A as [[p ->]|[dis ->]]; cbn [NetEnv.dp_steps NetEnv.dp_step NetEnv.dp_data NetEnv.dp_queue] in W.
    + destruct (_ <? _); [|discriminate]. injection W as <-. destruct X as [<-|[]]. reflexivity.
    + injection W as <-. apply in_map_iff in X as (e & <- & X). cbn [snd NetEnv.dp_data]. apply HF.
Qed.

Lemma stp_none : forall n s r s', stp_handle n s r = (None, s') -> s' = s.
Proof. intros n s r s' E. unfold stp_handle in E. repeat match type of E with context [if ?c then _ else _] => destruct c end; congruence. Qed.
Lemma learn_stp : forall hash base loc b r, bstp (br_learn hash base loc b r) = bstp b.
Proof. intros. unfold br_learn. destruct (negb _); [|reflexivity]. destruct (tlearn _ _ _ _ _ _) as [[?|] ?]; reflexivity. Qed.

(** ** Nothing is ever addressed to the spanning tree *)
Section Roots.
Variable conf : nat -> bconf.
Variable peer : nat -> N -> option (nat * N).
Hypothesis MACS : forall b, driver_macs (c_drv (conf b)) (c_macs (conf b)).

(** Hosts do not speak the spanning tree's protocol. *)
Definition quiet (es : list event) : Prop := forall f, In (Host f) es -> ~ to_stp (f_data f).
Definition alone (b : nat) (s : stp) : Prop :=
  self_id s = c_self (conf b) /\ root s = c_self (conf b) /\ root_cost s = 0 /\ update_time s = c_upd (conf b) /\ disabled s = repeat false (c_n (conf b)).
Definition untouched (st : net) : Prop := (forall b, alone b (bstp (brs st b))) /\ forall f, In f (flight st) -> ~ to_stp (f_data f).

Lemma sends_not_stp : forall st f t out, ~ to_stp (f_data f) -> sends conf st f t = Some out -> forall x, In x out -> ~ to_stp (snd x).
Proof.
  intros st f t out F S x X. unfold sends in S. cbv zeta in S. set (c := conf (f_br f)) in *. unfold br_acts in S.
  destruct (stp_handle (c_n c) (bstp (brs st (f_br f))) (received f t)) as [[[ds [bp|]]|] s'] eqn:E.
  - eapply (wire_flood (c_drv c) (c_macs c) (MACS (f_br f))); eauto.
  - destruct (c_drv c); cbn in S; injection S as <-; [|destruct X]. unfold NetEnv.tn_wire in X. cbn [NetEnv.tn_out NetEnv.tn_data] in X.
    apply in_map_iff in X as (e & <- & _). exact F.
  - destruct (tfind _ _ _ _ _ _) as [index|].
    + destruct (negb _).
      * rewrite (wire_plain _ _ _ _ _ _ _ _ (or_introl (ex_intro _ _ eq_refl)) S x X). exact F.
      * destruct (c_drv c); cbn in S; injection S as <-; [|destruct X]. unfold NetEnv.tn_wire in X. apply in_map_iff in X as (e & <- & _). exact F.
    + rewrite (wire_plain _ _ _ _ _ _ _ _ (or_intror (ex_intro _ _ eq_refl)) S x X). exact F.
Qed.
Lemma becomes_alone : forall st f t, ~ to_stp (f_data f) -> (forall b, alone b (bstp (brs st b))) -> alone (f_br f) (bstp (becomes conf st f t)).
Proof.
  intros st f t F A. specialize (A (f_br f)). unfold becomes. cbv zeta. set (c := conf (f_br f)) in *. unfold br_handle.
  assert (Q : forall o s', stp_handle (c_n c) (bstp (brs st (f_br f))) (received f t) = (o, s') -> alone (f_br f) s').
  { intros o s' E. unfold stp_handle in E. destruct (_ <? _); [injection E as _ <-; exact A|]. cbn [received r_data] in E.
    destruct (N.eqb_spec (ld48 (f_data f) 0) STP_ADDR) as [Z|_]; [contradiction|]. cbn [negb] in E. injection E as _ <-. exact A. }
  destruct (stp_handle _ _ _) as [[[ds o]|] s'] eqn:E; cbn [snd bstp]; [exact (Q _ _ eq_refl)|]. rewrite learn_stp. exact (Q _ _ eq_refl).
Qed.
Lemma arrivals_in : forall b out f, In f (arrivals peer b out) -> exists x, In x out /\ peer b (fst (fst x)) = Some (f_br f, f_port f) /\ f_len f = snd (fst x) /\ f_data f = snd x.
Proof.
  intros b out f F. unfold arrivals in F. apply in_flat_map in F as (x & X & F). exists x. split; [exact X|]. destruct (peer b (fst (fst x))) as [[b' p']|]; [|destruct F].
  destruct F as [<-|[]]. auto.
Qed.
Lemma untouched_happens : forall st e st', happens conf peer st e st' -> quiet [e] -> untouched st -> untouched st'.
Proof.
  intros st e st' H Q [A F]. destruct H as [st f P1 P2 P3|st l1 f l2 t out E T T' S|st l1 f l2 E].
  - split; [exact A|]. cbn [flight]. intros g [<-|G]; [apply Q; left; reflexivity|auto].
  - assert (FF : ~ to_stp (f_data f)) by (apply F; rewrite E; apply in_or_app; right; left; reflexivity). split.
    + intros b. cbn [brs]. destruct (Nat.eqb_spec b (f_br f)) as [->|_]; [apply becomes_alone; auto|auto].
    + cbn [flight]. intros g G. apply in_app_or in G as [G|G]; [apply F; rewrite E; apply in_or_app; auto|].
      apply in_app_or in G as [G|G]; [apply F; rewrite E; apply in_or_app; right; right; exact G|].
      apply arrivals_in in G as (x & X & _ & _ & ->). eapply sends_not_stp; eauto.
  - split; [exact A|]. cbn [flight]. intros g G. apply F. rewrite E. apply in_or_app. apply in_app_or in G as [G|G]; [auto|right; right; exact G].
Qed.
Lemma untouched_run : forall st es st', run conf peer st es st' -> quiet es -> untouched st -> untouched st'.
Proof.
  intros st es st' H. induction H as [|st e st1 es st2 H R IH]; intros Q U; [exact U|]. apply IH; [intros f F; apply Q; right; exact F|].
  eapply untouched_happens; eauto. intros f [->|[]]. apply Q. left. reflexivity.
Qed.
Lemma start_untouched : forall st, start conf st -> untouched st.
Proof.
  intros st (F & _ & _ & B). split; [|rewrite F; intros f []]. intros b. specialize (B b). unfold br_init in B. destruct (_ <? 2)%nat; [discriminate|].
  injection B as <-. repeat split.
Qed.
End Roots.

(** ** Frames never go back, and there are at most as many as ports *)
Section Ports.
Variable conf : nat -> bconf.
Variable peer : nat -> N -> option (nat * N).

Lemma filter_length_le : forall {A} (f : A -> bool) l, (length (filter f l) <= length l)%nat.
Proof. intros A f. induction l as [|x l IH]; cbn; [lia|]. destruct (f x); cbn; lia. Qed.
Lemma tn_steps_length : forall macs n ingress l s s', length (NetEnv.tn_out s) = (n - 1)%nat -> NetEnv.tn_steps macs n ingress s l = Some s' -> length (NetEnv.tn_out s') = (n - 1)%nat.
Proof.
  intros macs n ingress. induction l as [|a l IH]; intros s s' H E; cbn [NetEnv.tn_steps] in E; [injection E as <-; exact H|].
  destruct (NetEnv.tn_step macs n ingress s a) as [s1|] eqn:S; [|discriminate]. eapply IH; [|exact E]. destruct a; cbn [NetEnv.tn_step] in S.
  - injection S as <-. exact H.
  - injection S as <-. exact H.
  - unfold tn_transmit in S. destruct (_ <? _)%nat; [|discriminate]. injection S as <-. cbn [NetEnv.tn_out]. rewrite set_nth_length. exact H.
  - injection S as <-. apply repeat_length.
  - injection S as <-. cbn [NetEnv.tn_out]. unfold tn_flood_except. rewrite map_length, seq_length. reflexivity.
Qed.
Lemma from_index_ne : forall ingress i, device_from_index ingress i <> ingress.
Proof. intros ingress i. unfold device_from_index. destruct (N.ltb_spec i ingress); lia. Qed.
Lemma tn_sends : forall macs n ingress len d l out, NetEnv.tn_handle macs n ingress len d l = Some out ->
  (length out <= n - 1)%nat /\ forall x, In x out -> fst (fst x) <> ingress.
Proof.
  intros macs n ingress len d l out E. unfold NetEnv.tn_handle in E. destruct (NetEnv.tn_steps _ _ _ _ _) as [s|] eqn:S; [|discriminate]. injection E as <-.
  apply tn_steps_length in S; [|apply repeat_length]. unfold NetEnv.tn_wire. split.
  - rewrite map_length. unfold tn_sent. rewrite map_length. etransitivity; [apply filter_length_le|]. rewrite seq_length, S. lia.
  - intros x X. apply in_map_iff in X as (e & <- & X). cbn [fst]. apply tn_sent_in in X as (i & _ & _ & ->). apply from_index_ne.
Qed.
Lemma flood_length : forall n f, (length (filter f (map N.of_nat (seq 0 n))) <= n)%nat.
Proof. intros n f. etransitivity; [apply filter_length_le|]. rewrite map_length, seq_length. lia. Qed.
Lemma dp_flood_length : forall macs n ingress len d d' (setlen : bool) out,
  NetEnv.dp_handle macs n ingress len d (NetEnv.CData d' :: (if setlen then [NetEnv.CSetLen 34] else []) ++ [NetEnv.CFlood UPDATE_ETHER_ADDRS]) = Some out ->
  (length out <= n)%nat /\ forall x, In x out -> fst (fst x) <> ingress.
Proof.
  intros macs n ingress len d d' setlen out E. unfold NetEnv.dp_handle in E.
  assert (Q : exists d2, NetEnv.dp_steps macs n ingress (NetEnv.mkDp d []) (NetEnv.CData d' :: (if setlen then [NetEnv.CSetLen 34] else []) ++ [NetEnv.CFlood UPDATE_ETHER_ADDRS])
    = Some (NetEnv.mkDp d2 (net_flood n ingress))) by (destruct setlen; eexists; reflexivity).
  destruct Q as [d2 Q]. rewrite Q in E. injection E as <-. cbn [NetEnv.dp_data NetEnv.dp_queue]. split.
  - rewrite map_length. apply flood_length.
  - intros x X. apply in_map_iff in X as (e & <- & X). apply net_flood_in in X. cbn. tauto.
Qed.
Lemma sends_ports : forall st f t out, sends conf st f t = Some out -> (length out <= c_n (conf (f_br f)))%nat /\ forall x, In x out -> fst (fst x) <> f_port f.
Proof.
  intros st f t out S. unfold sends in S. cbv zeta in S. set (c := conf (f_br f)) in *. destruct (c_drv c); cbn [wire] in S.
  { apply tn_sends in S as [A B]. split; [etransitivity; [exact A|lia]|exact B]. }
  unfold br_acts in S. destruct (stp_handle (c_n c) (bstp (brs st (f_br f))) (received f t)) as [[[ds [bp|]]|] s'] eqn:E.
  - apply dp_flood_length in S. exact S.
  - cbn in S. injection S as <-. split; [cbn; lia|intros x []].
  - destruct (tfind _ _ _ _ _ _) as [index|].
    + cbn [received r_device] in S. set (d := nth index _ 0) in *. destruct (N.eqb_spec d (f_port f)) as [Z|Z]; cbn [negb] in S.
      * cbn in S. injection S as <-. split; [cbn; lia|intros x []].
      * unfold NetEnv.dp_handle in S. cbn [NetEnv.dp_steps NetEnv.dp_step] in S. destruct (N.ltb_spec d (N.of_nat (c_n c))); [|discriminate]. injection S as <-. cbn.
        split; [lia|]. intros x [<-|[]]. exact Z.
    + unfold NetEnv.dp_handle in S. cbn [NetEnv.dp_steps NetEnv.dp_step NetEnv.dp_data NetEnv.dp_queue app] in S. injection S as <-. cbn [NetEnv.dp_data NetEnv.dp_queue]. split.
      * rewrite map_length. apply flood_length.
      * intros x X. apply in_map_iff in X as (e & <- & X). apply net_flood_except_in in X. cbn. tauto.
Qed.

(** Networks in which every path that does not turn back ends: [rank] bounds its length. *)
Variable rank : nat -> N -> nat.
Definition tree : Prop := forall b p q b' p', q <> p -> peer b q = Some (b', p') -> (rank b' p' < rank b p)%nat.
Variable m : nat.
Hypothesis SMALL : forall b, (c_n (conf b) <= m)%nat.
(** How often a frame and its copies can arrive. *)
Fixpoint most (r : nat) : nat := match r with O => 1%nat | S r' => (1 + m * most r')%nat end.
Definition weigh (fs : list frame) : nat := fold_right (fun f n => most (rank (f_br f) (f_port f)) + n)%nat 0%nat fs.
Lemma weigh_app : forall a b, weigh (a ++ b) = (weigh a + weigh b)%nat.
Proof. induction a as [|x a IH]; intros b; cbn [app weigh fold_right]; [reflexivity|]. unfold weigh in IH. rewrite IH. unfold weigh. lia. Qed.
Lemma most_mono : forall a b, (0 < m)%nat -> (a <= b)%nat -> (most a <= most b)%nat.
Proof.
  intros a b M H. induction H as [|b H IH]; [lia|]. cbn [most]. etransitivity; [exact IH|]. destruct m; [lia|]. cbn. lia.
Qed.
Lemma arrivals_length : forall b out, (length (arrivals peer b out) <= length out)%nat.
Proof. intros b out. unfold arrivals. induction out as [|x out IH]; cbn [flat_map length]; [lia|]. rewrite app_length. destruct (peer b (fst (fst x))) as [[? ?]|]; cbn [length]; lia. Qed.
Lemma weigh_bound : forall k fs, (forall f, In f fs -> most (rank (f_br f) (f_port f)) <= k)%nat -> (weigh fs <= length fs * k)%nat.
Proof.
  intros k. induction fs as [|f fs IH]; intros H; cbn [weigh fold_right length]; [lia|]. specialize (IH (fun g G => H g (or_intror G))). specialize (H f (or_introl eq_refl)).
  unfold weigh in IH. lia.
Qed.
Definition arrival (e : event) : bool := match e with Arrive _ _ => true | _ => false end.
Definition host (e : event) : bool := match e with Host _ => true | _ => false end.
Lemma weigh_happens : forall st e st', tree -> happens conf peer st e st' -> host e = false -> ((if arrival e then 1 else 0) + weigh (flight st') <= weigh (flight st))%nat.
Proof.
  intros st e st' TR H NH. destruct H as [st f P1 P2 P3|st l1 f l2 t out E T T' S|st l1 f l2 E]; [discriminate| |]; cbn [arrival flight]; rewrite E, !weigh_app; cbn [weigh fold_right]; fold (weigh l2).
  - apply sends_ports in S as [L NE]. pose proof (arrivals_length (f_br f) out) as AL. pose proof (SMALL (f_br f)) as SM.
    assert (Q : (weigh (arrivals peer (f_br f) out) < most (rank (f_br f) (f_port f)))%nat); [|lia].
    destruct (arrivals peer (f_br f) out) as [|g gs] eqn:AR. { cbn. destruct (rank (f_br f) (f_port f)); cbn; lia. }
    assert (M0 : (0 < m)%nat) by (cbn in AL; lia).
    assert (RK : forall g, In g (arrivals peer (f_br f) out) -> (rank (f_br g) (f_port g) < rank (f_br f) (f_port f))%nat).
    { intros h Hh. apply arrivals_in in Hh as (x & X & PE & _). eapply TR; [|exact PE]. apply NE. exact X. }
    rewrite AR in RK. destruct (rank (f_br f) (f_port f)) as [|k] eqn:RF. { specialize (RK g (or_introl eq_refl)). lia. }
    pose proof (weigh_bound (most k) (g :: gs)) as WB. assert (forall f0, In f0 (g :: gs) -> (most (rank (f_br f0) (f_port f0)) <= most k)%nat) as X.
    { intros h Hh. apply most_mono; [exact M0|]. specialize (RK h Hh). lia. }
    specialize (WB X). cbn [most]. apply Nat.lt_succ_r. etransitivity; [exact WB|]. apply Nat.mul_le_mono_r. lia.
  - destruct (rank (f_br f) (f_port f)); cbn; lia.
Qed.
Lemma weigh_run : forall st es st', tree -> run conf peer st es st' -> existsb host es = false -> (length (filter arrival es) + weigh (flight st') <= weigh (flight st))%nat.
Proof.
  intros st es st' TR H. induction H as [|st e st1 es st2 H R IH]; intros NH; [cbn; lia|]. cbn [existsb] in NH. apply orb_false_iff in NH as [N1 N2]. specialize (IH N2).
  pose proof (weigh_happens _ _ _ TR H N1) as Q. cbn [filter]. destruct (arrival e); cbn [length]; lia.
Qed.
End Ports.

(** ** Group frames go everywhere *)
Section Groups.
Variable conf : nat -> bconf.
Variable peer : nat -> N -> option (nat * N).
(** What any sensible network has: tables that fit and are apart from what is looked up, times of 64 bits, the drivers' addresses, cables
    between existing ports. *)
Record good : Prop := mkGood {
  g_layout : forall b, layout_ok MAC_SIZE (c_base (conf b)) (c_loc (conf b)) (c_cap (conf b)) /\ N.of_nat (c_cap (conf b)) <= 2 ^ 63;
  g_upd : forall b, c_upd (conf b) < 2 ^ 64;
  g_macs : forall b, driver_macs (c_drv (conf b)) (c_macs (conf b));
  g_peer : forall b p b' p', peer b p = Some (b', p') -> p' < N.of_nat (c_n (conf b')) }.
Hypothesis G : good.

(** No frame is lost and none is replaced by an update. *)
Definition calm (e : event) : Prop := match e with Host _ => True | Arrive f t => t <= c_upd (conf (f_br f)) | Lose _ => False end.
Definition hist (b : nat) := br_hist (c_hash (conf b)) (c_base (conf b)) (c_loc (conf b)) (c_n (conf b)) (c_cap (conf b)) (c_exp (conf b)) (c_self (conf b)) (c_upd (conf b)).
Record sane (st : net) : Prop := mkSane {
  s_un : untouched conf st;
  s_last : forall b, last_update (bstp (brs st b)) = 0;
  s_hist : forall b, exists h, hist b h (brs st b) /\ in_order (now st b) h;
  s_ok : forall f, In f (flight st) -> f_port f < N.of_nat (c_n (conf (f_br f))) /\ data_ok (f_data f) }.

Lemma not_due : forall st f t, sane st -> t <= c_upd (conf (f_br f)) -> due (bstp (brs st (f_br f))) (received f t) = false.
Proof.
  intros st f t [[A _] L _ _] T. unfold due. cbn [received r_time]. destruct (A (f_br f)) as (_ & _ & _ & U & _). rewrite L, U, N.add_0_l, N.mod_small by apply G.
  apply N.ltb_ge. exact T.
Qed.
Lemma stp_passes : forall st f t, sane st -> t <= c_upd (conf (f_br f)) -> ~ to_stp (f_data f) ->
  stp_handle (c_n (conf (f_br f))) (bstp (brs st (f_br f))) (received f t) = (None, bstp (brs st (f_br f))).
Proof.
  intros st f t SA T NS. unfold stp_handle. pose proof (not_due st f t SA T) as D. unfold due in D. rewrite D. cbn [received r_data].
  destruct (N.eqb_spec (ld48 (f_data f) 0) STP_ADDR) as [Z|_]; [contradiction|]. reflexivity.
Qed.
Lemma fold_flags_ok : forall macs f l d, (forall d i, macs d i < 256) -> data_ok d -> data_ok (fold_left (fun x d => NetEnv.handle_flags macs d f x) l d).
Proof.
  intros macs f. induction l as [|x l IH]; intros d M D; cbn [fold_left]; [exact D|]. apply IH; [exact M|]. unfold NetEnv.handle_flags. destruct (N.testbit f 0); [|exact D].
  intros i. destruct (i <? 12); [apply M|apply D].
Qed.
Lemma sends_ok : forall st f t out, sane st -> t <= c_upd (conf (f_br f)) -> ~ to_stp (f_data f) -> data_ok (f_data f) -> sends conf st f t = Some out -> forall x, In x out -> data_ok (snd x).
Proof.
  intros st f t out SA T NS D S x X. unfold sends in S. cbv zeta in S. unfold br_acts in S. rewrite (stp_passes st f t SA T NS) in S. set (c := conf (f_br f)) in *.
  destruct (tfind _ _ _ _ _ _) as [index|].
  - destruct (negb _).
    + rewrite (wire_plain _ _ _ _ _ _ _ _ (or_introl (ex_intro _ _ eq_refl)) S x X). exact D.
    + destruct (c_drv c); cbn in S; injection S as <-; [|destruct X]. unfold NetEnv.tn_wire in X. apply in_map_iff in X as (e & <- & _). exact D.
  - rewrite (wire_plain _ _ _ _ _ _ _ _ (or_intror (ex_intro _ _ eq_refl)) S x X). exact D.
Qed.
Lemma becomes_last : forall st f t, sane st -> t <= c_upd (conf (f_br f)) -> ~ to_stp (f_data f) -> bstp (becomes conf st f t) = bstp (brs st (f_br f)).
Proof.
  intros st f t SA T NS. unfold becomes. cbv zeta. unfold br_handle. rewrite (stp_passes st f t SA T NS). cbn [snd]. rewrite learn_stp. reflexivity.
Qed.
Lemma sane_happens : forall st e st', happens conf peer st e st' -> quiet [e] -> calm e -> sane st -> sane st'.
Proof.
  intros st e st' H Q C SA. pose proof (untouched_happens conf peer (g_macs G) _ _ _ H Q (s_un _ SA)) as U. destruct SA as [[A NS] LA HI OK].
  destruct H as [st f P1 P2 P3|st l1 f l2 t out E T T' S|st l1 f l2 E]; [| |destruct C].
  - constructor; auto. cbn [flight]. intros g [<-|I]; auto.
  - cbn [calm] in C. assert (FI : In f (flight st)) by (rewrite E; apply in_or_app; right; left; reflexivity).
    assert (SA : sane st) by (constructor; auto; split; auto). pose proof (NS f FI) as NF. destruct (OK f FI) as [O1 O2]. constructor.
    + exact U.
    + intros b. cbn [brs]. destruct (Nat.eqb_spec b (f_br f)) as [->|_]; [rewrite becomes_last by auto; apply LA|apply LA].
    + intros b. cbn [brs now]. destruct (Nat.eqb_spec b (f_br f)) as [->|_]; [|apply HI]. destruct (HI (f_br f)) as (h & Hh & HO).
      eexists. split; [eapply bh_cons with (r := received f t); [exact Hh| |]|].
      * split; [exact O1|]. split; [exact T'|exact O2].
      * unfold becomes. cbv zeta. apply surjective_pairing.
      * cbn [in_order ev_frame received r_time]. split; [lia|]. clear -HO T. revert HO. destruct h as [|e h]; [auto|]. cbn [in_order]. intros [X Y]. split; [lia|exact Y].
    + cbn [flight]. intros g I. apply in_app_or in I as [I|I]; [apply OK; rewrite E; apply in_or_app; auto|].
      apply in_app_or in I as [I|I]; [apply OK; rewrite E; apply in_or_app; right; right; exact I|].
      apply arrivals_in in I as (x & X & PE & _ & ->). split; [eapply g_peer; eauto|]. eapply sends_ok; eauto.
Qed.
Lemma start_sane : forall st, start conf st -> sane st.
Proof.
  intros st ST. pose proof (start_untouched conf st ST) as U. destruct ST as (F & _ & NW & B). constructor.
  - exact U.
  - intros b. specialize (B b). unfold br_init in B. destruct (_ <? 2)%nat; [discriminate|]. injection B as <-. reflexivity.
  - intros b. exists []. split; [apply bh_nil; apply B|exact Logic.I].
  - rewrite F. intros f [].
Qed.

(** The destination of a group frame is never found. *)
Lemma group_not_found : forall st f t, sane st -> In f (flight st) -> now st (f_br f) <= t -> t < TIME_MAX -> N.odd (ld48 (f_data f) 0) = true ->
  let c := conf (f_br f) in
  tfind (c_hash c) MAC_SIZE (c_base c) (c_loc c) (btab (br_learn (c_hash c) (c_base c) (c_loc c) (brs st (f_br f)) (received f t))) (mac (dst_mac (received f t))) = None.
Proof.
  intros st f t SA FI T T' OD c. destruct (s_hist _ SA (f_br f)) as (h & Hh & HO). destruct (s_ok _ SA f FI) as [O1 O2]. destruct (g_layout G (f_br f)) as [L HC].
  assert (HO' : in_order t h) by (clear -HO T; revert HO; destruct h as [|e h]; [auto|]; cbn [in_order]; intros [X Y]; split; [lia|exact Y]).
  pose proof (br_hist_inv _ _ _ _ _ _ L HC _ _ _ _ Hh _ HO') as I0.
  pose proof (br_learn_inv _ _ _ (c_n c) _ _ L HC t (brs st (f_br f)) h (received f t) [] I0 (N.le_refl _)) as I1.
  assert (FO : frame_ok (c_n c) (received f t)) by (split; [exact O1|split; [exact T'|exact O2]]). specialize (I1 FO).
  set (b1 := br_learn (c_hash c) (c_base c) (c_loc c) (brs st (f_br f)) (received f t)) in *.
  destruct (tfind _ _ _ _ (btab b1) _) as [i|] eqn:TF; [|reflexivity]. exfalso.
  pose proof (bi_rel _ _ _ _ _ _ _ _ I1) as R.
  apply (find_spec (c_hash c) MAC_SIZE (c_base c) (c_loc c) (c_cap c) (c_exp c) L (btab b1) (mac (dst_mac (received f t))) (ts_ok _ _ _ _ _ _ _ _ _ R) (le_length _ _)) in TF as [u V].
  destruct (bi_devs _ _ _ _ _ _ _ _ I1 i _ u V) as (a & e & Q1 & Q2 & Q3 & _). apply mac_inj in Q3; [|apply (ld48_lt (c_cap c)); solve [exact HC|exact O2]|exact Q1].
  unfold dst_mac in Q3. cbn [received r_data] in Q3. rewrite <- Q3, OD in Q2. discriminate.
Qed.
Lemma wire_except : forall drv macs n ingress len d dis out q, wire drv macs n ingress len d [NetEnv.CExcept dis 0] = Some out ->
  ingress < N.of_nat n -> q < N.of_nat n -> q <> ingress -> dis q = false -> len <> 0 -> In (q, len, d) out.
Proof.
  intros drv macs n ingress len d dis out q W I Q NE DI LN.
  assert (HF : forall l y, fold_left (fun x d => NetEnv.handle_flags macs d 0 x) l y = y) by (intros l y; apply NetEnv.handle_flags_all; reflexivity).
  assert (FL : In q (net_flood_except n ingress dis)) by (apply net_flood_except_in; auto). destruct drv; cbn [wire] in W.
  - unfold NetEnv.tn_handle in W. cbn [NetEnv.tn_steps NetEnv.tn_step NetEnv.tn_len NetEnv.tn_data NetEnv.tn_out option_map] in W. injection W as <-.
    unfold NetEnv.tn_wire. cbn [NetEnv.tn_out NetEnv.tn_data]. apply in_map_iff. exists q. rewrite HF. split; [|apply drivers_flood_except; auto]. f_equal. f_equal.
    unfold tn_flood_except. rewrite nth_map_seq.
    + rewrite N2Nat.id, device_index by exact NE. rewrite DI. reflexivity.
    + unfold index_from_device. destruct (N.ltb_spec ingress q); lia.
  - unfold NetEnv.dp_handle in W. cbn [NetEnv.dp_steps NetEnv.dp_step NetEnv.dp_data NetEnv.dp_queue app option_map] in W. injection W as <-.
    cbn [NetEnv.dp_data NetEnv.dp_queue]. apply in_map_iff. exists q. rewrite HF. auto.
Qed.
Lemma alone_enabled : forall b s q, alone conf b s -> is_disabled s q = false.
Proof.
  intros b s q (_ & _ & _ & _ & D). unfold is_disabled. rewrite D. generalize (N.to_nat q). clear. induction (c_n (conf b)) as [|n IH]; intros [|i]; cbn; auto.
Qed.
Lemma group_sends : forall st f t out q, sane st -> In f (flight st) -> now st (f_br f) <= t -> t < TIME_MAX -> t <= c_upd (conf (f_br f)) ->
  N.odd (ld48 (f_data f) 0) = true -> f_len f <> 0 -> q < N.of_nat (c_n (conf (f_br f))) -> q <> f_port f ->
  sends conf st f t = Some out -> In (q, f_len f, f_data f) out.
Proof.
  intros st f t out q SA FI T T' TU OD LN Q NE S. pose proof (proj2 (s_un _ SA) f FI) as NS. destruct (s_ok _ SA f FI) as [O1 O2].
  pose proof (group_not_found st f t SA FI T T' OD) as GN. cbv zeta in GN. unfold sends in S. cbv zeta in S. unfold br_acts in S. rewrite (stp_passes st f t SA TU NS) in S.
  replace (mkBr (btab (brs st (f_br f))) (bdevs (brs st (f_br f))) (bstp (brs st (f_br f)))) with (brs st (f_br f)) in S by (destruct (brs st (f_br f)); reflexivity).
  rewrite GN in S. eapply wire_except; eauto. rewrite learn_stp. eapply alone_enabled. apply SA.
Qed.

(** A way through the network: bridges with the port by which the frame comes and another by which it leaves. *)
Record stop := mkStop { w_br : nat; w_in : N; w_out : N }.
Definition through (w : stop) : Prop := w_out w <> w_in w /\ w_out w < N.of_nat (c_n (conf (w_br w))).
Definition linked (w w' : stop) : Prop := peer (w_br w) (w_out w) = Some (w_br w', w_in w').
Definition coming (len : N) (d : data) (w : stop) : frame := mkF (w_br w) (w_in w) len d.
Definition leaving (len : N) (d : data) (w : stop) : frame := mkF (w_br w) (w_out w) len d.

Variable len : N.
Variable d : data.
Hypothesis GRP : N.odd (ld48 d 0) = true.
Hypothesis LEN : len <> 0.

Lemma group_happens : forall st e st', happens conf peer st e st' -> calm e -> sane st -> forall w, In (coming len d w) (flight st) -> through w ->
  In (coming len d w) (flight st') \/ (In (leaving len d w) (sent st') /\ forall w', linked w w' -> In (coming len d w') (flight st')).
Proof.
  intros st e st' H C SA w I [T1 T2]. destruct H as [st f P1 P2 P3|st l1 f l2 t out E T T' S|st l1 f l2 E]; [left; right; exact I| |destruct C].
  cbn [flight sent]. rewrite E in I. apply in_app_or in I as [I|[I|I]].
  - left. apply in_or_app. auto.
  - right. subst f. cbn [calm] in C. assert (FI : In (coming len d w) (flight st)) by (rewrite E; apply in_or_app; right; left; reflexivity).
    pose proof (group_sends st (coming len d w) t out (w_out w) SA FI T T' C GRP LEN T2 T1 S) as O. cbn [coming f_br f_len f_data] in *. split.
    + apply in_or_app. left. unfold departures. apply in_map_iff. exists (w_out w, len, d). auto.
    + intros w' LK. apply in_or_app. right. apply in_or_app. right. unfold arrivals. apply in_flat_map. exists (w_out w, len, d). split; [exact O|]. cbn [fst snd]. rewrite LK. left. reflexivity.
  - left. apply in_or_app. right. apply in_or_app. auto.
Qed.
Lemma sent_happens : forall st e st' f, happens conf peer st e st' -> In f (sent st) -> In f (sent st').
Proof. intros st e st' f H I. destruct H; cbn [sent]; auto. apply in_or_app. auto. Qed.
Lemma quiet_cons : forall e es, quiet (e :: es) -> quiet [e] /\ quiet es.
Proof. intros e es Q. split; intros f F; apply Q; [destruct F as [->|[]]; left; reflexivity|right; exact F]. Qed.

(** For ever round. *)
Lemma circulates : forall w : nat -> stop, (forall i, through (w i) /\ linked (w i) (w (S i))) -> forall st es st', run conf peer st es st' -> quiet es -> Forall calm es -> sane st ->
  (exists i, In (coming len d (w i)) (flight st)) -> exists i, In (coming len d (w i)) (flight st').
Proof.
  intros w W st es st' R. induction R as [|st e st1 es st2 H R IH]; intros Q C SA [i I]; [eauto|]. apply quiet_cons in Q as [Q1 Q2]. inversion_clear C as [|? ? C1 C2].
  apply IH; auto; [eapply sane_happens; eauto|]. destruct (W i) as [W1 W2]. destruct (group_happens _ _ _ H C1 SA (w i) I W1) as [X|[_ X]]; [eauto|].
  exists (S i). apply X. exact W2.
Qed.
(** Everywhere. *)
Lemma reaches : forall (w : nat -> stop) k, (forall i, (i <= k)%nat -> through (w i)) -> (forall i, (i < k)%nat -> linked (w i) (w (S i))) ->
  forall st es st', run conf peer st es st' -> quiet es -> Forall calm es -> sane st ->
  (exists i, (i <= k)%nat /\ In (coming len d (w i)) (flight st)) \/ In (leaving len d (w k)) (sent st) ->
  (exists i, (i <= k)%nat /\ In (coming len d (w i)) (flight st')) \/ In (leaving len d (w k)) (sent st').
Proof.
  intros w k W1 W2 st es st' R. induction R as [|st e st1 es st2 H R IH]; intros Q C SA I; [exact I|]. apply quiet_cons in Q as [Q1 Q2]. inversion_clear C as [|? ? C1 C2].
  apply IH; auto; [eapply sane_happens; eauto|]. destruct I as [(i & K & I)|I]; [|right; eapply sent_happens; eauto].
  destruct (group_happens _ _ _ H C1 SA (w i) I (W1 i K)) as [X|[X Y]]; [eauto|]. destruct (Nat.eq_dec i k) as [->|NE]; [auto|].
  left. exists (S i). split; [lia|]. apply Y. apply W2. lia.
Qed.
End Groups.

(** ** All that is sent *)

(** What is on the wire, whatever the driver. *)
Lemma index_back : forall ingress i, index_from_device ingress (device_from_index ingress i) = i.
Proof. intros g i. unfold index_from_device, device_from_index. destruct (N.ltb_spec i g); [destruct (N.ltb_spec g i); lia|destruct (N.ltb_spec g (i + 1)); lia]. Qed.
Lemma in_set_nth : forall (l : list N) i v x, In x (set_nth l i v) -> x = v \/ In x l.
Proof. induction l as [|y l IH]; intros [|i] v x X; cbn in *; intuition. apply IH in H. intuition. Qed.
Lemma tn_wire_len : forall ingress s len, (forall v, In v (NetEnv.tn_out s) -> v = 0 \/ v = len) -> forall x, In x (NetEnv.tn_wire ingress s) -> snd (fst x) = len /\ snd x = NetEnv.tn_data s.
Proof.
  intros ingress s len V x X. unfold NetEnv.tn_wire in X. apply in_map_iff in X as (d & <- & X). cbn [fst snd]. split; [|reflexivity].
  apply tn_sent_in in X as (i & I & NZ & ->). rewrite index_back, Nnat.Nat2N.id. destruct (V _ (nth_In _ 0 I)); [contradiction|assumption].
Qed.
Lemma tn_wire_ports : forall ingress s p, In p (map (fun x => fst (fst x)) (NetEnv.tn_wire ingress s)) <-> In p (tn_sent ingress (NetEnv.tn_out s)).
Proof. intros. unfold NetEnv.tn_wire. rewrite map_map. cbn [fst]. rewrite map_id. reflexivity. Qed.
Lemma dp_wire_ports : forall (q : list N) (len : N) (d : data) p, In p (map (fun x => fst (fst x)) (map (fun e => (e, len, d)) q)) <-> In p q.
Proof. intros. rewrite map_map. cbn [fst]. rewrite map_id. reflexivity. Qed.

Lemma wire_none : forall drv macs n ingress len d, wire drv macs n ingress len d [] = Some [].
Proof.
  intros [] macs n ingress len d; cbn [wire]; [|reflexivity]. unfold NetEnv.tn_handle. cbn [NetEnv.tn_steps option_map]. f_equal. unfold NetEnv.tn_wire. cbn [NetEnv.tn_out].
  destruct (tn_sent ingress (repeat 0 (n - 1))) as [|x l] eqn:E; [reflexivity|]. exfalso. assert (I : In x (tn_sent ingress (repeat 0 (n - 1)))) by (rewrite E; left; reflexivity).
  apply tn_sent_in in I as (i & _ & NZ & _). apply NZ. apply nth_repeat.
Qed.
Lemma wire_transmit : forall drv macs n ingress len d dev out, ingress < N.of_nat n -> dev <> ingress -> len <> 0 -> wire drv macs n ingress len d [NetEnv.CTransmit dev 0] = Some out ->
  (forall p, In p (map (fun x => fst (fst x)) out) <-> p = dev) /\ forall x, In x out -> snd (fst x) = len /\ snd x = d.
Proof.
  intros drv macs n ingress len d dev out HI NE HL W. destruct drv; cbn [wire] in W.
  - unfold NetEnv.tn_handle in W. cbn [NetEnv.tn_steps NetEnv.tn_step NetEnv.tn_len NetEnv.tn_out NetEnv.tn_data] in W.
    destruct (tn_transmit _ _ _ _) as [o|] eqn:T; [|discriminate]. injection W as <-.
    assert (D : dev < N.of_nat n).
    { pose proof T as T0. unfold tn_transmit in T0. rewrite repeat_length in T0. destruct (Nat.ltb_spec (N.to_nat (index_from_device ingress dev)) (n - 1)) as [B|]; [|discriminate].
      unfold index_from_device in B. destruct (N.ltb_spec ingress dev); lia. }
    destruct (tn_transmit_spec n ingress dev len HI D NE HL) as (o' & E & P). rewrite T in E. injection E as <-. split.
    + intros p. rewrite tn_wire_ports. apply P.
    + intros x X. apply (tn_wire_len _ _ len) in X; [exact X|]. cbn [NetEnv.tn_out]. intros v V. unfold tn_transmit in T. destruct (_ <? _)%nat; [|discriminate]. injection T as <-.
      apply in_set_nth in V as [->|V]; [auto|]. apply repeat_spec in V. auto.
  - unfold NetEnv.dp_handle in W. cbn [NetEnv.dp_steps NetEnv.dp_step] in W. destruct (_ <? _); [|discriminate]. injection W as <-. split.
    + intros p. cbn. split; [intros [<-|[]]; reflexivity|auto].
    + intros x [<-|[]]. split; reflexivity.
Qed.
Lemma wire_except_all : forall drv macs n ingress len d dis out, ingress < N.of_nat n -> len <> 0 -> wire drv macs n ingress len d [NetEnv.CExcept dis 0] = Some out ->
  (forall p, In p (map (fun x => fst (fst x)) out) <-> In p (net_flood_except n ingress dis)) /\ forall x, In x out -> snd (fst x) = len /\ snd x = d.
Proof.
  intros drv macs n ingress len d dis out HI HL W. pose proof (wire_plain _ _ _ _ _ _ _ _ (or_intror (ex_intro _ dis eq_refl)) W) as DA. destruct drv; cbn [wire] in W.
  - unfold NetEnv.tn_handle in W. cbn [NetEnv.tn_steps NetEnv.tn_step NetEnv.tn_len NetEnv.tn_out NetEnv.tn_data option_map] in W. injection W as <-. split.
    + intros p. rewrite tn_wire_ports. apply drivers_flood_except; auto.
    + intros x X. split; [|apply DA; exact X]. apply (tn_wire_len _ _ len) in X; [apply X|]. cbn [NetEnv.tn_out]. intros v V. unfold tn_flood_except in V. apply in_map_iff in V as (i & <- & _).
      destruct (dis _); auto.
  - unfold NetEnv.dp_handle in W. cbn [NetEnv.dp_steps NetEnv.dp_step NetEnv.dp_queue NetEnv.dp_data option_map app] in W. injection W as <-. split.
    + intros p. apply dp_wire_ports.
    + intros x X. split; [|apply DA; exact X]. apply in_map_iff in X as (e & <- & _). reflexivity.
Qed.
Lemma flags_above : forall macs l x i, 12 <= i -> fold_left (fun x d => NetEnv.handle_flags macs d UPDATE_ETHER_ADDRS x) l x i = x i.
Proof.
  intros macs. induction l as [|d l IH]; intros x i I; cbn [fold_left]; [reflexivity|]. rewrite IH by exact I. unfold NetEnv.handle_flags. cbn.
  destruct (N.ltb_spec i 12); [lia|reflexivity].
Qed.
Lemma wire_update : forall drv macs n ingress len d d' (sl : bool) out, ingress < N.of_nat n -> len <> 0 ->
  wire drv macs n ingress len d (NetEnv.CData d' :: (if sl then [NetEnv.CSetLen 34] else []) ++ [NetEnv.CFlood UPDATE_ETHER_ADDRS]) = Some out ->
  (forall p, In p (map (fun x => fst (fst x)) out) <-> In p (net_flood n ingress)) /\
  forall x, In x out -> snd (fst x) = (match drv with TinyNF => if sl then 34 else len | Dpdk => len end) /\ forall i, 12 <= i -> snd x i = d' i.
Proof.
  intros drv macs n ingress len d d' sl out HI HL W. destruct drv; cbn [wire] in W.
  - unfold NetEnv.tn_handle in W.
    assert (Q : NetEnv.tn_steps macs n ingress (NetEnv.mkTn len d (repeat 0 (n - 1))) (NetEnv.CData d' :: (if sl then [NetEnv.CSetLen 34] else []) ++ [NetEnv.CFlood UPDATE_ETHER_ADDRS])
      = Some (NetEnv.mkTn (if sl then 34 else len) (fold_left (fun x d => NetEnv.handle_flags macs d UPDATE_ETHER_ADDRS x) (NetEnv.tn_all n ingress) d') (tn_flood n (if sl then 34 else len)))) by (destruct sl; reflexivity).
    rewrite Q in W. cbn [option_map] in W. injection W as <-. split.
    + intros p. rewrite tn_wire_ports. apply drivers_flood; [exact HI|]. destruct sl; [discriminate|exact HL].
    + intros x X. apply (tn_wire_len _ _ (if sl then 34 else len)) in X as [X1 X2].
      * split; [exact X1|]. intros i I. etransitivity; [exact (f_equal (fun g => g i) X2)|]. cbn [NetEnv.tn_data]. apply flags_above. exact I.
      * cbn [NetEnv.tn_out]. intros v V. right. eapply repeat_spec. exact V.
  - unfold NetEnv.dp_handle in W.
    assert (Q : NetEnv.dp_steps macs n ingress (NetEnv.mkDp d []) (NetEnv.CData d' :: (if sl then [NetEnv.CSetLen 34] else []) ++ [NetEnv.CFlood UPDATE_ETHER_ADDRS])
      = Some (NetEnv.mkDp (fold_left (fun x d => NetEnv.handle_flags macs d UPDATE_ETHER_ADDRS x) (net_flood n ingress) d') (net_flood n ingress))) by (destruct sl; reflexivity).
    rewrite Q in W. cbn [option_map] in W. injection W as <-. split.
    + intros p. apply dp_wire_ports.
    + intros x X. apply in_map_iff in X as (e & <- & _). split; [reflexivity|]. intros i I. cbn [snd NetEnv.dp_data]. apply flags_above. exact I.
Qed.

(** The information in the frame reads back. *)
Lemma bytes4 : forall x, x < 2 ^ 32 -> x mod 256 + 256 * (x / 256 mod 256) + 65536 * (x / 65536 mod 256 + 256 * (x / 16777216 mod 256)) = x.
Proof.
  intros x X. rewrite (N.div_mod x 256) at 5 by discriminate. rewrite (N.div_mod (x / 256) 256) at 2 by discriminate. rewrite N.div_div by discriminate. change (256 * 256) with 65536.
  rewrite (N.div_mod (x / 65536) 256) at 2 by discriminate. rewrite N.div_div by discriminate. change (65536 * 256) with 16777216.
  rewrite (N.mod_small (x / 16777216) 256) by (apply N.div_lt_upper_bound; [discriminate|exact X]). lia.
Qed.
Lemma ld32_bytes : forall d o x, x < 2 ^ 32 -> (forall k, k < 4 -> d (o + k) = N.shiftr x (8 * k) mod 256) -> ld32 d o = x.
Proof.
  intros d o x X B. unfold ld32, ld16. replace (o + 2 + 1) with (o + 3) by lia. rewrite <- (N.add_0_r o) at 1. rewrite !B by lia. rewrite !N.shiftr_div_pow2.
  change (8 * 0) with 0. change (8 * 1) with 8. change (8 * 2) with 16. change (8 * 3) with 24. change (2 ^ 0) with 1. rewrite N.div_1_r.
  apply (bytes4 x X).
Qed.
Lemma ld64_bytes : forall d o x, x < 2 ^ 64 -> (forall k, k < 8 -> d (o + k) = N.shiftr x (8 * k) mod 256) -> ld64 d o = x.
Proof.
  intros d o x X B. unfold ld64. rewrite (ld32_bytes d o (x mod 2 ^ 32)); [|apply N.mod_upper_bound; discriminate|].
  - rewrite (ld32_bytes d (o + 4) (x / 2 ^ 32)).
    + rewrite (N.div_mod x (2 ^ 32)) at 3 by discriminate. lia.
    + apply N.div_lt_upper_bound; [discriminate|exact X].
    + intros k K. rewrite <- N.add_assoc, B by lia. f_equal. rewrite <- N.shiftr_div_pow2, N.shiftr_shiftr. f_equal. lia.
  - intros k K. rewrite B by lia. apply N.bits_inj. intros b. change 256 with (2 ^ 8). destruct (N.ltb_spec b 8).
    + rewrite !N.mod_pow2_bits_low by assumption. rewrite !N.shiftr_spec by lia. rewrite N.mod_pow2_bits_low by lia. reflexivity.
    + rewrite !N.mod_pow2_bits_high by assumption. reflexivity.
Qed.
Lemma put_reads : forall rt cost se d d', rt < 2 ^ 64 -> cost < 2 ^ 32 -> se < 2 ^ 64 -> (forall i, 12 <= i -> d' i = put_bpdu (rt, cost, se) d i) ->
  bpdu_root d' = rt /\ bpdu_cost d' = cost /\ ld64 d' 26 = se.
Proof.
  intros rt cost se d d' R C S E. split; [|split].
  - apply ld64_bytes; [exact R|]. intros k K. rewrite E by lia. unfold put_bpdu. rewrite (proj2 (N.leb_le 14 (14 + k))) by lia. rewrite (proj2 (N.ltb_lt (14 + k) 22)) by lia. cbn [andb].
    replace (14 + k - 14) with k by lia. reflexivity.
  - apply ld32_bytes; [exact C|]. intros k K. rewrite E by lia. unfold put_bpdu. rewrite (proj2 (N.ltb_ge (22 + k) 22)) by lia. rewrite andb_false_r. rewrite (proj2 (N.leb_le 22 (22 + k))) by lia.
    rewrite (proj2 (N.ltb_lt (22 + k) 26)) by lia. cbn [andb]. replace (22 + k - 22) with k by lia. reflexivity.
  - apply ld64_bytes; [exact S|]. intros k K. rewrite E by lia. unfold put_bpdu. rewrite (proj2 (N.ltb_ge (26 + k) 22)) by lia. rewrite andb_false_r. rewrite (proj2 (N.ltb_ge (26 + k) 26)) by lia. rewrite andb_false_r.
    rewrite (proj2 (N.leb_le 26 (26 + k))) by lia. rewrite (proj2 (N.ltb_lt (26 + k) 34)) by lia. cbn [andb]. replace (26 + k - 26) with k by lia. reflexivity.
Qed.

(** All that a bridge puts on the wire for one frame. *)
Lemma stp_ports : forall n s r ds bp s', stp_handle n s r = (Some (ds, Some bp), s') -> ds = net_flood n (r_device r).
Proof. intros n s r ds bp s' E. unfold stp_handle in E. repeat match type of E with context [if ?c then _ else _] => destruct c end; congruence. Qed.
Lemma stp_silent : forall n s r ds s', stp_handle n s r = (Some (ds, None), s') -> ds = [].
Proof. intros n s r ds s' E. unfold stp_handle in E. repeat match type of E with context [if ?c then _ else _] => destruct c end; congruence. Qed.
Lemma sends_all : forall conf st f t out, let c := conf (f_br f) in let b := brs st (f_br f) in
  f_port f < N.of_nat (c_n c) -> f_len f <> 0 -> sends conf st f t = Some out ->
  (forall p, In p (map (fun x => fst (fst x)) out) <-> In p (fst (br_handle (c_hash c) (c_base c) (c_loc c) (c_n c) b (received f t)))) /\
  forall x, In x out -> match fst (stp_handle (c_n c) (bstp b) (received f t)) with
    | Some (_, Some (rt, cost, se)) => snd (fst x) = (match c_drv c with TinyNF => if due (bstp b) (received f t) then 34 else f_len f | Dpdk => f_len f end) /\
        (rt < 2 ^ 64 -> cost < 2 ^ 32 -> se < 2 ^ 64 -> bpdu_root (snd x) = rt /\ bpdu_cost (snd x) = cost /\ ld64 (snd x) 26 = se)
    | _ => snd (fst x) = f_len f /\ snd x = f_data f end.
Proof.
  intros conf st f t out c b P L W. unfold sends in W. cbv zeta in W. fold c b in W. unfold br_acts in W. unfold br_handle.
  destruct (stp_handle (c_n c) (bstp b) (received f t)) as [[[ds [[[rt cost] se]|]]|] s'] eqn:E; cbn [fst].
  - apply wire_update in W as [W1 W2]; [|exact P|exact L]. pose proof (stp_ports _ _ _ _ _ _ E) as ->. split; [exact W1|]. intros x X. destruct (W2 x X) as [A B]. split; [exact A|].
    intros. eapply put_reads; eauto.
  - rewrite wire_none in W. injection W as <-. pose proof (stp_silent _ _ _ _ _ E) as ->. split; [reflexivity|intros x []].
  - unfold br_forward. destruct (tfind _ _ _ _ _ _) as [index|].
    + destruct (N.eqb_spec (nth index (bdevs (br_learn (c_hash c) (c_base c) (c_loc c) (mkBr (btab b) (bdevs b) s') (received f t))) 0) (r_device (received f t))) as [Q|Q]; cbn [negb] in *.
      * rewrite wire_none in W. injection W as <-. split; [reflexivity|intros x []].
      * apply wire_transmit in W as [W1 W2]; [|exact P|exact Q|exact L]. split; [|exact W2]. intros p. rewrite W1. cbn. intuition.
    + apply wire_except_all in W as [W1 W2]; [|exact P|exact L]. split; [exact W1|exact W2].
Qed.
(** What a bridge announces is what it believes from then on. *)
Lemma stp_announces : forall n s r ds bp s', stp_handle n s r = (Some (ds, Some bp), s') -> bp = (root s', root_cost s', self_id s') /\ self_id s' = self_id s.
Proof.
  intros n s r ds bp s' E. unfold stp_handle in E. repeat match type of E with context [if ?c then _ else _] => destruct c end; inversion E; subst; auto.
Qed.
