(** * The bridge (nf/bridge) and the transmit functions of the drivers *)

From Coq Require Import NArith ZArith List Bool Lia Arith.
From Verif Require Import IndexPool HashMap Table Firewall Packet TimedSet.
Import ListNotations.
Open Scope nat_scope.

(** ** Transmission

    env/src/net/dpdk/main.c 80-109: the devices a packet is queued for. *)
Definition net_flood (n : nat) (ingress : N) : list N :=
  filter (fun d => negb (d =? ingress)%N) (map N.of_nat (seq 0 n)).
Definition net_flood_except (n : nat) (ingress : N) (disabled : N -> bool) : list N :=
  filter (fun d => negb (d =? ingress)%N && negb (disabled d)) (map N.of_nat (seq 0 n)).

(** env/src/net/tinynf/main.c 15-17: outputs of a device's agent are numbered without the
    device itself. *)
Definition index_from_device (ingress device : N) : N := (if ingress <? device then device - 1 else device)%N.
Definition device_from_index (ingress index : N) : N := (if index <? ingress then index else index + 1)%N.
(** tinynf/main.c 28-50: the lengths given to the outputs of the agent; 0 is "don't
    send". [None] is a write outside the array of [n - 1] lengths. *)
Definition tn_transmit (ingress device len : N) (out : list N) : option (list N) :=
  let i := N.to_nat (index_from_device ingress device) in
  if i <? length out then Some (set_nth out i len) else None.
Definition tn_flood (n : nat) (len : N) : list N := repeat len (n - 1).
Definition tn_flood_except (n : nat) (ingress : N) (disabled : N -> bool) (len : N) : list N :=
  map (fun i => if disabled (device_from_index ingress (N.of_nat i)) then 0%N else len) (seq 0 (n - 1)).
(** The devices the agent then sends to: output [i] is device [device_from_index i]. *)
Definition tn_sent (ingress : N) (out : list N) : list N :=
  map (fun i => device_from_index ingress (N.of_nat i))
      (filter (fun i => negb (nth i out 0%N =? 0)%N) (seq 0 (length out))).

Lemma device_index : forall ingress device, device <> ingress -> device_from_index ingress (index_from_device ingress device) = device.
Proof.
  intros i d H. unfold device_from_index, index_from_device. destruct (N.ltb_spec i d).
  - destruct (N.ltb_spec (d - 1) i); lia.
  - destruct (N.ltb_spec d i); lia.
Qed.

Lemma tn_sent_in : forall ingress out d, In d (tn_sent ingress out) <->
  exists i, i < length out /\ nth i out 0%N <> 0%N /\ d = device_from_index ingress (N.of_nat i).
Proof.
  intros. unfold tn_sent. rewrite in_map_iff. split.
  - intros (i & <- & Hin). apply filter_In in Hin as [Hi Hn]. apply in_seq in Hi. apply negb_true_iff, N.eqb_neq in Hn. exists i. split; [lia|auto].
  - intros (i & Hi & Hn & ->). exists i. split; [reflexivity|]. apply filter_In. split; [apply in_seq; lia|]. apply negb_true_iff, N.eqb_neq. exact Hn.
Qed.

Lemma tn_transmit_spec : forall n ingress device len, (ingress < N.of_nat n)%N -> (device < N.of_nat n)%N -> device <> ingress -> len <> 0%N ->
  exists out, tn_transmit ingress device len (repeat 0%N (n - 1)) = Some out /\ forall d, In d (tn_sent ingress out) <-> d = device.
Proof.
  intros n ingress device len Hi Hd Hne Hl. unfold tn_transmit. rewrite repeat_length.
  assert (B : N.to_nat (index_from_device ingress device) < n - 1).
  { unfold index_from_device. destruct (N.ltb_spec ingress device); lia. }
  rewrite (proj2 (Nat.ltb_lt _ _) B). eexists. split; [reflexivity|]. intros d. rewrite tn_sent_in, set_nth_length, repeat_length.
  pose proof (device_index _ _ Hne) as DI. set (k := index_from_device ingress device) in *. split.
  - intros (i & Hi' & Hn & ->). rewrite set_nth_nth in Hn by (rewrite repeat_length; exact B).
    destruct (Nat.eqb_spec i (N.to_nat k)) as [->|]; [rewrite N2Nat.id; exact DI|]. rewrite nth_repeat in Hn. congruence.
  - intros ->. exists (N.to_nat k). split; [exact B|]. rewrite set_nth_nth, Nat.eqb_refl by (rewrite repeat_length; exact B).
    rewrite N2Nat.id. auto.
Qed.

Lemma device_from_index_range : forall n ingress d, (ingress < N.of_nat n)%N ->
  (exists i, i < n - 1 /\ d = device_from_index ingress (N.of_nat i)) <-> (d < N.of_nat n)%N /\ d <> ingress.
Proof.
  intros n ingress d Hi. split.
  - intros (i & Hlt & ->). unfold device_from_index. destruct (N.ltb_spec (N.of_nat i) ingress); lia.
  - intros [H1 H2]. exists (N.to_nat (index_from_device ingress d)). rewrite N2Nat.id. split; [|symmetry; apply device_index; exact H2].
    unfold index_from_device. destruct (N.ltb_spec ingress d); lia.
Qed.

Lemma net_flood_in : forall n ingress d, In d (net_flood n ingress) <-> (d < N.of_nat n)%N /\ d <> ingress.
Proof.
  intros. unfold net_flood. rewrite filter_In, in_map_iff, negb_true_iff, N.eqb_neq. split.
  - intros [(i & <- & Hi) H]. apply in_seq in Hi. split; [lia|exact H].
  - intros [H1 H2]. split; [|exact H2]. exists (N.to_nat d). split; [lia|]. apply in_seq. lia.
Qed.
Lemma net_flood_except_in : forall n ingress dis d,
  In d (net_flood_except n ingress dis) <-> (d < N.of_nat n)%N /\ d <> ingress /\ dis d = false.
Proof.
  intros. unfold net_flood_except. rewrite filter_In, in_map_iff, andb_true_iff, !negb_true_iff, N.eqb_neq. split.
  - intros [(i & <- & Hi) H]. apply in_seq in Hi. split; [lia|exact H].
  - intros [H1 H2]. split; [|exact H2]. exists (N.to_nat d). split; [lia|]. apply in_seq. lia.
Qed.

Lemma nth_map_seq : forall (f : nat -> N) m i, i < m -> nth i (map f (seq 0 m)) 0%N = f i.
Proof.
  intros f m i H. rewrite (nth_indep _ 0%N (f 0)) by (rewrite map_length, seq_length; exact H).
  rewrite map_nth, seq_nth by exact H. reflexivity.
Qed.

(** Both drivers send to the same devices. *)
Lemma drivers_flood : forall n ingress len d, (ingress < N.of_nat n)%N -> len <> 0%N ->
  In d (tn_sent ingress (tn_flood n len)) <-> In d (net_flood n ingress).
Proof.
  intros n ingress len d Hi Hl. rewrite tn_sent_in, net_flood_in, <- device_from_index_range by exact Hi.
  unfold tn_flood. rewrite repeat_length. split.
  - intros (i & A & _ & B). eauto.
  - intros (i & A & B). exists i. split; [exact A|]. split; [|exact B].
    rewrite (nth_indep _ 0%N len) by (rewrite repeat_length; exact A). rewrite nth_repeat. exact Hl.
Qed.
Lemma drivers_flood_except : forall n ingress dis len d, (ingress < N.of_nat n)%N -> len <> 0%N ->
  In d (tn_sent ingress (tn_flood_except n ingress dis len)) <-> In d (net_flood_except n ingress dis).
Proof.
  intros n ingress dis len d Hi Hl. rewrite tn_sent_in, net_flood_except_in.
  unfold tn_flood_except. rewrite map_length, seq_length.
  assert (E : forall i, i < n - 1 -> nth i (map (fun i => if dis (device_from_index ingress (N.of_nat i)) then 0%N else len) (seq 0 (n - 1))) 0%N
     = if dis (device_from_index ingress (N.of_nat i)) then 0%N else len).
  { intros i H. apply (nth_map_seq (fun i => if dis (device_from_index ingress (N.of_nat i)) then 0%N else len)); exact H. }
  split.
  - intros (i & A & B & ->). rewrite E in B by exact A. destruct (proj1 (device_from_index_range n ingress _ Hi) (ex_intro _ i (conj A eq_refl))) as [C D].
    split; [exact C|]. split; [exact D|]. destruct (dis (device_from_index ingress (N.of_nat i))); [congruence|reflexivity].
  - intros (A & B & C). destruct (proj2 (device_from_index_range n ingress d Hi) (conj A B)) as (i & D & ->).
    exists i. split; [exact D|]. split; [|reflexivity]. rewrite E, C by exact D. exact Hl.
Qed.

(** ** The spanning tree, nf/bridge/spanning_tree.h *)
Definition ld64 (d : data) (o : N) : N := (ld32 d o + 2 ^ 32 * ld32 d (o + 4))%N.
Record stp := mkStp {
  last_update : N; self_id : N; root : N; root_cost : N; root_port : N;
  disabled : list bool; update_time : N }.
Definition LINK_COST : N := 10.

(** 33-41; memory is zero-filled. *)
Definition stp_init (n : nat) (self_bid update_time : N) : stp :=
  mkStp 0 self_bid self_bid 0 0 (repeat false n) update_time.

(** struct bpdu_packet, 27-31, after the Ethernet header. *)
Definition bpdu := (N * N * N)%type.
Definition bpdu_root (d : data) : N := ld64 d 14.
Definition bpdu_cost (d : data) : N := ld32 d 22.
(** 01:80:C2:00:00:00, first byte in the low bits. *)
Definition STP_ADDR : N := (1 + 256 * 128 + 65536 * 194)%N.

(** 43-99: the devices sent to and the BPDU sent, if the frame was for the spanning
    tree. *)
Definition stp_handle (n : nat) (s : stp) (r : rpkt) : option (list N * option bpdu) * stp :=
  if (((last_update s + update_time s) mod 2 ^ 64) <? r_time r)%N then
    (Some (net_flood n (r_device r), Some (root s, root_cost s, self_id s)),
     mkStp (r_time r) (self_id s) (root s) (root_cost s) (root_port s) (disabled s) (update_time s))
  else if negb (ld48 (r_data r) 0 =? STP_ADDR)%N then (None, s)
  else
    let d := r_data r in
    let cost := ((bpdu_cost d + LINK_COST) mod 2 ^ 32)%N in
    if (root s <? bpdu_root d)%N then
      (Some ([], None),
       mkStp (last_update s) (self_id s) (root s) (root_cost s) (root_port s)
             (set_nth (disabled s) (N.to_nat (r_device r)) true) (update_time s))
    else
      let '(updated, rt, rc, rp) :=
        if (bpdu_root d <? root s)%N then (true, bpdu_root d, cost, r_device r)
        else if (bpdu_root d =? root s)%N && (cost <? root_cost s)%N then (true, root s, cost, r_device r)
        else if (bpdu_root d =? root s)%N && (cost =? root_cost s)%N && (r_device r <? root_port s)%N then (true, root s, root_cost s, r_device r)
        else (false, root s, root_cost s, root_port s) in
      if updated then
        (Some (net_flood n (r_device r), Some (rt, rc, self_id s)),
         mkStp (last_update s) (self_id s) rt rc rp (set_nth (disabled s) (N.to_nat rp) false) (update_time s))
      else (Some ([], None), s).

(** ** The bridge, nf/bridge/bridge.c *)
Record bridge := mkBr { btab : table; bdevs : list N; bstp : stp }.
(** sizeof(struct net_ether_addr). *)
Definition MAC_SIZE : nat := 6.
Definition mac (a : N) : bytes := le 6 a.
Definition src_mac (r : rpkt) : N := ld48 (r_data r) 6.
Definition dst_mac (r : rpkt) : N := ld48 (r_data r) 0.
Local Opaque le.

Section Bridge.
Variable hash : bytes -> N.
(** [loc] is where the address being looked up is: the frame's source, then its
    destination. *)
Variables base loc : N.
Variable n : nat.
Variable cap : nat.
Variable exp : N.
Notation tlearn' := (tlearn hash MAC_SIZE base loc).
Notation tfind' := (tfind hash MAC_SIZE base loc).

(** bridge.c 15-36, once the configuration is read. *)
Definition br_init (self_bid stp_update_time : N) : option bridge :=
  if n <? 2 then None
  else Some (mkBr (talloc MAC_SIZE cap exp) (repeat 0%N cap) (stp_init n self_bid stp_update_time)).

Definition is_disabled (s : stp) (d : N) : bool := nth (N.to_nat d) (disabled s) false.

(** bridge.c 49-65. *)
Definition br_learn (b : bridge) (r : rpkt) : bridge :=
  if negb (N.odd (src_mac r)) then
    match tlearn' (btab b) (r_time r) (mac (src_mac r)) with
    | (Some index, tb') => mkBr tb' (set_nth (bdevs b) index (r_device r)) (bstp b)
    | (None, tb') => mkBr tb' (bdevs b) (bstp b)
    end
  else b.
(** bridge.c 67-73. *)
Definition br_forward (b : bridge) (r : rpkt) : list N :=
  match tfind' (btab b) (mac (dst_mac r)) with
  | Some index =>
      let d := nth index (bdevs b) 0%N in
      if negb (d =? r_device r)%N then [d] else []
  | None => net_flood_except n (r_device r) (is_disabled (bstp b))
  end.
(** bridge.c 38-74: the devices the frame is sent to. *)
Definition br_handle (b : bridge) (r : rpkt) : list N * bridge :=
  match stp_handle n (bstp b) r with
  | (Some (ds, _), s') => (ds, mkBr (btab b) (bdevs b) s')
  | (None, s') =>
      let b1 := br_learn (mkBr (btab b) (bdevs b) s') r in
      (br_forward b1 r, b1)
  end.

(** ** Specification: what the bridge should know *)
Definition frame_ok (r : rpkt) : Prop := (r_device r < N.of_nat n)%N /\ (r_time r < TIME_MAX)%N /\ data_ok (r_data r).
(** A frame, whether it was for the spanning tree, and where it was sent. *)
Record bevent := mkEv { ev_frame : rpkt; ev_stp : bool; ev_sent : list N }.
(** The event tells where an address is. *)
Definition tells (e : bevent) : bool := negb (ev_stp e) && negb (N.odd (src_mac (ev_frame e))).
(** Addresses learned, with the time they were last seen, through a history (latest
    first). *)
Fixpoint learned (h : list bevent) : list (bytes * N) :=
  match h with
  | [] => []
  | e :: h' => if tells e then kuse exp cap (mac (src_mac (ev_frame e))) (r_time (ev_frame e)) (learned h') else learned h'
  end.
(** The device an address was last seen on. *)
Fixpoint seen_on (a : N) (h : list bevent) : option N :=
  match h with
  | [] => None
  | e :: h' => if tells e && (src_mac (ev_frame e) =? a)%N then Some (r_device (ev_frame e)) else seen_on a h'
  end.
Definition knows (a T : N) (h : list bevent) : bool := khas (mac a) (filter (kalive exp T) (learned h)).

Inductive br_hist (self_bid upd : N) : list bevent -> bridge -> Prop :=
| bh_nil : forall b, br_init self_bid upd = Some b -> br_hist self_bid upd [] b
| bh_cons : forall h b r out b', br_hist self_bid upd h b -> frame_ok r -> br_handle b r = (out, b') ->
    br_hist self_bid upd (mkEv r (match fst (stp_handle n (bstp b) r) with Some _ => true | None => false end) out :: h) b'.

Fixpoint in_order (T : N) (h : list bevent) : Prop :=
  match h with [] => True | e :: h' => (r_time (ev_frame e) <= T)%N /\ in_order (r_time (ev_frame e)) h' end.

(** ** Never back where it came from *)
Lemma stp_not_back : forall s r ds o s', stp_handle n s r = (Some (ds, o), s') -> ~ In (r_device r) ds.
Proof.
  intros s r ds o s' E. unfold stp_handle in E.
  assert (F : ~ In (r_device r) (net_flood n (r_device r))) by (rewrite net_flood_in; tauto).
  repeat match type of E with context [if ?c then _ else _] => destruct c end;
    (injection E as <- _ _ || discriminate); auto.
Qed.
Theorem br_not_back : forall b r, ~ In (r_device r) (fst (br_handle b r)).
Proof.
  intros b r. unfold br_handle. destruct (stp_handle n (bstp b) r) as [[[ds o]|] s'] eqn:E; cbn [fst].
  - eapply stp_not_back; eauto.
  - unfold br_forward. destruct (tfind' _ _) as [i|].
    + destruct (N.eqb_spec (nth i (bdevs (br_learn (mkBr (btab b) (bdevs b) s') r)) 0%N) (r_device r)) as [Q|Q]; cbn; [tauto|].
      intros [H|[]]. auto.
    + rewrite net_flood_except_in. tauto.
Qed.

(** ** What the table knows *)
Hypothesis L : layout_ok MAC_SIZE base loc cap.
Hypothesis HC : (N.of_nat cap <= 2 ^ 63)%N.

Lemma mac_inj : forall a b, (a < 2 ^ 48)%N -> (b < 2 ^ 48)%N -> mac a = mac b -> a = b.
Proof. intros a b Ha Hb. apply le_inj; assumption. Qed.
Lemma ld48_lt : forall d o, data_ok d -> (ld48 d o < 2 ^ 48)%N.
Proof.
  intros d o H. unfold ld48. pose proof (ld32_lt d o H). pose proof (ld16_lt d (o + 4) H).
  change (2 ^ 48)%N with (2 ^ 32 * 2 ^ 16)%N. set (x := (2 ^ 32)%N) in *. set (y := (2 ^ 16)%N) in *. nia.
Qed.

Record br_inv (T : N) (b : bridge) (h : list bevent) : Prop := mkBI {
  bi_rel : ts_rel hash MAC_SIZE base loc cap exp T (btab b) (learned h);
  bi_len : length (bdevs b) = cap;
  bi_devs : forall i k t, view (btab b) i = Some (k, t) ->
    exists a e, (a < 2 ^ 48)%N /\ N.odd a = false /\ k = mac a /\ seen_on a h = Some (nth i (bdevs b) 0%N) /\
      In e h /\ tells e = true /\ src_mac (ev_frame e) = a /\ r_time (ev_frame e) = t }.

Lemma br_learn_inv : forall T b h r out, br_inv T b h -> (T <= r_time r)%N -> frame_ok r ->
  br_inv (r_time r) (br_learn b r) (mkEv r false out :: h).
Proof.
  intros T b h r out I HT (Hd & Ht & Hdata). pose proof (ld48_lt (r_data r) 6 Hdata) as Ha. fold (src_mac r) in Ha.
  unfold br_learn. pose proof (bi_rel _ _ _ I) as R.
  destruct (N.odd (src_mac r)) eqn:Od; cbn [negb].
  { constructor.
    - cbn [learned]. unfold tells. cbn [ev_stp ev_frame]. rewrite Od. cbn. eapply ts_later; eauto.
    - apply (bi_len _ _ _ I).
    - intros i k t Hv. destruct (bi_devs _ _ _ I i k t Hv) as (a & e & Q1 & Q2 & Q3 & Q4 & Q5 & Q6 & Q7). exists a, e.
      cbn [seen_on]. unfold tells at 1. cbn [ev_stp ev_frame]. rewrite Od. cbn [andb negb]. destruct Q7 as [Q7 Q8]. repeat split; auto. right. exact Q5. }
  pose proof (ts_learn hash MAC_SIZE base loc cap exp L T (btab b) (learned h) (r_time r) (mac (src_mac r)) R HT Ht (le_length _ _)) as TL.
  pose proof (learn_spec hash MAC_SIZE base loc cap exp L (btab b) (r_time r) (mac (src_mac r)) (ts_ok _ _ _ _ _ _ _ _ _ R) (le_length _ _) Ht) as LS.
  assert (Tl : forall o, tells (mkEv r false o) = true) by (intros; unfold tells; cbn; rewrite Od; reflexivity).
  destruct (tlearn' (btab b) (r_time r) (mac (src_mac r))) as [[i|] tb'].
  - destruct TL as [R' _]. destruct LS as (_ & Hi & Hdj & V). constructor; cbn [btab bdevs].
    + cbn [learned]. rewrite Tl. exact R'.
    + rewrite set_nth_length. apply (bi_len _ _ _ I).
    + intros j k t Hv. rewrite V in Hv. rewrite set_nth_nth by (rewrite (bi_len _ _ _ I); exact Hi).
      destruct (Nat.eqb_spec j i) as [E|E].
      * apply some_pair in Hv as [<- <-]. exists (src_mac r), (mkEv r false out). cbn [seen_on ev_frame]. rewrite Tl, N.eqb_refl. cbn.
        repeat split; auto.
      * destruct (bi_devs _ _ _ I j k t Hv) as (a & e & Q1 & Q2 & Q3 & Q4 & Q5 & Q6 & Q7 & Q8). exists a, e.
        cbn [seen_on ev_frame]. rewrite Tl. cbn [andb]. destruct (N.eqb_spec (src_mac r) a) as [Ea|Ea]; [|repeat split; auto; right; exact Q5].
        exfalso. rewrite Q3, <- Ea in Hv. destruct Hdj as [[t' Hdj]|[Hdj _]]; [|exact (Hdj j t Hv)].
        apply E. eapply view_inj; [exact L|exact (ts_ok _ _ _ _ _ _ _ _ _ R)|exact Hv|exact Hdj].
  - destruct TL as [R' _]. destruct LS as (_ & _ & Hn & V). constructor; cbn [btab bdevs].
    + cbn [learned]. rewrite Tl. exact R'.
    + apply (bi_len _ _ _ I).
    + intros j k t Hv. rewrite V in Hv. destruct (bi_devs _ _ _ I j k t Hv) as (a & e & Q1 & Q2 & Q3 & Q4 & Q5 & Q6 & Q7 & Q8). exists a, e.
      cbn [seen_on ev_frame]. rewrite Tl. cbn [andb]. destruct (N.eqb_spec (src_mac r) a) as [Ea|Ea]; [|repeat split; auto; right; exact Q5].
      exfalso. rewrite Q3, <- Ea in Hv. exact (Hn j t Hv).
Qed.

Lemma br_hist_inv : forall self_bid upd h b, br_hist self_bid upd h b -> forall T, in_order T h -> br_inv T b h.
Proof.
  intros self_bid upd h b H. induction H as [b E|h b r out b' H IH Hr E]; intros T HT.
  - unfold br_init in E. destruct (n <? 2); [discriminate|]. injection E as <-. constructor; cbn [btab bdevs].
    + eapply ts_later; [|apply ts_init; [exact L|exact HC]]. lia.
    + apply repeat_length.
    + intros i k t Hv. rewrite talloc_view in Hv. discriminate.
  - cbn [in_order ev_frame] in HT. destruct HT as [HT Hin]. specialize (IH _ Hin). unfold br_handle in E.
    destruct (stp_handle n (bstp b) r) as [[[ds o]|] s'] eqn:Es; injection E as <- <-; cbn [fst].
    + destruct IH as [A B C]. constructor; cbn [btab bdevs].
      * eapply ts_later; [exact HT|]. exact A.
      * exact B.
      * intros i k t Hv. destruct (C i k t Hv) as (a & e & Q1 & Q2 & Q3 & Q4 & Q5 & Q6 & Q7 & Q8). exists a, e. repeat split; auto. right. exact Q5.
    + assert (I1 : br_inv (r_time r) (mkBr (btab b) (bdevs b) s') h) by (destruct IH; constructor; assumption).
      pose proof (br_learn_inv (r_time r) _ h r (br_forward (br_learn (mkBr (btab b) (bdevs b) s') r) r) I1 (N.le_refl _) Hr) as I2.
      destruct I2 as [A B C]. constructor; [eapply ts_later; eauto|exact B|exact C].
Qed.

(** Where a frame that is not for the spanning tree goes. *)
Theorem br_destination : forall self_bid upd h b r out b', br_hist self_bid upd h b -> frame_ok r -> in_order (r_time r) h ->
  br_handle b r = (out, b') -> fst (stp_handle n (bstp b) r) = None ->
  let h' := mkEv r false out :: h in
  if knows (dst_mac r) (r_time r) h'
  then exists d, seen_on (dst_mac r) h' = Some d /\ out = (if (d =? r_device r)%N then [] else [d])
  else out = net_flood_except n (r_device r) (is_disabled (bstp b)) \/
       exists e, In e h /\ tells e = true /\ src_mac (ev_frame e) = dst_mac r /\ (r_time (ev_frame e) + exp < r_time r)%N.
Proof.
  intros self_bid upd h b r out b' Hh Hr HT E Es. pose proof (br_hist_inv _ _ _ _ Hh _ HT) as I.
  unfold br_handle in E. destruct (stp_handle n (bstp b) r) as [[[ds o]|] s'] eqn:Est; [discriminate|]. clear Es.
  assert (s' = bstp b) as ->.
  { unfold stp_handle in Est. repeat match type of Est with context [if ?c then _ else _] => destruct c end; congruence. }
  replace (mkBr (btab b) (bdevs b) (bstp b)) with b in E by (destruct b; reflexivity).
  assert (Eout : out = br_forward (br_learn b r) r) by congruence. clear E.
  assert (Ebs : bstp (br_learn b r) = bstp b).
  { unfold br_learn. destruct (negb _); [|reflexivity]. destruct (tlearn' _ _ _) as [[?|] ?]; reflexivity. }
  pose proof (br_learn_inv _ b h r out I (N.le_refl _) Hr) as I1. cbv zeta. set (h' := mkEv r false out :: h) in *.
  set (b1 := br_learn b r) in *. destruct Hr as (Hd & Ht & Hdata). pose proof (ld48_lt (r_data r) 0 Hdata) as Ha. fold (dst_mac r) in Ha.
  pose proof (bi_rel _ _ _ I1) as R. pose proof (ts_live _ _ _ _ _ _ _ _ _ R) as RL.
  pose proof (find_spec hash MAC_SIZE base loc cap exp L (btab b1) (mac (dst_mac r)) (ts_ok _ _ _ _ _ _ _ _ _ R) (le_length _ _)) as FS.
  unfold knows. destruct (khas (mac (dst_mac r)) (filter (kalive exp (r_time r)) (learned h'))) eqn:K.
  - destruct (ts_found hash MAC_SIZE base loc cap exp L _ _ _ (mac (dst_mac r)) RL (le_length _ _)) as (i & t & F & Hv & _); [|exact K|].
    { intros e He. apply filter_In in He. tauto. }
    destruct (bi_devs _ _ _ I1 i _ t Hv) as (a & e & Q1 & Q2 & Q3 & Q4 & _). apply mac_inj in Q3; [|assumption|assumption]. subst a.
    exists (nth i (bdevs b1) 0%N). split; [exact Q4|]. rewrite Eout. unfold br_forward. rewrite F.
    destruct (nth i (bdevs b1) 0%N =? r_device r)%N; reflexivity.
  - unfold br_forward in Eout. rewrite Ebs in Eout. destruct (tfind' (btab b1) (mac (dst_mac r))) as [i|]; [|left; exact Eout].
    right. destruct (proj1 (FS i) eq_refl) as [t Hv]. destruct (bi_devs _ _ _ I1 i _ t Hv) as (a & e & Q1 & Q2 & Q3 & Q4 & Q5 & Q6 & Q7 & Q8).
    apply mac_inj in Q3; [|assumption|assumption]. subst a.
    assert (Hy : ~ (r_time r <= t + exp)%N).
    { intros Hy. assert (khas (mac (dst_mac r)) (filter (kalive exp (r_time r)) (learned h')) = true); [|congruence].
      apply khas_In. exists t. apply (ts_same _ _ _ _ _ _ _ _ _ RL); [exact Hy|]. eauto. }
    destruct Q5 as [Q5|Q5]; [exfalso; subst e; cbn in Q8; lia|]. exists e. repeat split; auto. lia.
Qed.

(** Group addresses are always flooded. *)
Theorem br_group : forall self_bid upd h b r out b', br_hist self_bid upd h b -> frame_ok r -> in_order (r_time r) h ->
  br_handle b r = (out, b') -> fst (stp_handle n (bstp b) r) = None -> N.odd (dst_mac r) = true ->
  out = net_flood_except n (r_device r) (is_disabled (bstp b)).
Proof.
  intros self_bid upd h b r out b' Hh Hr HT E Es Hodd.
  pose proof (br_destination self_bid upd h b r out b' Hh Hr HT E Es) as D. cbv zeta in D.
  destruct (knows (dst_mac r) (r_time r) (mkEv r false out :: h)).
  - destruct D as (d & S & _). exfalso. clear -S Hodd. revert S. generalize (mkEv r false out :: h). intros h' S.
    induction h' as [|e h' IH]; [discriminate|]. cbn in S. destruct (tells e) eqn:T; cbn in S; [|auto].
    destruct (N.eqb_spec (src_mac (ev_frame e)) (dst_mac r)) as [Q|Q]; [|auto].
    unfold tells in T. apply andb_true_iff in T as [_ T]. rewrite Q, Hodd in T. discriminate.
  - destruct D as [D|(e & _ & T & Q & _)]; [exact D|]. exfalso.
    unfold tells in T. apply andb_true_iff in T as [_ T]. rewrite Q, Hodd in T. discriminate.
Qed.

End Bridge.

(** ** The root *)
(** BPDUs read: those for the spanning tree's address that do not arrive when an update
    is due. *)
Definition due (s : stp) (r : rpkt) : bool := (((last_update s + update_time s) mod 2 ^ 64) <? r_time r)%N.
Definition told (s : stp) (r : rpkt) : option N :=
  if due s r then None else if (ld48 (r_data r) 0 =? STP_ADDR)%N then Some (bpdu_root (r_data r)) else None.
Lemma stp_root : forall n s r o s', stp_handle n s r = (o, s') ->
  root s' = match told s r with Some x => N.min (root s) x | None => root s end /\ self_id s' = self_id s.
Proof.
  intros n s r o s' E. unfold stp_handle in E. unfold told, due.
  destruct (_ <? r_time r)%N; [injection E as _ <-; auto|].
  destruct (ld48 (r_data r) 0 =? STP_ADDR)%N; cbn [negb] in E; [|injection E as _ <-; auto].
  destruct (N.ltb_spec (root s) (bpdu_root (r_data r))); [injection E as _ <-; cbn; lia|].
  destruct (N.ltb_spec (bpdu_root (r_data r)) (root s)).
  - injection E as _ <-. cbn. lia.
  - repeat match type of E with context [if ?c then _ else _] => destruct c end; injection E as _ <-; cbn; lia.
Qed.
