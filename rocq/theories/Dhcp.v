(** * The DHCP server (nf/dhcp_ipv4)

    The configuration of its address pool, and its lease functions over the table of
    Table.v (the same array, hash map and index pool as the firewall's). *)

From Coq Require Import NArith List Bool Lia Arith.
From Verif Require Import IndexPool HashMap Table Firewall Packet.
Import ListNotations.
Open Scope N_scope.

(** ** nf_init *)

(** The configuration, dhcp.c 116-134. *)
Record dcfg := mkD { d_cap : N; d_srv : N; d_mask : N; d_gw : N; d_dns : N; d_exp : N }.
(** os_config_get_u32 and os_config_get_size only return values in range (C45). *)
Definition dcfg_ok (c : dcfg) : Prop :=
  d_cap c < 2 ^ 64 /\ d_srv c < 2 ^ 32 /\ d_mask c < 2 ^ 32 /\ d_gw c < 2 ^ 32 /\ d_dns c < 2 ^ 32 /\ d_exp c < 2 ^ 32.

Section Init.
Variable c : dcfg.
(** dhcp.c 143: size_t num_ipv4_addr_avail = MAX_MASK - subnet_mask, of 32-bit operands. *)
Definition avail4 : N := 2 ^ 32 - 1 - d_mask c.
(** dhcp.c 146: the subtraction is on size_t. *)
Definition capacity : N :=
  let a := (avail4 + 2 ^ 64 - 4) mod 2 ^ 64 in if a <? d_cap c then a else d_cap c.
(** dhcp.c 150. *)
Definition subnet : N := N.land (d_srv c) (d_mask c).
(** dhcp.c 159. *)
Definition usable (ip : N) : bool := negb (ip =? d_srv c) && negb (ip =? d_gw c) && negb (ip =? d_dns c).
(** dhcp.c 158-166. The counter has 32 bits; the bound is a size_t. [None] is running out
    of fuel. *)
Fixpoint fill (fuel cap : nat) (next : N) (index : nat) (arr : list N) : option (list N) :=
  match fuel with
  | O => None
  | S fuel =>
      if next <? subnet + avail4 then
        let '(arr, index) := if usable next then (set_nth arr index next, S index) else (arr, index) in
        if Nat.eqb index cap then Some arr else fill fuel cap ((next + 1) mod 2 ^ 32) index arr
      else Some arr
  end.
(** dhcp.c 147-166: the addresses that index 0, 1, ... stand for; the array starts zero-filled.
    Fails if the capacity is 0. *)
Definition dhcp_init : option (list N) :=
  if capacity <=? 0 then None
  else fill (S (N.to_nat avail4)) (N.to_nat capacity) ((subnet + 1) mod 2 ^ 32) 0 (repeat 0 (N.to_nat capacity)).
End Init.

(** ** Messages *)

(** struct net_dhcp_header (dhcp.h 43-60), the fields used; the options are those its last
    field points to. *)
Record dmsg := mkM { m_op : N; m_yaddr : N; m_opts : bytes }.

(** Reading and writing bytes of the options; [None] is an access out of them. *)
Definition getb (o n : nat) (l : bytes) : option bytes :=
  if Nat.leb (o + n) (length l) then Some (firstn n (skipn o l)) else None.
Definition putb (o : nat) (b : bytes) (l : bytes) : option bytes :=
  if Nat.leb (o + length b) (length l) then Some (firstn o l ++ b ++ skipn (o + length b) l) else None.

(** Offsets of struct net_dhcp_discover_option and net_dhcp_request_option (dhcp.h 107-140),
    both packed and alike. *)
Definition o_type : nat := 2.
Definition o_client : nat := 6.
Definition o_ip : nat := 14.

(** set_dhcp_offer_option / set_dhcp_ack_option (dhcp.h 237-272) and the stores after them
    (dhcp.c 37-41, 104-108), at the offsets of struct net_dhcp_response_option (dhcp.h
    69-89); the order of the stores does not matter. *)
Definition respond (c : dcfg) (mtype : N) (opts : bytes) : option bytes :=
  match putb o_type [mtype] opts with
  | None => None
  | Some l => putb 3 ([54; 4] ++ le 4 (d_srv c) ++ [1; 4] ++ le 4 (d_mask c) ++ [51; 4] ++ le 4 (d_exp c)
                      ++ [3; 4] ++ le 4 (d_gw c) ++ [6; 4] ++ le 4 (d_dns c) ++ [255])%list l
  end.

Inductive dout := Broken | Silent | Reply (m : dmsg).

Section Lease.
Variable hash : bytes -> N.
Variables base loc : N.
Variable c : dcfg.
Variable ips : list N.
Notation ETH := 6%nat.

(** try_create_dhcp_discover_message, dhcp.c 79-110. *)
Definition discover (tb : table) (time : N) (m : dmsg) : dout * table :=
  match getb o_client ETH (m_opts m) with
  | None => (Broken, tb)
  | Some client =>
      match tlearn hash ETH base loc tb time client with
      | (None, tb') => (Silent, tb')
      | (Some index, tb') =>
          match respond c 2 (m_opts m) with
          | None => (Broken, tb')
          | Some o => (Reply (mkM 2 (nth index ips 0) o), tb')
          end
      end
  end.

(** is_dhcp_request_message_accepted, dhcp.c 53-69, with create_dhcp_ack_message (31-42) and
    set_dhcp_nack_option (dhcp.h 274-278). *)
Definition request (tb : table) (time : N) (m : dmsg) : dout * table :=
  match getb o_client ETH (m_opts m) with
  | None => (Broken, tb)
  | Some client =>
      match tfind hash ETH base loc tb client with
      | None => (Silent, tb)
      | Some index =>
          match getb o_ip 4 (m_opts m) with
          | None => (Broken, tb)
          | Some ip =>
              if beqb ip (le 4 (nth index ips 0)) then
                let tb' := mkTab (keys tb) (tmap tb) (pool_refresh (tpool tb) time index) in
                match respond c 5 (m_opts m) with
                | None => (Broken, tb')
                | Some o => (Reply (mkM 2 (nth index ips 0) o), tb')
                end
              else
                match putb o_type [6] (m_opts m) with
                | None => (Broken, tb)
                | Some o => match putb 3 [255] o with
                            | None => (Broken, tb)
                            | Some o => (Reply (mkM (m_op m) (m_yaddr m) o), tb)
                            end
                end
          end
      end
  end.

(** A history of calls. *)
Inductive dcall := CDiscover (time : N) (m : dmsg) | CRequest (time : N) (m : dmsg).
Definition c_time (x : dcall) : N := match x with CDiscover t _ | CRequest t _ => t end.
Definition c_msg (x : dcall) : dmsg := match x with CDiscover _ m | CRequest _ m => m end.
Definition dcall_step (tb : table) (x : dcall) : dout * table :=
  match x with CDiscover t m => discover tb t m | CRequest t m => request tb t m end.
Fixpoint drun (tb : table) (xs : list dcall) : list (dcall * dout) * table :=
  match xs with
  | [] => ([], tb)
  | x :: xs => let (o, tb1) := dcall_step tb x in let (h, tb2) := drun tb1 xs in ((x, o) :: h, tb2)
  end.
End Lease.

(** nf_handle, dhcp.c 170-208: the headers are looked at; the rest is commented out. What it
    transmits, in any state. *)
Definition net_get_dhcp (r : rpkt) : bool :=
  let d := r_data r in
  (* dhcp.h 193-205: the DHCP header is 8 bytes into the UDP header, the cookie 236 into it *)
  (d (IP + 9) =? 17) && (ld16 d (L4 + 2) =? 67) && (ld16 d L4 =? 68) && (ld32 d (L4 + 8 + 236) =? 1669485411 (* 0x63825363 *)).
Definition dhcp_handle (r : rpkt) : list (N * N) :=
  if negb (ld16 (r_data r) 12 =? 8) then []
  else if negb (net_get_dhcp r) then []
  else [].

(** ** Specification *)

(** The client a message is from, and the address a reply gives (an offer or an
    acknowledgement). *)
Definition client_of (m : dmsg) : option bytes := getb 6 6 (m_opts m).
Definition gives (o : dout) (ip : N) : Prop :=
  match o with Reply m => m_yaddr m = ip /\ (nth 2 (m_opts m) 0 = 2 \/ nth 2 (m_opts m) 0 = 5) | _ => False end.
Fixpoint in_order (T : N) (xs : list dcall) : Prop :=
  match xs with [] => True | x :: xs' => T <= c_time x /\ c_time x < TIME_MAX /\ in_order (c_time x) xs' end.

(** ** The address pool *)

Definition range (next : N) (n : nat) : list N := map (fun i => next + N.of_nat i) (seq 0 n).
Lemma range_S : forall next n, range next (S n) = next :: range (next + 1) n.
Proof.
  intros. unfold range. cbn [seq map]. f_equal; [lia|]. rewrite <- seq_shift, map_map. apply map_ext. intros. lia.
Qed.

Section Pool.
Variable c : dcfg.

Lemma set_nth_pre : forall (pre : list N) z v rest, set_nth (pre ++ z :: rest) (length pre) v = (pre ++ [v]) ++ rest.
Proof. induction pre as [|a pre IH]; intros; cbn [app length set_nth]; [reflexivity|]. f_equal. apply IH. Qed.

Lemma fill_eq : forall n next pre fuel cap, next + N.of_nat n = subnet c + avail4 c -> subnet c + avail4 c < 2 ^ 32 ->
  (n < fuel)%nat -> (length pre < cap)%nat ->
  fill c fuel cap next (length pre) (pre ++ repeat 0 (cap - length pre)) =
  let acc := (pre ++ filter (usable c) (range next n))%list in
  Some (firstn cap acc ++ repeat 0 (cap - length acc))%list.
Proof.
  induction n as [|n IH]; intros next pre fuel cap E LT HF HC; cbn zeta.
  - destruct fuel as [|fuel]; [lia|]. cbn [fill]. destruct (N.ltb_spec next (subnet c + avail4 c)); [lia|].
    cbn [range seq map filter]. rewrite app_nil_r. rewrite firstn_all2 by lia. reflexivity.
  - destruct fuel as [|fuel]; [lia|]. cbn [fill]. destruct (N.ltb_spec next (subnet c + avail4 c)); [|lia].
    rewrite range_S. cbn [filter]. rewrite (N.mod_small (next + 1)) by lia.
    replace (cap - length pre)%nat with (S (cap - length pre - 1)) by lia. cbn [repeat].
    destruct (usable c next) eqn:U.
    + rewrite set_nth_pre. replace (S (length pre)) with (length (pre ++ [next])) by (rewrite app_length; cbn [length]; lia).
      destruct (Nat.eqb_spec (length (pre ++ [next])) cap) as [Q|Q].
      * rewrite app_length in Q. cbn [length] in Q. replace (cap - length pre - 1)%nat with O by lia. cbn [repeat].
        replace (pre ++ next :: filter (usable c) (range (next + 1) n))%list with ((pre ++ [next]) ++ filter (usable c) (range (next + 1) n))%list by (rewrite <- app_assoc; reflexivity).
        rewrite firstn_app. replace (cap - length (pre ++ [next]))%nat with O by (rewrite app_length; cbn [length]; lia).
        rewrite (firstn_all2 (pre ++ [next])) by (rewrite app_length; cbn [length]; lia). cbn [firstn].
        replace (cap - length ((pre ++ [next]) ++ filter (usable c) (range (next + 1) n)))%nat with O by (rewrite !app_length; cbn [length]; lia). cbn [repeat]. rewrite !app_nil_r. reflexivity.
      * assert (length (pre ++ [next]) < cap)%nat by (rewrite app_length in *; cbn [length] in *; lia).
        replace (cap - length pre - 1)%nat with (cap - length (pre ++ [next]))%nat by (rewrite app_length; cbn [length]; lia).
        rewrite IH by lia. cbn zeta. rewrite <- app_assoc. reflexivity.
    + destruct (Nat.eqb_spec (length pre) cap); [lia|].
      change (0 :: repeat 0 (cap - length pre - 1)) with (repeat 0 (S (cap - length pre - 1))).
      replace (S (cap - length pre - 1)) with (cap - length pre)%nat by lia. rewrite IH by lia. reflexivity.
Qed.

Lemma disjoint_sum : d_srv c < 2 ^ 32 -> d_mask c < 2 ^ 32 -> subnet c + avail4 c < 2 ^ 32.
Proof.
  intros H1 H2. unfold subnet, avail4.
  assert (X : N.land (d_srv c) (d_mask c) <= d_mask c).
  { apply N.ldiff_le. apply N.bits_inj_0. intros i. rewrite N.ldiff_spec, N.land_spec.
    destruct (N.testbit (d_mask c) i); [rewrite andb_false_r|rewrite andb_false_r]; reflexivity. }
  change (2 ^ 32) with 4294967296 in *. lia.
Qed.

(** Taking values out of a list without duplicates. *)
Lemma filter_neq_len : forall x (l : list N), NoDup l -> (length l <= S (length (filter (fun y => negb (y =? x)%N) l)))%nat.
Proof.
  intros x l ND. induction l as [|a l IH]; cbn [filter length]; [lia|]. inversion ND as [|? ? N1 N2]; subst. specialize (IH N2).
  destruct (N.eqb_spec a x) as [->|]; cbn [negb length]; [|lia].
  assert (E : filter (fun y => negb (y =? x)) l = l); [|rewrite E; lia].
  clear - N1. induction l as [|b l IH]; [reflexivity|]. cbn [filter]. destruct (N.eqb_spec b x) as [->|]; [exfalso; apply N1; left; reflexivity|].
  cbn [negb]. f_equal. apply IH. intros H. apply N1. right. exact H.
Qed.
Lemma NoDup_range : forall next n, NoDup (range next n).
Proof. intros. unfold range. apply FinFun.Injective_map_NoDup; [intros i j H; lia|apply seq_NoDup]. Qed.
Lemma filter_and : forall A (f g : A -> bool) l, filter (fun x => f x && g x) l = filter g (filter f l).
Proof. intros. induction l as [|x l IH]; [reflexivity|]. cbn [filter]. destruct (f x); cbn [andb filter]; rewrite IH; reflexivity. Qed.
Lemma usable_len : forall l, NoDup l -> (length l <= 3 + length (filter (usable c) l))%nat.
Proof.
  intros l ND. unfold usable. rewrite !filter_and.
  pose proof (filter_neq_len (d_srv c) l ND) as A. set (l1 := filter _ l) in *.
  assert (N1 : NoDup l1) by (apply NoDup_filter; exact ND).
  pose proof (filter_neq_len (d_gw c) l1 N1) as B. set (l2 := filter _ l1) in *.
  assert (N2 : NoDup l2) by (apply NoDup_filter; exact N1).
  pose proof (filter_neq_len (d_dns c) l2 N2) as C. lia.
Qed.

Lemma dhcp_init_eq : dcfg_ok c -> 4 <= avail4 c -> capacity c <> 0 ->
  dhcp_init c = Some (firstn (N.to_nat (capacity c)) (filter (usable c) (range (subnet c + 1) (N.to_nat (avail4 c - 1))))) /\
  (N.to_nat (capacity c) <= length (filter (usable c) (range (subnet c + 1) (N.to_nat (avail4 c - 1)))))%nat.
Proof.
  intros (H0 & H1 & H2 & _) HA HC. pose proof (disjoint_sum H1 H2) as DS.
  assert (CL : capacity c <= avail4 c - 4).
  { unfold capacity. assert (avail4 c < 2 ^ 32) by lia. change (2 ^ 32) with 4294967296 in *.
    replace (avail4 c + 2 ^ 64 - 4) with (avail4 c - 4 + 1 * 2 ^ 64) by (change (2 ^ 64) with 18446744073709551616; lia).
    rewrite N.mod_add by discriminate. rewrite N.mod_small by (change (2 ^ 64) with 18446744073709551616; lia).
    destruct (N.ltb_spec (avail4 c - 4) (d_cap c)); lia. }
  set (cap := N.to_nat (capacity c)) in *.
  assert (LEN : (cap <= length (filter (usable c) (range (subnet c + 1) (N.to_nat (avail4 c - 1)))))%nat).
  { pose proof (usable_len _ (NoDup_range (subnet c + 1) (N.to_nat (avail4 c - 1)))) as X.
    unfold range at 1 in X. rewrite map_length, seq_length in X. unfold cap. lia. }
  split; [|exact LEN]. unfold dhcp_init. destruct (N.leb_spec (capacity c) 0); [lia|]. fold cap.
  rewrite N.mod_small by lia.
  pose proof (fill_eq (N.to_nat (avail4 c - 1)) (subnet c + 1) [] (S (N.to_nat (avail4 c))) cap) as F.
  cbn [length app] in F. rewrite Nat.sub_0_r in F. rewrite F by (unfold cap; lia). cbn zeta.
  replace (cap - _)%nat with O by lia. cbn [repeat]. rewrite app_nil_r. reflexivity.
Qed.

Lemma In_firstn : forall A n (l : list A) x, In x (firstn n l) -> In x l.
Proof. intros A n l x H. rewrite <- (firstn_skipn n l). apply in_or_app. auto. Qed.
Lemma NoDup_firstn : forall A n (l : list A), NoDup l -> NoDup (firstn n l).
Proof.
  intros A n l H. revert n. induction H as [|a l N1 N2 IH]; intros [|n]; cbn [firstn]; constructor; auto.
  intros Q. apply N1. eapply In_firstn. exact Q.
Qed.

(** The network part of the server's address, for a mask of 32 - k leading ones. *)
Lemma land_prefix : forall ip k, ip < 2 ^ 32 -> k <= 32 -> N.land ip (2 ^ 32 - 2 ^ k) = ip / 2 ^ k * 2 ^ k.
Proof.
  intros ip k H K. assert (E : 2 ^ 32 - 2 ^ k = N.shiftl (N.ones (32 - k)) k).
  { rewrite N.shiftl_mul_pow2, N.ones_equiv, N.pred_sub, N.mul_sub_distr_r, <- N.pow_add_r. replace (32 - k + k) with 32 by lia. lia. }
  rewrite E. rewrite <- N.shiftl_mul_pow2. apply N.bits_inj. intros i. rewrite N.land_spec.
  destruct (N.ltb_spec i k) as [L|L].
  - rewrite !N.shiftl_spec_low by assumption. apply andb_false_r.
  - rewrite !N.shiftl_spec_high' by assumption. rewrite N.div_pow2_bits. replace (i - k + k) with i by lia.
    destruct (N.ltb_spec (i - k) (32 - k)) as [M|M].
    + rewrite N.ones_spec_low by assumption. apply andb_true_r.
    + rewrite N.ones_spec_high by assumption. rewrite andb_false_r. symmetry. apply N.bits_above_log2.
      destruct (N.eq_dec ip 0) as [->|NZ]; [cbn; lia|]. apply N.log2_lt_pow2 in H; lia.
Qed.

Lemma pool_addresses : forall k, dcfg_ok c -> d_mask c = 2 ^ 32 - 2 ^ k -> 3 <= k -> k <= 32 -> 0 < d_cap c ->
  exists ips, dhcp_init c = Some ips /\ length ips = N.to_nat (capacity c) /\ capacity c <= d_cap c /\ NoDup ips /\
  forall ip, In ip ips -> ip / 2 ^ k = d_srv c / 2 ^ k /\ ip mod 2 ^ k <> 0 /\ ip mod 2 ^ k <> 2 ^ k - 1 /\
    ip <> d_srv c /\ ip <> d_gw c /\ ip <> d_dns c.
Proof.
  intros k OK HM K3 K32 HC. assert (P8 : 8 <= 2 ^ k) by (change 8 with (2 ^ 3); apply N.pow_le_mono_r; lia).
  assert (P32 : 2 ^ k <= 2 ^ 32) by (apply N.pow_le_mono_r; lia).
  assert (AV : avail4 c = 2 ^ k - 1) by (unfold avail4; rewrite HM; lia).
  assert (CP : capacity c <> 0 /\ capacity c <= d_cap c).
  { unfold capacity. rewrite AV. change (2 ^ 32) with 4294967296 in *.
    replace (2 ^ k - 1 + 2 ^ 64 - 4) with (2 ^ k - 5 + 1 * 2 ^ 64) by (change (2 ^ 64) with 18446744073709551616; lia).
    rewrite N.mod_add by discriminate. rewrite N.mod_small by (change (2 ^ 64) with 18446744073709551616; lia).
    destruct (N.ltb_spec (2 ^ k - 5) (d_cap c)); lia. }
  destruct CP as [CP CD]. destruct (dhcp_init_eq OK) as [E LEN]; [rewrite AV; lia|exact CP|].
  eexists. split; [exact E|]. split; [apply firstn_length_le; exact LEN|]. split; [exact CD|].
  split; [apply NoDup_firstn, NoDup_filter, NoDup_range|].
  intros ip Hip. apply In_firstn, filter_In in Hip as [R U]. unfold range in R. apply in_map_iff in R as (i & <- & Hi). apply in_seq in Hi.
  assert (SN : subnet c = d_srv c / 2 ^ k * 2 ^ k) by (unfold subnet; rewrite HM; apply land_prefix; [apply OK|exact K32]).
  assert (Hj : 1 + N.of_nat i < 2 ^ k - 1) by (rewrite AV in Hi; lia).
  replace (subnet c + 1 + N.of_nat i) with (1 + N.of_nat i + d_srv c / 2 ^ k * 2 ^ k) in * by (rewrite SN; lia).
  assert (NZ : 2 ^ k <> 0) by lia.
  rewrite N.div_add, N.mod_add, (N.div_small (1 + N.of_nat i)), (N.mod_small (1 + N.of_nat i)) by lia.
  unfold usable in U. apply andb_prop in U as [U U3]. apply andb_prop in U as [U1 U2].
  rewrite negb_true_iff in *. rewrite N.eqb_neq in *. repeat split; auto; lia.
Qed.
End Pool.

(** ** The leases *)

Lemma getb_length : forall o n l b, getb o n l = Some b -> length b = n.
Proof.
  intros o n l b H. unfold getb in H. destruct (Nat.leb_spec (o + n) (length l)) as [Q|Q]; [|discriminate].
  injection H as <-. apply firstn_length_le. rewrite skipn_length. lia.
Qed.
Lemma putb_room : forall o b l, (o + length b <= length l)%nat -> exists l', putb o b l = Some l' /\ length l' = length l.
Proof.
  intros o b l H. unfold putb. rewrite (proj2 (Nat.leb_le _ _) H). eexists. split; [reflexivity|].
  rewrite !app_length, firstn_length, skipn_length. lia.
Qed.

Lemma putb_keep : forall o b l l' i, putb o b l = Some l' -> (i < o)%nat -> nth i l' 0 = nth i l 0.
Proof.
  intros o b l l' i H Hi. unfold putb in H. destruct (Nat.leb_spec (o + length b) (length l)) as [Q|Q]; [|discriminate].
  injection H as <-. rewrite app_nth1 by (rewrite firstn_length; lia).
  rewrite <- (firstn_skipn o l) at 2. rewrite app_nth1 by (rewrite firstn_length; lia). reflexivity.
Qed.
Lemma putb_first : forall o v b l l', putb o (v :: b) l = Some l' -> nth o l' 0 = v.
Proof.
  intros o v b l l' H. unfold putb in H. destruct (Nat.leb_spec (o + length (v :: b)) (length l)) as [Q|Q]; [|discriminate].
  injection H as <-. rewrite app_nth2 by (rewrite firstn_length; lia). rewrite firstn_length.
  cbn [length] in Q. replace (o - Nat.min o (length l))%nat with O by lia. reflexivity.
Qed.

Lemma respond_type : forall c t l l', respond c t l = Some l' -> nth 2 l' 0 = t.
Proof.
  intros c t l l' H. unfold respond in H. destruct (putb o_type [t] l) as [l1|] eqn:E1; [|discriminate].
  erewrite putb_keep by (first [exact H | unfold o_type; lia]). eapply putb_first. exact E1.
Qed.
Lemma respond_room : forall c t l, (34 <= length l)%nat -> exists l', respond c t l = Some l'.
Proof.
  intros c t l H. unfold respond. destruct (putb_room o_type [t] l) as (l1 & -> & L1); [cbn; lia|].
  edestruct putb_room as (l2 & E & _); [|rewrite E; eauto]. rewrite !app_length, !le_length. cbn [length]. lia.
Qed.

Section Leases.
Variable hash : bytes -> N.
Variables base loc : N.
Variable c : dcfg.
Variable ips : list N.
Variable cap : nat.
Hypothesis L : layout_ok 6 base loc cap.
Notation tok := (table_ok hash 6 base loc cap (d_exp c)).
Notation step := (dcall_step hash base loc c ips).

Definition from (x : dcall) : option bytes := client_of (c_msg x).

(** What a call does to the table. *)
Lemma step_view : forall tb x, tok tb -> c_time x < TIME_MAX ->
  let (o, tb') := step tb x in
  tok tb' /\
  ((forall j, view tb' j = view tb j) /\ (forall ip, ~ gives o ip) \/
   exists k i, from x = Some k /\ (i < cap)%nat /\
     ((exists t, view tb i = Some (k, t)) \/
      view tb i = None \/ exists k0 t0, view tb i = Some (k0, t0) /\ ~ young (c_time x) (d_exp c) t0) /\
     (forall j, view tb' j = if Nat.eqb j i then Some (k, c_time x) else view tb j) /\
     ((34 <= length (m_opts (c_msg x)))%nat -> gives o (nth i ips 0)) /\ (forall ip, gives o ip -> ip = nth i ips 0)).
Proof.
  intros tb x H HT. destruct x as [time m|time m]; cbn [dcall_step c_time c_msg] in *; unfold from, client_of; cbn [c_msg].
  - unfold discover. change o_client with 6%nat. destruct (getb 6 6 (m_opts m)) as [k|] eqn:G; [|split; [exact H|left; split; [auto|intros ip []]]].
    pose proof (learn_spec hash 6 base loc cap (d_exp c) L tb time k H (getb_length _ _ _ _ G) HT) as S.
    destruct (tlearn hash 6 base loc tb time k) as [[i|] tb'].
    + destruct S as (Ho & Hi & Hc & V).
      assert (R : match respond c 2 (m_opts m) with
                  | None => (Broken, tb')
                  | Some o => (Reply (mkM 2 (nth i ips 0) o), tb')
                  end = (match respond c 2 (m_opts m) with None => Broken | Some o => Reply (mkM 2 (nth i ips 0) o) end, tb'))
        by (destruct (respond c 2 (m_opts m)); reflexivity).
      rewrite R. split; [exact Ho|]. right. exists k, i. split; [reflexivity|]. split; [exact Hi|].
      split; [destruct Hc as [Hc|[_ Hc]]; [left; exact Hc|right; exact Hc]|]. split; [exact V|]. split.
      * intros Q. destruct (respond_room c 2 (m_opts m) Q) as [l' E]. rewrite E. cbn. split; [reflexivity|]. left. eapply respond_type. exact E.
      * intros ip G2. destruct (respond c 2 (m_opts m)); [|destruct G2]. destruct G2 as [<- _]. reflexivity.
    + destruct S as (Ho & _ & _ & V). split; [exact Ho|]. left. split; [exact V|intros ip []].
  - unfold request. change o_client with 6%nat. destruct (getb 6 6 (m_opts m)) as [k|] eqn:G; [|split; [exact H|left; split; [auto|intros ip []]]].
    pose proof (find_spec hash 6 base loc cap (d_exp c) L tb k H (getb_length _ _ _ _ G)) as S.
    destruct (tfind hash 6 base loc tb k) as [i|] eqn:F; [|split; [exact H|left; split; [auto|intros ip []]]].
    destruct (proj1 (S i) eq_refl) as [t Hv]. clear S.
    destruct (getb o_ip 4 (m_opts m)) as [ip|]; [|split; [exact H|left; split; [auto|intros ip []]]].
    destruct (beqb ip (le 4 (nth i ips 0))).
    + set (tb' := mkTab (keys tb) (tmap tb) (pool_refresh (tpool tb) time i)).
      assert (R : match respond c 5 (m_opts m) with
                  | None => (Broken, tb')
                  | Some o => (Reply (mkM 2 (nth i ips 0) o), tb')
                  end = (match respond c 5 (m_opts m) with None => Broken | Some o => Reply (mkM 2 (nth i ips 0) o) end, tb'))
        by (destruct (respond c 5 (m_opts m)); reflexivity).
      rewrite R. clear R.
      destruct (refresh_ok hash 6 base loc cap (d_exp c) tb i time H HT (ex_intro _ _ Hv)) as [Ho V]. fold tb' in Ho, V.
      split; [exact Ho|]. right. exists k, i. split; [reflexivity|].
      split; [exact (view_lt hash 6 base loc cap (d_exp c) tb i (k, t) H Hv)|]. split; [left; eauto|].
      split; [intros j; rewrite V, <- (view_key tb i k t Hv); reflexivity|]. split.
      * intros Q. destruct (respond_room c 5 (m_opts m) Q) as [l' E]. rewrite E. cbn. split; [reflexivity|]. right. eapply respond_type. exact E.
      * intros ip2 G2. destruct (respond c 5 (m_opts m)); [|destruct G2]. destruct G2 as [<- _]. reflexivity.
    + destruct (putb o_type [6] (m_opts m)) as [l1|] eqn:E1; [|split; [exact H|left; split; [auto|intros ? []]]].
      destruct (putb 3 [255] l1) as [l2|] eqn:E2; [|split; [exact H|left; split; [auto|intros ? []]]].
      split; [exact H|]. left. split; [auto|]. intros ip2 [_ G2]. cbn [m_opts] in G2.
      rewrite (putb_keep _ _ _ _ 2 E2) in G2 by lia. unfold o_type in E1. rewrite (putb_first _ _ _ _ _ E1) in G2. destruct G2; discriminate.
Qed.

(** [ip] was given to [k] at [ta]; the time is now [T]. *)
Definition lent (tb : table) (T : N) (k : bytes) (ip ta : N) : Prop :=
  exists i, (i < cap)%nat /\ nth i ips 0 = ip /\ ((exists t, view tb i = Some (k, t) /\ ta <= t) \/ ta + d_exp c < T).

Lemma lent_step : forall tb x o tb' T k ip ta, tok tb -> step tb x = (o, tb') -> T <= c_time x -> c_time x < TIME_MAX -> ta <= T ->
  lent tb T k ip ta -> lent tb' (c_time x) k ip ta.
Proof.
  intros tb x o tb' T k ip ta H E HT HM HA (i & Hi & Hip & [(t & Hv & Ht)|Hx]); exists i; (split; [exact Hi|]); (split; [exact Hip|]); [|right; lia].
  pose proof (step_view tb x H HM) as S. rewrite E in S. destruct S as [_ [[V _]|(k2 & i2 & Hk & _ & Hc & V & _)]].
  - left. exists t. rewrite V. auto.
  - rewrite V. destruct (Nat.eqb_spec i i2) as [->|NE]; [|left; eauto].
    destruct Hc as [[t2 Hc]|[Hc|(k0 & t0 & Hc & Y)]]; rewrite Hc in Hv; [|discriminate|].
    + left. exists (c_time x). split; [congruence|lia].
    + right. assert (t0 = t) by congruence. subst t0. unfold young in Y. lia.
Qed.

Lemma gives_lent : forall tb x o tb' k ip, tok tb -> step tb x = (o, tb') -> c_time x < TIME_MAX ->
  from x = Some k -> gives o ip -> exists i, (i < cap)%nat /\ nth i ips 0 = ip /\ view tb' i = Some (k, c_time x).
Proof.
  intros tb x o tb' k ip H E HM F G. pose proof (step_view tb x H HM) as S. rewrite E in S.
  destruct S as [_ [[_ NG]|(k2 & i & Hk & Hi & _ & V & _ & GI)]]; [destruct (NG _ G)|].
  exists i. split; [exact Hi|]. split; [symmetry; apply GI; exact G|]. rewrite V, Nat.eqb_refl. congruence.
Qed.

Lemma gives_from : forall tb x o tb' ip, step tb x = (o, tb') -> gives o ip -> from x <> None.
Proof.
  intros tb x o tb' ip E G. unfold from, client_of. destruct x as [t m|t m]; cbn [dcall_step c_msg] in *; unfold discover, request in E;
    change o_client with 6%nat in E; destruct (getb 6 6 (m_opts m)); try discriminate; exfalso; assert (o = Broken) by congruence; subst o; exact G.
Qed.

Lemma excl_run : NoDup ips -> length ips = cap -> forall xs tb T h tb2, tok tb -> in_order T xs -> drun hash base loc c ips tb xs = (h, tb2) ->
  (forall k ip ta x2 o2 pre post, lent tb T k ip ta -> ta <= T -> h = (pre ++ (x2, o2) :: post)%list -> gives o2 ip -> from x2 <> Some k ->
     ta + d_exp c < c_time x2) /\
  (forall x1 o1 x2 o2 p1 p2 p3 ip, h = (p1 ++ (x1, o1) :: p2 ++ (x2, o2) :: p3)%list -> gives o1 ip -> gives o2 ip -> from x1 <> from x2 ->
     c_time x1 + d_exp c < c_time x2).
Proof.
  intros ND LI. induction xs as [|x xs IH]; intros tb T h tb2 H HO E.
  - cbn in E. assert (h = []) by congruence. subst h. split; intros; exfalso; match goal with Q : [] = _ |- _ => destruct p1 + destruct pre; discriminate end.
  - cbn [drun] in E. destruct (step tb x) as [o tb1] eqn:ES. destruct (drun hash base loc c ips tb1 xs) as [h1 tb2'] eqn:ER.
    assert (h = (x, o) :: h1) by congruence. subst h. destruct HO as (O1 & O2 & O3).
    pose proof (step_view tb x H O2) as S. rewrite ES in S. destruct S as [H1 _].
    destruct (IH tb1 (c_time x) h1 tb2' H1 O3 ER) as [IH1 IH2]. split.
    + intros k ip ta x2 o2 pre post LT HA Q G NF. destruct pre as [|e pre]; cbn [app] in Q.
      * assert (x2 = x /\ o2 = o) as [-> ->] by (split; congruence).
        pose proof (lent_step _ _ _ _ _ _ _ _ H ES O1 O2 HA LT) as (i & Hi & Hip & HV).
        destruct (from x) as [k2|] eqn:F; [|exfalso; eapply gives_from; eassumption].
        destruct (gives_lent _ _ _ _ _ _ H ES O2 F G) as (i2 & Hi2 & Hip2 & Hv2).
        assert (i = i2) by (eapply (proj1 (NoDup_nth ips 0) ND); [lia|lia|congruence]). subst i2.
        destruct HV as [(t & Hv & _)|HV]; [|exact HV]. exfalso. rewrite Hv in Hv2. congruence.
      * assert (h1 = (pre ++ (x2, o2) :: post)%list) by congruence.
        eapply IH1; [exact (lent_step _ _ _ _ _ _ _ _ H ES O1 O2 HA LT)|lia|eassumption|eassumption|eassumption].
    + intros x1 o1 x2 o2 p1 p2 p3 ip Q G1 G2 NF. destruct p1 as [|e p1]; cbn [app] in Q.
      * assert (x1 = x /\ o1 = o) as [-> ->] by (split; congruence). assert (Q2 : h1 = (p2 ++ (x2, o2) :: p3)%list) by congruence.
        destruct (from x) as [k|] eqn:F; [|exfalso; eapply gives_from; eassumption].
        destruct (gives_lent _ _ _ _ _ _ H ES O2 F G1) as (i & Hi & Hip & Hv).
        eapply (IH1 k ip (c_time x)); [|apply N.le_refl|exact Q2|exact G2|congruence].
        exists i. split; [exact Hi|]. split; [exact Hip|]. left. exists (c_time x). split; [exact Hv|lia].
      * eapply IH2; [|exact G1|exact G2|exact NF]. assert (h1 = (p1 ++ (x1, o1) :: p2 ++ (x2, o2) :: p3)%list) by congruence. eassumption.
Qed.

(** A client keeps its address. *)
Lemma keep_run : forall xs tb T h tb2, tok tb -> in_order T xs -> drun hash base loc c ips tb xs = (h, tb2) ->
  (forall k ip ta x2 o2 pre post ip2, lent tb T k ip ta -> ta <= T -> h = (pre ++ (x2, o2) :: post)%list -> gives o2 ip2 -> from x2 = Some k ->
     ip2 = ip \/ ta + d_exp c < c_time x2) /\
  (forall x1 o1 x2 o2 p1 p2 p3 ip1 ip2, h = (p1 ++ (x1, o1) :: p2 ++ (x2, o2) :: p3)%list -> gives o1 ip1 -> gives o2 ip2 -> from x1 = from x2 ->
     ip2 = ip1 \/ c_time x1 + d_exp c < c_time x2).
Proof.
  induction xs as [|x xs IH]; intros tb T h tb2 H HO E.
  - cbn in E. assert (h = []) by congruence. subst h. split; intros; exfalso; match goal with Q : [] = _ |- _ => destruct p1 + destruct pre; discriminate end.
  - cbn [drun] in E. destruct (step tb x) as [o tb1] eqn:ES. destruct (drun hash base loc c ips tb1 xs) as [h1 tb2'] eqn:ER.
    assert (h = (x, o) :: h1) by congruence. subst h. destruct HO as (O1 & O2 & O3).
    pose proof (step_view tb x H O2) as S. rewrite ES in S. destruct S as [H1 _].
    destruct (IH tb1 (c_time x) h1 tb2' H1 O3 ER) as [IH1 IH2]. split.
    + intros k ip ta x2 o2 pre post ip2 LT HA Q G F. destruct pre as [|e pre]; cbn [app] in Q.
      * assert (x2 = x /\ o2 = o) as [-> ->] by (split; congruence).
        pose proof (lent_step _ _ _ _ _ _ _ _ H ES O1 O2 HA LT) as (i & Hi & Hip & HV).
        destruct (gives_lent _ _ _ _ _ _ H ES O2 F G) as (i2 & Hi2 & Hip2 & Hv2).
        destruct HV as [(t & Hv & _)|HV]; [left|right; exact HV].
        assert (i = i2) by (eapply (view_inj hash 6 base loc cap (d_exp c) L); eassumption). congruence.
      * assert (h1 = (pre ++ (x2, o2) :: post)%list) by congruence.
        eapply IH1; [exact (lent_step _ _ _ _ _ _ _ _ H ES O1 O2 HA LT)|lia|eassumption|eassumption|eassumption].
    + intros x1 o1 x2 o2 p1 p2 p3 ip1 ip2 Q G1 G2 FE. destruct p1 as [|e p1]; cbn [app] in Q.
      * assert (x1 = x /\ o1 = o) as [-> ->] by (split; congruence). assert (Q2 : h1 = (p2 ++ (x2, o2) :: p3)%list) by congruence.
        destruct (from x) as [k|] eqn:F; [|exfalso; eapply gives_from; eassumption].
        destruct (gives_lent _ _ _ _ _ _ H ES O2 F G1) as (i & Hi & Hip & Hv).
        eapply (IH1 k ip1 (c_time x)); [|apply N.le_refl|exact Q2|exact G2|congruence].
        exists i. split; [exact Hi|]. split; [exact Hip|]. left. exists (c_time x). split; [exact Hv|lia].
      * eapply IH2; [|exact G1|exact G2|exact FE]. assert (h1 = (p1 ++ (x1, o1) :: p2 ++ (x2, o2) :: p3)%list) by congruence. eassumption.
Qed.

(** What was given is still held after more calls, or over. *)
Lemma lent_run : forall y xs tb T h tb2, tok tb -> in_order T (xs ++ [y]) -> drun hash base loc c ips tb xs = (h, tb2) ->
  tok tb2 /\
  (forall k ip ta, lent tb T k ip ta -> ta <= T -> lent tb2 (c_time y) k ip ta) /\
  (forall x1 o1 ip k, In (x1, o1) h -> gives o1 ip -> from x1 = Some k -> lent tb2 (c_time y) k ip (c_time x1)).
Proof.
  intros y. induction xs as [|x xs IH]; intros tb T h tb2 H HO E.
  - cbn in E. assert (h = [] /\ tb2 = tb) as [-> ->] by (split; congruence). cbn in HO. split; [exact H|]. split; [|intros ? ? ? ? []].
    intros k ip ta (i & Hi & Hip & HV) HA. exists i. split; [exact Hi|]. split; [exact Hip|]. destruct HV as [HV|HV]; [left; exact HV|right; lia].
  - cbn [drun] in E. destruct (step tb x) as [o tb1] eqn:ES. destruct (drun hash base loc c ips tb1 xs) as [h1 tb2'] eqn:ER.
    assert (h = (x, o) :: h1 /\ tb2' = tb2) as [-> ->] by (split; congruence). destruct HO as (O1 & O2 & O3).
    pose proof (step_view tb x H O2) as S. rewrite ES in S. destruct S as [H1 _].
    destruct (IH tb1 (c_time x) h1 tb2 H1 O3 ER) as (K & IH1 & IH2). split; [exact K|]. split.
    + intros k ip ta LT HA. apply IH1; [exact (lent_step _ _ _ _ _ _ _ _ H ES O1 O2 HA LT)|lia].
    + intros x1 o1 ip k [Q|Hin] G F; [|eapply IH2; eassumption].
      assert (x1 = x /\ o1 = o) as [-> ->] by (split; congruence).
      destruct (gives_lent _ _ _ _ _ _ H ES O2 F G) as (i & Hi & Hip & Hv). apply IH1; [|lia].
      exists i. split; [exact Hi|]. split; [exact Hip|]. left. exists (c_time x). split; [exact Hv|lia].
Qed.

(** A REQUEST for one's own address. *)
Lemma request_own : forall tb T k ip ta time m, tok tb -> lent tb T k ip ta -> time <= ta + d_exp c -> T <= time ->
  client_of m = Some k -> getb 14 4 (m_opts m) = Some (le 4 ip) -> (34 <= length (m_opts m))%nat ->
  exists m' tb', request hash base loc c ips tb time m = (Reply m', tb') /\ m_op m' = 2 /\ m_yaddr m' = ip /\ nth 2 (m_opts m') 0 = 5.
Proof.
  intros tb T k ip ta time m H (i & Hi & Hip & HV) HT HTT HC HG HR. unfold client_of in HC. unfold request. change o_client with 6%nat. change o_ip with 14%nat.
  rewrite HC, HG. destruct HV as [(t & Hv & _)|HV]; [|lia].
  rewrite (proj2 (find_spec hash 6 base loc cap (d_exp c) L tb k H (getb_length _ _ _ _ HC) i)) by eauto.
  rewrite Hip. rewrite (proj2 (beqb_eq _ _) eq_refl). destruct (respond_room c 5 (m_opts m) HR) as [l' E]. rewrite E.
  eexists. eexists. split; [reflexivity|]. cbn. split; [reflexivity|]. split; [reflexivity|]. eapply respond_type. exact E.
Qed.
Lemma request_ack : forall tb time m m' tb', request hash base loc c ips tb time m = (Reply m', tb') -> nth 2 (m_opts m') 0 = 5 ->
  getb 14 4 (m_opts m) = Some (le 4 (m_yaddr m')).
Proof.
  intros tb time m m' tb' E T5. unfold request in E. destruct (getb o_client 6 (m_opts m)) as [k|]; [|discriminate].
  destruct (tfind hash 6 base loc tb k) as [i|]; [|discriminate]. change o_ip with 14%nat in E.
  destruct (getb 14 4 (m_opts m)) as [ip|]; [|discriminate]. destruct (beqb ip (le 4 (nth i ips 0))) eqn:Q.
  - apply beqb_eq in Q. destruct (respond c 5 (m_opts m)) as [l'|]; [|discriminate]. assert (m' = mkM 2 (nth i ips 0) l') by congruence. subst m'. cbn [m_yaddr]. congruence.
  - exfalso. destruct (putb o_type [6] (m_opts m)) as [l1|] eqn:E1; [|discriminate]. destruct (putb 3 [255] l1) as [l2|] eqn:E2; [|discriminate].
    assert (m' = mkM (m_op m) (m_yaddr m) l2) by congruence. subst m'. cbn [m_opts] in T5.
    rewrite (putb_keep _ _ _ _ 2 E2) in T5 by lia. unfold o_type in E1. rewrite (putb_first _ _ _ _ _ E1) in T5. discriminate.
Qed.

(** Every entry comes from an answer. *)
Definition explained (h : list (dcall * dout)) (tb : table) : Prop :=
  forall i k t, view tb i = Some (k, t) -> exists x o, In (x, o) h /\ from x = Some k /\ c_time x = t /\ gives o (nth i ips 0).

Lemma explained_run : forall xs tb T h0 h tb2, tok tb -> in_order T xs ->
  (forall x, In x xs -> (34 <= length (m_opts (c_msg x)))%nat) -> explained h0 tb ->
  drun hash base loc c ips tb xs = (h, tb2) -> tok tb2 /\ explained (h0 ++ h) tb2.
Proof.
  induction xs as [|x xs IH]; intros tb T h0 h tb2 H HO HR HX E.
  - cbn in E. assert (h = [] /\ tb2 = tb) as [-> ->] by (split; congruence). rewrite app_nil_r. auto.
  - cbn [drun] in E. destruct (step tb x) as [o tb1] eqn:ES. destruct (drun hash base loc c ips tb1 xs) as [h1 tb2'] eqn:ER.
    assert (h = (x, o) :: h1 /\ tb2' = tb2) as [-> ->] by (split; congruence). destruct HO as (O1 & O2 & O3).
    pose proof (step_view tb x H O2) as S. rewrite ES in S. destruct S as [H1 S].
    replace (h0 ++ (x, o) :: h1)%list with ((h0 ++ [(x, o)]) ++ h1)%list by (rewrite <- app_assoc; reflexivity).
    eapply IH; [exact H1|exact O3| | |exact ER].
    + intros y Hy. apply HR. right. exact Hy.
    + intros i k t Hv. destruct S as [[V _]|(k2 & i2 & Hk & Hi & _ & V & G & _)].
      * rewrite V in Hv. destruct (HX _ _ _ Hv) as (y & oy & Hin & R). exists y, oy. split; [apply in_or_app; left; exact Hin|exact R].
      * rewrite V in Hv. destruct (Nat.eqb_spec i i2) as [->|NE].
        -- exists x, o. split; [apply in_or_app; right; left; reflexivity|]. split; [congruence|]. split; [congruence|].
           apply G. apply HR. left. reflexivity.
        -- destruct (HX _ _ _ Hv) as (y & oy & Hin & R). exists y, oy. split; [apply in_or_app; left; exact Hin|exact R].
Qed.

Lemma explained_alloc : explained [] (talloc 6 cap (d_exp c)).
Proof. intros i k t Hv. rewrite talloc_view in Hv. discriminate. Qed.

(** A DISCOVER is answered unless every address is held. *)
Lemma discover_answer : forall tb h time m k, tok tb -> explained h tb -> length ips = cap -> time < TIME_MAX ->
  client_of m = Some k -> (34 <= length (m_opts m))%nat ->
  (exists m' tb', discover hash base loc c ips tb time m = (Reply m', tb') /\ m_op m' = 2 /\ In (m_yaddr m') ips /\
     respond c 2 (m_opts m) = Some (m_opts m')) \/
  (exists tb', discover hash base loc c ips tb time m = (Silent, tb')) /\
  exists holders, NoDup holders /\ length holders = cap /\
    forall q, In q holders -> exists x o ip, In (x, o) h /\ from x = Some q /\ gives o ip /\ time <= c_time x + d_exp c.
Proof.
  intros tb h time m k H HX LI HT HC HR. unfold discover. unfold client_of in HC. change o_client with 6%nat. rewrite HC.
  pose proof (learn_spec hash 6 base loc cap (d_exp c) L tb time k H (getb_length _ _ _ _ HC) HT) as S.
  destruct (tlearn hash 6 base loc tb time k) as [[i|] tb'].
  - destruct S as (_ & Hi & _). left. destruct (respond_room c 2 (m_opts m) HR) as [l' E]. rewrite E.
    eexists. exists tb'. split; [reflexivity|]. cbn. split; [reflexivity|]. split; [apply nth_In; lia|reflexivity].
  - destruct S as (_ & FULL & _ & _). right. split; [eauto|].
    exists (map (fun i => nth i (keys tb) []) (seq 0 cap)).
    assert (FV : forall i, In i (seq 0 cap) -> exists t, view tb i = Some (nth i (keys tb) [], t) /\ young time (d_exp c) t).
    { intros i Hi. apply in_seq in Hi. destruct (FULL i) as (k' & t & Hv & Y); [lia|]. exists t. split; [|exact Y].
      rewrite <- (view_key _ _ _ _ Hv). exact Hv. }
    split; [|split; [rewrite map_length; apply seq_length|]].
    + pose proof (seq_NoDup cap 0) as SN. revert FV SN. generalize (seq 0 cap). intros l. induction l as [|i l IH]; intros FV SN; cbn [map]; [constructor|].
      apply NoDup_cons_iff in SN as [SN1 SN2]. constructor; [|apply IH; [intros; apply FV; right; assumption|assumption]].
      intros Hin. apply in_map_iff in Hin as (j & Q & Hj). destruct (FV i (or_introl eq_refl)) as (t & Hv & _).
      destruct (FV j (or_intror Hj)) as (u & Hu & _). rewrite Q in Hu.
      assert (i = j) by (eapply (view_inj hash 6 base loc cap (d_exp c) L); eassumption). subst j. contradiction.
    + intros q Hq. apply in_map_iff in Hq as (i & <- & Hi). destruct (FV i Hi) as (t & Hv & Y).
      destruct (HX _ _ _ Hv) as (x & o & Hin & F & Ht & G). exists x, o, (nth i ips 0). split; [exact Hin|]. split; [exact F|]. split; [exact G|].
      unfold young in Y. lia.
Qed.
End Leases.
