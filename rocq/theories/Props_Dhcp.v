(** Property theorems C105 to C110: the DHCP server. *)

From Coq Require Import NArith List Bool Lia Arith.
From Verif Require Import IndexPool HashMap Table Firewall Packet Dhcp.
Import ListNotations.
Open Scope N_scope.

(** The table nf_init allocates (dhcp.c 151-154). *)
Definition dhcp_table (c : dcfg) : table := talloc 6 (N.to_nat (capacity c)) (d_exp c).

(** What the examples use: a hash, where the keys are in memory, a server at 10.0.0.1 with
    its gateway at .2 and its name server at .3, and messages. *)
Definition ex_hash (b : bytes) : N := (fold_right (fun x acc => x + 3 * acc) 0 b mod 2 ^ 32)%N.
Definition ex_base : N := 4096.
Definition ex_loc : N := 64.
Lemma ex_layout : forall cap, layout_ok 6 ex_base ex_loc cap.
Proof. intros cap. unfold layout_ok, ex_base, ex_loc. repeat split; try lia; left; lia. Qed.
Definition ex_net : N := 167772160.
Definition ex_cfg (cap k exp : N) : dcfg := mkD cap (ex_net + 1) (2 ^ 32 - 2 ^ k) (ex_net + 2) (ex_net + 3) exp.
(** 53 1 type, 61 7 1 client, 50 4 address, 255 as dhcp.h 107-140 wants them, then padding. *)
Definition ex_msg (type client ip : N) (pad : nat) : dmsg :=
  mkM 1 0 ([53; 1; type; 61; 7; 1; 2; 0; 0; 0; 0; client; 50; 4] ++ le 4 ip ++ [255] ++ repeat 0 pad)%list.

(** ** C105 *)
Theorem C105_usable_addresses_partial : forall c k, dcfg_ok c -> d_mask c = 2 ^ 32 - 2 ^ k -> 3 <= k -> k <= 32 -> 0 < d_cap c ->
  exists ips, dhcp_init c = Some ips /\ length ips = N.to_nat (capacity c) /\ capacity c <= d_cap c /\ NoDup ips /\
  forall ip, In ip ips ->
    (* in the server's network, not its first or last address *)
    ip / 2 ^ k = d_srv c / 2 ^ k /\ ip mod 2 ^ k <> 0 /\ ip mod 2 ^ k <> 2 ^ k - 1 /\
    (* nor taken *)
    ip <> d_srv c /\ ip <> d_gw c /\ ip <> d_dns c.
Proof. exact pool_addresses. Qed.
Print Assumptions C105_usable_addresses_partial.
Example C105_ex : dcfg_ok (ex_cfg 5 8 1000) /\ d_mask (ex_cfg 5 8 1000) = 2 ^ 32 - 2 ^ 8 /\
  dhcp_init (ex_cfg 5 8 1000) = Some [ex_net + 4; ex_net + 5; ex_net + 6; ex_net + 7; ex_net + 8] /\
  dhcp_init (ex_cfg 5 3 1000) = Some [ex_net + 4; ex_net + 5; ex_net + 6].
Proof. repeat split. Qed.

(** On a network of 4 addresses the capacity wraps around, and the addresses left over are
    0.0.0.0, several times. *)
Theorem C105_small_network_refuted : exists c k ips, dcfg_ok c /\ d_mask c = 2 ^ 32 - 2 ^ k /\ k <= 32 /\ 0 < d_cap c /\
  dhcp_init c = Some ips /\ ~ NoDup ips /\ exists ip, In ip ips /\ ip / 2 ^ k <> d_srv c / 2 ^ k.
Proof.
  exists (ex_cfg 5 2 1000), 2, [0; 0; 0; 0; 0]. repeat split; try (vm_compute; congruence).
  - intros H. inversion H as [|? ? N1 N2]; subst. apply N1. left. reflexivity.
  - exists 0. split; [left; reflexivity|vm_compute; discriminate].
Qed.
Print Assumptions C105_small_network_refuted.

(** ** C106 *)
Theorem C106_one_holder_partial : forall hash base loc c k ips, dcfg_ok c -> d_mask c = 2 ^ 32 - 2 ^ k -> 3 <= k -> k <= 32 -> 0 < d_cap c ->
  dhcp_init c = Some ips -> layout_ok 6 base loc (N.to_nat (capacity c)) ->
  forall xs h tb, in_order 0 xs -> drun hash base loc c ips (dhcp_table c) xs = (h, tb) ->
  forall x1 o1 x2 o2 before between after ip, h = (before ++ (x1, o1) :: between ++ (x2, o2) :: after)%list ->
  gives o1 ip -> gives o2 ip -> client_of (c_msg x1) <> client_of (c_msg x2) ->
  c_time x1 + d_exp c < c_time x2.
Proof.
  intros hash base loc c k ips OK HM K3 K32 HC HI HL xs h tb HO E x1 o1 x2 o2 b1 b2 b3 ip Q G1 G2 NF.
  destruct (pool_addresses c k OK HM K3 K32 HC) as (ips' & HI' & LI & CD & ND & _). assert (ips' = ips) by congruence. subst ips'.
  assert (CB : capacity c <= 2 ^ 63).
  { unfold capacity, avail4. rewrite HM. assert (8 <= 2 ^ k) by (change 8 with (2 ^ 3); apply N.pow_le_mono_r; lia).
    assert (2 ^ k <= 2 ^ 32) by (apply N.pow_le_mono_r; lia). change (2 ^ 32) with 4294967296 in *.
    replace (4294967296 - 1 - (4294967296 - 2 ^ k) + 2 ^ 64 - 4) with (2 ^ k - 5 + 1 * 2 ^ 64) by (change (2 ^ 64) with 18446744073709551616; lia).
    rewrite N.mod_add by discriminate. rewrite N.mod_small by (change (2 ^ 64) with 18446744073709551616; lia).
    destruct (N.ltb_spec (2 ^ k - 5) (d_cap c)); change (2 ^ 63) with 9223372036854775808; lia. }
  destruct (excl_run hash base loc c ips (N.to_nat (capacity c)) HL ND LI xs (dhcp_table c) 0 h tb) as [_ H].
  - apply talloc_ok; [exact HL|]. rewrite N2Nat.id. exact CB.
  - exact HO.
  - exact E.
  - eapply H; [exact Q|exact G1|exact G2|exact NF].
Qed.
Print Assumptions C106_one_holder_partial.

(** One address; the second client gets it once the first's lease is over, not before. *)
Definition ex_calls : list dcall :=
  [CDiscover 0 (ex_msg 1 1 0 20); CRequest 50 (ex_msg 3 1 (ex_net + 4) 20);
   CDiscover 120 (ex_msg 1 2 0 20); CDiscover 151 (ex_msg 1 2 0 20)].
Definition yaddrs (h : list (dcall * dout)) : list (option N) :=
  map (fun e => match snd e with Reply m => Some (m_yaddr m) | _ => None end) h.
Example C106_ex : in_order 0 ex_calls /\
  yaddrs (fst (drun ex_hash ex_base ex_loc (ex_cfg 1 8 100) [ex_net + 4] (dhcp_table (ex_cfg 1 8 100)) ex_calls)) =
    [Some (ex_net + 4); Some (ex_net + 4); None; Some (ex_net + 4)].
Proof. split; [repeat split; vm_compute; congruence|vm_compute; reflexivity]. Qed.

(** On a network of 4 addresses, two clients are given the same address at once. *)
Theorem C106_small_network_refuted : exists hash base loc c k ips xs h tb, dcfg_ok c /\ d_mask c = 2 ^ 32 - 2 ^ k /\ k <= 32 /\ 0 < d_cap c /\
  dhcp_init c = Some ips /\ layout_ok 6 base loc (N.to_nat (capacity c)) /\ in_order 0 xs /\
  drun hash base loc c ips (dhcp_table c) xs = (h, tb) /\
  exists x1 o1 x2 o2 ip, h = [(x1, o1); (x2, o2)] /\ gives o1 ip /\ gives o2 ip /\ client_of (c_msg x1) <> client_of (c_msg x2) /\
  c_time x2 <= c_time x1 + d_exp c.
Proof.
  exists ex_hash, ex_base, ex_loc, (ex_cfg 5 2 1000), 2, [0; 0; 0; 0; 0], [CDiscover 0 (ex_msg 1 1 0 20); CDiscover 1 (ex_msg 1 2 0 20)].
  destruct (drun _ _ _ _ _ _ _) as [h tb] eqn:E. exists h, tb.
  assert (EH : h = fst (drun ex_hash ex_base ex_loc (ex_cfg 5 2 1000) [0; 0; 0; 0; 0] (dhcp_table (ex_cfg 5 2 1000)) [CDiscover 0 (ex_msg 1 1 0 20); CDiscover 1 (ex_msg 1 2 0 20)]))
    by (rewrite E; reflexivity). clear E. vm_compute in EH.
  split; [repeat split|]. split; [reflexivity|]. split; [vm_compute; congruence|]. split; [reflexivity|]. split; [vm_compute; reflexivity|].
  split; [apply ex_layout|]. split; [repeat split; vm_compute; congruence|]. split; [reflexivity|].
  subst h. do 5 eexists. split; [reflexivity|]. split; [split; [reflexivity|left; reflexivity]|]. split; [split; [reflexivity|left; reflexivity]|].
  split; [vm_compute; congruence|vm_compute; congruence].
Qed.
Print Assumptions C106_small_network_refuted.

(** ** C107 *)

(** The lease an offer or acknowledgement announces: RFC 2132 section 9.2, seconds, in
    network order, in option 51. *)
Definition be (l : bytes) : N := fold_left (fun acc b => acc * 256 + b) l 0.
Definition lease_seconds (m : dmsg) : option N :=
  match getb 15 6 (m_opts m) with
  | Some (51 :: 4 :: v) => Some (be v)
  | _ => None
  end.
Definition second : N := 1000000000.

(** The pool forgets after that many nanoseconds; so a client is told it holds the address
    (here for 16777216 seconds, the bytes being the other way round) when another gets it. *)
Theorem C107_lease_time_refuted : exists hash base loc c k ips xs h tb, dcfg_ok c /\ d_mask c = 2 ^ 32 - 2 ^ k /\ 3 <= k /\ k <= 32 /\ 0 < d_cap c /\
  dhcp_init c = Some ips /\ layout_ok 6 base loc (N.to_nat (capacity c)) /\ in_order 0 xs /\
  drun hash base loc c ips (dhcp_table c) xs = (h, tb) /\
  exists x1 m1 x2 o2 s ip, h = [(x1, Reply m1); (x2, o2)] /\ gives (Reply m1) ip /\ gives o2 ip /\
  client_of (c_msg x1) <> client_of (c_msg x2) /\ lease_seconds m1 = Some s /\
  c_time x2 < c_time x1 + s * second.
Proof.
  exists ex_hash, ex_base, ex_loc, (ex_cfg 1 8 1), 8, [ex_net + 4], [CDiscover 0 (ex_msg 1 1 0 20); CDiscover 2 (ex_msg 1 2 0 20)].
  destruct (drun _ _ _ _ _ _ _) as [h tb] eqn:E. exists h, tb.
  assert (EH : h = fst (drun ex_hash ex_base ex_loc (ex_cfg 1 8 1) [ex_net + 4] (dhcp_table (ex_cfg 1 8 1)) [CDiscover 0 (ex_msg 1 1 0 20); CDiscover 2 (ex_msg 1 2 0 20)]))
    by (rewrite E; reflexivity). clear E. vm_compute in EH.
  split; [repeat split|]. split; [reflexivity|]. split; [vm_compute; congruence|]. split; [vm_compute; congruence|]. split; [reflexivity|]. split; [vm_compute; reflexivity|].
  split; [apply ex_layout|]. split; [repeat split; vm_compute; congruence|]. split; [reflexivity|].
  subst h. do 6 eexists. split; [reflexivity|]. split; [split; [reflexivity|left; reflexivity]|]. split; [split; [reflexivity|left; reflexivity]|].
  split; [vm_compute; congruence|]. split; [vm_compute; reflexivity|vm_compute; reflexivity].
Qed.
Print Assumptions C107_lease_time_refuted.

(** ** C108 *)

(** The lease function, called on a DISCOVER with room for the reply, offers an address
    unless as many other clients as there are addresses were given one within the lease. *)
Theorem C108_offer_partial : forall hash base loc c ips, dhcp_init c = Some ips -> length ips = N.to_nat (capacity c) -> capacity c <= 2 ^ 63 ->
  layout_ok 6 base loc (N.to_nat (capacity c)) ->
  forall xs h tb, in_order 0 xs -> (forall x, In x xs -> (34 <= length (m_opts (c_msg x)))%nat) ->
  drun hash base loc c ips (dhcp_table c) xs = (h, tb) ->
  forall time m k, time < TIME_MAX -> client_of m = Some k -> (34 <= length (m_opts m))%nat ->
  (exists m' tb', discover hash base loc c ips tb time m = (Reply m', tb') /\ m_op m' = 2 /\ In (m_yaddr m') ips /\ nth 2 (m_opts m') 0 = 2) \/
  (exists tb', discover hash base loc c ips tb time m = (Silent, tb')) /\
  exists holders, NoDup holders /\ length holders = length ips /\
    forall q, In q holders -> exists x o ip, In (x, o) h /\ client_of (c_msg x) = Some q /\ gives o ip /\ time <= c_time x + d_exp c.
Proof.
  intros hash base loc c ips HI LI CB HL xs h tb HO HR E time m k HT HC HM.
  destruct (explained_run hash base loc c ips (N.to_nat (capacity c)) HL xs (dhcp_table c) 0 [] h tb) as [OK X].
  - apply talloc_ok; [exact HL|]. rewrite N2Nat.id. exact CB.
  - exact HO.
  - exact HR.
  - apply explained_alloc.
  - exact E.
  - destruct (discover_answer hash base loc c ips (N.to_nat (capacity c)) HL tb h time m k OK X LI HT HC HM) as [(m' & tb' & D & O & I & R)|[D (hs & N1 & N2 & N3)]].
    + left. exists m', tb'. split; [exact D|]. split; [exact O|]. split; [exact I|]. eapply respond_type. exact R.
    + right. split; [exact D|]. exists hs. split; [exact N1|]. split; [congruence|exact N3].
Qed.
Print Assumptions C108_offer_partial.
Example C108_ex : dhcp_init (ex_cfg 1 8 100) = Some [ex_net + 4] /\ in_order 0 (firstn 2 ex_calls) /\
  (exists tb', discover ex_hash ex_base ex_loc (ex_cfg 1 8 100) [ex_net + 4]
     (snd (drun ex_hash ex_base ex_loc (ex_cfg 1 8 100) [ex_net + 4] (dhcp_table (ex_cfg 1 8 100)) (firstn 2 ex_calls))) 120 (ex_msg 1 2 0 20) = (Silent, tb')) /\
  fst (discover ex_hash ex_base ex_loc (ex_cfg 2 8 100) [ex_net + 4; ex_net + 5]
     (snd (drun ex_hash ex_base ex_loc (ex_cfg 2 8 100) [ex_net + 4; ex_net + 5] (dhcp_table (ex_cfg 2 8 100)) (firstn 2 ex_calls))) 120 (ex_msg 1 2 0 20)) <> Silent.
Proof.
  split; [vm_compute; reflexivity|]. split; [repeat split; vm_compute; congruence|].
  split; [eexists; vm_compute; reflexivity|vm_compute; discriminate].
Qed.

(** But the packet handler never sends anything. *)
Theorem C108_handler_refuted : forall r, dhcp_handle r = [].
Proof. intros r. unfold dhcp_handle. destruct (negb _); [reflexivity|]. destruct (negb _); reflexivity. Qed.
Print Assumptions C108_handler_refuted.

(** And it would not recognize a DHCP packet: these are the bytes of one (RFC 2131, the
    port numbers and the cookie 63 82 53 63 in network order). *)
Definition dhcp_on_wire (r : rpkt) : Prop :=
  let d := r_data r in
  d 12 = 8 /\ d 13 = 0 /\ d (IP + 9) = 17 /\ d L4 = 0 /\ d (L4 + 1) = 68 /\ d (L4 + 2) = 0 /\ d (L4 + 3) = 67 /\
  d (L4 + 244) = 99 /\ d (L4 + 245) = 130 /\ d (L4 + 246) = 83 /\ d (L4 + 247) = 99.
Theorem C108_not_recognized_refuted : forall r, dhcp_on_wire r -> net_get_dhcp r = false.
Proof.
  intros r (_ & _ & _ & _ & _ & P1 & P2 & _). unfold net_get_dhcp. cbn zeta.
  assert (E : ld16 (r_data r) (L4 + 2) = 17152) by (unfold ld16; change (L4 + 2 + 1) with (L4 + 3); rewrite P1, P2; reflexivity).
  rewrite E. change (17152 =? 67) with false. rewrite andb_false_r. reflexivity.
Qed.
Print Assumptions C108_not_recognized_refuted.
Definition ex_wire : rpkt := mkR 0 0 300 (fun o =>
  if o =? 12 then 8 else if o =? 23 then 17 else if o =? 35 then 68 else if o =? 37 then 67
  else if o =? 278 then 99 else if o =? 279 then 130 else if o =? 280 then 83 else if o =? 281 then 99 else 0).
Example C108_wire_ex : dhcp_on_wire ex_wire.
Proof. vm_compute. repeat split. Qed.
(** What it takes for a DHCP packet, byte by byte: the ports and the cookie in the opposite order. *)
Theorem C108_recognized_partial : forall r, (forall o, r_data r o < 256) ->
  (net_get_dhcp r = true <-> let d := r_data r in
   d (IP + 9) = 17 /\ d L4 = 68 /\ d (L4 + 1) = 0 /\ d (L4 + 2) = 67 /\ d (L4 + 3) = 0 /\
   d (L4 + 244) = 99 /\ d (L4 + 245) = 83 /\ d (L4 + 246) = 130 /\ d (L4 + 247) = 99).
Proof.
  intros r B. unfold net_get_dhcp. cbn zeta. rewrite !andb_true_iff, !N.eqb_eq. unfold ld32, ld16.
  replace (L4 + 8 + 236) with (L4 + 244) by reflexivity. replace (L4 + 244 + 1) with (L4 + 245) by reflexivity.
  replace (L4 + 244 + 2) with (L4 + 246) by reflexivity. try replace (L4 + 244 + 2 + 1) with (L4 + 247) by reflexivity. try replace (L4 + 246 + 1) with (L4 + 247) by reflexivity.
  try replace (L4 + 244 + 3) with (L4 + 247) by reflexivity.
  replace (L4 + 2 + 1) with (L4 + 3) by reflexivity.
  pose proof (B L4). pose proof (B (L4 + 1)). pose proof (B (L4 + 2)). pose proof (B (L4 + 3)).
  pose proof (B (L4 + 244)). pose proof (B (L4 + 245)). pose proof (B (L4 + 246)). pose proof (B (L4 + 247)). lia.
Qed.
Print Assumptions C108_recognized_partial.
Definition ex_swapped : rpkt := mkR 0 0 300 (fun o =>
  if o =? 12 then 8 else if o =? 23 then 17 else if o =? 34 then 68 else if o =? 36 then 67
  else if o =? 278 then 99 else if o =? 279 then 83 else if o =? 280 then 130 else if o =? 281 then 99 else 0).
Example C108_swapped_ex : net_get_dhcp ex_swapped = true.
Proof. vm_compute. reflexivity. Qed.

(** ** C109 *)

(** RFC 2132 section 2: options are a code, a length and that many bytes; 0 is padding and
    255 ends them. *)
Fixpoint tlv (fuel : nat) (l : bytes) : option (list (N * bytes)) :=
  match fuel with
  | O => None
  | S fuel =>
      match l with
      | [] => None
      | code :: r =>
          if code =? 255 then Some []
          else if code =? 0 then tlv fuel r
          else match r with
               | [] => None
               | n :: r =>
                   if Nat.ltb (length r) (N.to_nat n) then None
                   else match tlv fuel (skipn (N.to_nat n) r) with
                        | Some t => Some ((code, firstn (N.to_nat n) r) :: t)
                        | None => None
                        end
               end
      end
  end.

Lemma tlv_response : forall t a0 a1 a2 a3 b0 b1 b2 b3 c0 c1 c2 c3 d0 d1 d2 d3 e0 e1 e2 e3 rest,
  let l := 53 :: 1 :: t :: 54 :: 4 :: a0 :: a1 :: a2 :: a3 :: 1 :: 4 :: b0 :: b1 :: b2 :: b3 :: 51 :: 4 :: c0 :: c1 :: c2 :: c3
           :: 3 :: 4 :: d0 :: d1 :: d2 :: d3 :: 6 :: 4 :: e0 :: e1 :: e2 :: e3 :: 255 :: rest in
  tlv (length l) l = Some [(53, [t]); (54, [a0; a1; a2; a3]); (1, [b0; b1; b2; b3]); (51, [c0; c1; c2; c3]); (3, [d0; d1; d2; d3]); (6, [e0; e1; e2; e3])].
Proof. intros. reflexivity. Qed.

Theorem C109_options_partial : forall hash base loc c ips tb x m' tb', (34 <= length (m_opts (c_msg x)))%nat ->
  firstn 2 (m_opts (c_msg x)) = [53; 1] -> dcall_step hash base loc c ips tb x = (Reply m', tb') ->
  length (m_opts m') = length (m_opts (c_msg x)) /\
  (* an offer or an acknowledgement *)
  ((m_op m' = 2 /\ exists t, t = match x with CDiscover _ _ => 2 | CRequest _ _ => 5 end /\
   tlv (length (m_opts m')) (m_opts m') =
     Some [(53, [t]); (54, le 4 (d_srv c)); (1, le 4 (d_mask c)); (51, le 4 (d_exp c)); (3, le 4 (d_gw c)); (6, le 4 (d_dns c))]) \/
   (* a refusal *)
   (exists t m, x = CRequest t m) /\ tlv (length (m_opts m')) (m_opts m') = Some [(53, [6])]).
Proof.
  intros hash base loc c ips tb x m' tb' HR H2 E.
  assert (RESP : forall t l', respond c t (m_opts (c_msg x)) = Some l' -> length l' = length (m_opts (c_msg x)) /\
     tlv (length l') l' = Some [(53, [t]); (54, le 4 (d_srv c)); (1, le 4 (d_mask c)); (51, le 4 (d_exp c)); (3, le 4 (d_gw c)); (6, le 4 (d_dns c))]).
  { intros t l' R. destruct (m_opts (c_msg x)) as [|o0 [|o1 [|o2 l]]]; cbn [length] in HR; try lia. cbn [firstn] in H2. injection H2 as -> ->.
    do 31 (destruct l as [|? l]; [cbn [length] in HR; lia|]). clear HR.
    unfold respond, putb, o_type in R. cbn [length firstn skipn app Nat.add Nat.leb le] in R.
    match type of R with Some ?z = _ => assert (El : l' = z) by congruence end. subst l'. split.
    - reflexivity.
    - apply tlv_response. }
  destruct x as [time m|time m]; cbn [dcall_step c_msg] in *.
  - unfold discover in E. destruct (getb o_client 6 (m_opts m)) as [k|]; [|discriminate].
    destruct (tlearn hash 6 base loc tb time k) as [[i|] tb1]; [|discriminate].
    destruct (respond c 2 (m_opts m)) as [l'|] eqn:R; [|discriminate]. assert (m' = mkM 2 (nth i ips 0) l') by congruence. subst m'.
    cbn [m_opts m_op]. destruct (RESP _ _ R) as [A B]. split; [exact A|]. left. split; [reflexivity|]. exists 2. split; [reflexivity|exact B].
  - unfold request in E. destruct (getb o_client 6 (m_opts m)) as [k|]; [|discriminate].
    destruct (tfind hash 6 base loc tb k) as [i|]; [|discriminate]. destruct (getb o_ip 4 (m_opts m)) as [ip|]; [|discriminate].
    destruct (beqb ip (le 4 (nth i ips 0))).
    + destruct (respond c 5 (m_opts m)) as [l'|] eqn:R; [|discriminate]. assert (m' = mkM 2 (nth i ips 0) l') by congruence. subst m'.
      cbn [m_opts m_op]. destruct (RESP _ _ R) as [A B]. split; [exact A|]. left. split; [reflexivity|]. exists 5. split; [reflexivity|exact B].
    + clear RESP. destruct m as [op ya opts]. cbn [m_opts m_op m_yaddr] in *.
      destruct opts as [|o0 [|o1 [|o2 [|o3 l]]]]; cbn [length] in HR; try lia. cbn [firstn] in H2. injection H2 as -> ->.
      unfold putb, o_type in E. cbn [length firstn skipn app Nat.add] in E.
      destruct (Nat.leb_spec 3 (S (S (S (S (length l)))))) as [_|]; [|lia]. cbn [length firstn skipn app Nat.add] in E.
      destruct (Nat.leb_spec 4 (S (S (S (S (length l)))))) as [_|]; [|lia]. cbn [length firstn skipn app Nat.add] in E.
      match type of E with (Reply ?z, _) = _ => assert (Em : m' = z) by congruence end. subst m'. cbn [m_opts]. split; [reflexivity|].
      right. split; [eauto|reflexivity].
Qed.
Print Assumptions C109_options_partial.
Example C109_ex : match fst (dcall_step ex_hash ex_base ex_loc (ex_cfg 1 8 100) [ex_net + 4] (dhcp_table (ex_cfg 1 8 100)) (CDiscover 0 (ex_msg 1 1 0 20))) with
  | Reply m => firstn 16 (m_opts m) = [53; 1; 2; 54; 4; 1; 0; 0; 10; 1; 4; 0; 255; 255; 255; 51]
  | _ => False
  end.
Proof. vm_compute. reflexivity. Qed.

(** Nothing is read or written out of a message with room for the reply. *)
Theorem C109_in_bounds_partial : forall hash base loc c ips tb x, (34 <= length (m_opts (c_msg x)))%nat ->
  fst (dcall_step hash base loc c ips tb x) <> Broken.
Proof.
  intros hash base loc c ips tb x HR.
  assert (GB : forall o n, (o + n <= 34)%nat -> getb o n (m_opts (c_msg x)) <> None)
    by (intros o n Hn; unfold getb; rewrite (proj2 (Nat.leb_le _ _)) by lia; discriminate).
  assert (RS : forall t, respond c t (m_opts (c_msg x)) <> None) by (intros t; destruct (respond_room c t _ HR) as [l ->]; discriminate).
  destruct x as [time m|time m]; cbn [dcall_step c_msg] in *.
  - unfold discover. pose proof (GB o_client 6%nat) as B. destruct (getb o_client 6 (m_opts m)); [|exfalso; apply B; [unfold o_client; lia|reflexivity]].
    destruct (tlearn hash 6 base loc tb time b) as [[i|] tb1]; [|discriminate]. specialize (RS 2). destruct (respond c 2 (m_opts m)); [discriminate|congruence].
  - unfold request. pose proof (GB o_client 6%nat) as B. destruct (getb o_client 6 (m_opts m)) as [k|]; [|exfalso; apply B; [unfold o_client; lia|reflexivity]].
    destruct (tfind hash 6 base loc tb k) as [i|]; [|discriminate].
    pose proof (GB o_ip 4%nat) as B2. destruct (getb o_ip 4 (m_opts m)) as [ip|]; [|exfalso; apply B2; [unfold o_ip; lia|reflexivity]].
    destruct (beqb _ _).
    + specialize (RS 5). cbn zeta. destruct (respond c 5 (m_opts m)); [discriminate|congruence].
    + destruct (putb_room o_type [6] (m_opts m)) as (l1 & -> & L1); [unfold o_type; cbn [length]; lia|].
      destruct (putb_room 3 [255] l1) as (l2 & -> & _); [cbn [length]; lia|discriminate].
Qed.
Print Assumptions C109_in_bounds_partial.

(** A message that is no longer than the structure the code declares for it (19 bytes of
    options) is overrun by the reply. *)
Theorem C109_overrun_refuted : exists hash base loc c ips x, length (m_opts (c_msg x)) = 19%nat /\
  tlv 19 (m_opts (c_msg x)) <> None /\ dhcp_init c = Some ips /\
  fst (dcall_step hash base loc c ips (dhcp_table c) x) = Broken.
Proof.
  exists ex_hash, ex_base, ex_loc, (ex_cfg 1 8 100), [ex_net + 4], (CDiscover 0 (ex_msg 1 1 0 0)).
  split; [reflexivity|]. split; [vm_compute; discriminate|]. split; vm_compute; reflexivity.
Qed.
Print Assumptions C109_overrun_refuted.

(** A refusal keeps the request's operation code, BOOTREQUEST. *)
Theorem C109_refusal_refuted : exists hash base loc c ips xs x m', dhcp_init c = Some ips /\ (34 <= length (m_opts (c_msg x)))%nat /\
  fst (dcall_step hash base loc c ips (snd (drun hash base loc c ips (dhcp_table c) xs)) x) = Reply m' /\
  nth 2 (m_opts m') 0 = 6 /\ m_op m' = 1.
Proof.
  exists ex_hash, ex_base, ex_loc, (ex_cfg 1 8 100), [ex_net + 4], [CDiscover 0 (ex_msg 1 1 0 20)], (CRequest 1 (ex_msg 3 1 (ex_net + 5) 20)).
  eexists. split; [vm_compute; reflexivity|]. split; [cbn; lia|]. split; [vm_compute; reflexivity|]. split; reflexivity.
Qed.
Print Assumptions C109_refusal_refuted.

(** ** C110 *)
Theorem C110_keeps_address : forall hash base loc c ips, dhcp_init c = Some ips -> capacity c <= 2 ^ 63 -> layout_ok 6 base loc (N.to_nat (capacity c)) ->
  forall xs h tb, in_order 0 xs -> drun hash base loc c ips (dhcp_table c) xs = (h, tb) ->
  forall x1 o1 x2 o2 before between after ip1 ip2, h = (before ++ (x1, o1) :: between ++ (x2, o2) :: after)%list ->
  gives o1 ip1 -> gives o2 ip2 -> client_of (c_msg x1) = client_of (c_msg x2) -> c_time x2 <= c_time x1 + d_exp c ->
  ip2 = ip1.
Proof.
  intros hash base loc c ips HI CB HL xs h tb HO E x1 o1 x2 o2 b1 b2 b3 ip1 ip2 Q G1 G2 F HT.
  destruct (keep_run hash base loc c ips (N.to_nat (capacity c)) HL xs (dhcp_table c) 0 h tb) as [_ H].
  - apply talloc_ok; [exact HL|]. rewrite N2Nat.id. exact CB.
  - exact HO.
  - exact E.
  - destruct (H x1 o1 x2 o2 b1 b2 b3 ip1 ip2 Q G1 G2 F) as [R|R]; [exact R|lia].
Qed.
Print Assumptions C110_keeps_address.
(** Two addresses: a client that asks again is told the same, another gets the other, and a
    request for someone else's address is refused (the last reply's address field is the
    request's). *)
Example C110_ex : let xs := [CDiscover 0 (ex_msg 1 1 0 20); CDiscover 10 (ex_msg 1 2 0 20); CDiscover 20 (ex_msg 1 1 0 20);
    CRequest 30 (ex_msg 3 1 (ex_net + 4) 20); CRequest 40 (ex_msg 3 2 (ex_net + 4) 20)] in
  in_order 0 xs /\ dhcp_init (ex_cfg 2 8 100) = Some [ex_net + 4; ex_net + 5] /\
  yaddrs (fst (drun ex_hash ex_base ex_loc (ex_cfg 2 8 100) [ex_net + 4; ex_net + 5] (dhcp_table (ex_cfg 2 8 100)) xs)) =
    [Some (ex_net + 4); Some (ex_net + 5); Some (ex_net + 4); Some (ex_net + 4); Some 0].
Proof. cbn zeta. split; [repeat split; vm_compute; congruence|]. split; vm_compute; reflexivity. Qed.

(** It can confirm it: a REQUEST for the address given before, within the lease, is
    acknowledged; and only a REQUEST for the address that is acknowledged is. *)
Theorem C110_request_acknowledged : forall hash base loc c ips, dhcp_init c = Some ips -> capacity c <= 2 ^ 63 -> layout_ok 6 base loc (N.to_nat (capacity c)) ->
  forall xs h tb time m, in_order 0 (xs ++ [CRequest time m]) -> drun hash base loc c ips (dhcp_table c) xs = (h, tb) ->
  (34 <= length (m_opts m))%nat ->
  forall x1 o1 ip k, In (x1, o1) h -> gives o1 ip -> client_of (c_msg x1) = Some k -> client_of m = Some k ->
  time <= c_time x1 + d_exp c -> getb 14 4 (m_opts m) = Some (le 4 ip) ->
  exists m' tb', request hash base loc c ips tb time m = (Reply m', tb') /\ m_op m' = 2 /\ m_yaddr m' = ip /\ nth 2 (m_opts m') 0 = 5.
Proof.
  intros hash base loc c ips HI CB HL xs h tb time m HO E HR x1 o1 ip k Hin G F1 F2 HT HG.
  destruct (lent_run hash base loc c ips (N.to_nat (capacity c)) HL (CRequest time m) xs (dhcp_table c) 0 h tb) as (OK & _ & X).
  - apply talloc_ok; [exact HL|]. rewrite N2Nat.id. exact CB.
  - exact HO.
  - exact E.
  - eapply request_own; [exact HL|exact OK|eapply X; eassumption|exact HT|cbn [c_time]; lia|exact F2|exact HG|exact HR].
Qed.
Print Assumptions C110_request_acknowledged.
Theorem C110_only_own : forall hash base loc c ips tb time m m' tb', request hash base loc c ips tb time m = (Reply m', tb') ->
  nth 2 (m_opts m') 0 = 5 -> getb 14 4 (m_opts m) = Some (le 4 (m_yaddr m')).
Proof. exact request_ack. Qed.
Print Assumptions C110_only_own.
Example C110_own_ex : in_order 0 (firstn 1 ex_calls ++ [CRequest 50 (ex_msg 3 1 (ex_net + 4) 20)]) /\
  getb 14 4 (m_opts (ex_msg 3 1 (ex_net + 4) 20)) = Some (le 4 (ex_net + 4)).
Proof. split; [repeat split; vm_compute; congruence|reflexivity]. Qed.
