(** * The packet given to a network function, its transmissions, its configuration, the clock
      and sleeping: C96-C100 *)

From Coq Require Import NArith List Bool Lia Arith.
From Verif Require Import Expr Solver GhostFacts Heap Misc Config EnvConfig Bt Clock IndexPool Firewall Bridge NetEnv.
Import ListNotations.
Open Scope N_scope.

(** ** C96: the packet a network function is verified with *)

(** Reading the structure at the C structure's offsets (data, length, time, device at bytes 0,
    8, 16, 24) gives the packet's address, length, time and device; the length is that of an
    Ethernet frame and the device exists. *)
Theorem C96_packet_is_well_formed : forall freq k count st addr, alloc freq k count = Ok (st, addr) ->
  exists m time cycles, p_net st = Some m /\ ktime (p_k st) = Some (time, cycles) /\ n_tx m = [] /\
  forall r, holds r (kcs (p_k st)) ->
    hread 64 (pkt_obj (ev r (p_elem st))) 0 (0 * 8) 8 false = Ok (ev r (n_addr m)) /\
    hread 64 (pkt_obj (ev r (p_elem st))) 0 (8 * 8) 8 false = Ok (ev r (n_len m)) /\
    hread 64 (pkt_obj (ev r (p_elem st))) 0 (16 * 8) 8 false = Ok (ev r time) /\
    hread 64 (pkt_obj (ev r (p_elem st))) 0 (24 * 8) 2 false = Ok (ev r (n_dev m)) /\
    60 <= ev r (n_len m) <= 1514 /\ ev r (n_dev m) < ev r count /\ ev r time <> 2 ^ 64 - 1 /\
    (ebv r freq mod 2 ^ 8 <> 0 -> time_ns (ebv r freq mod 2 ^ 8, 10) (ev r cycles) = Some (ev r time)) /\
    ev r addr <> 0 /\ ev r (n_addr m) <> 0 /\ ev r (n_addr m) + 1514 < 2 ^ 64.
Proof.
  intros freq k count st addr A. destruct (alloc_spec _ _ _ _ _ A) as (time & cycles & _ & T & _ & W & m & Hm & TX & _ & _ & SP).
  exists m, time, cycles. split; [exact Hm|]. split; [exact T|]. split; [exact TX|]. intros r HR.
  destruct (SP r HR) as (_ & F & L & D & C & TM & [A1 _] & A2 & A3). unfold fields in F. injection F as F1 F2 F3 F4.
  split; [rewrite <- F1; apply pkt_load_heap; [exact W|reflexivity|discriminate]|].
  split; [rewrite <- F2; apply pkt_load_heap; [exact W|reflexivity|discriminate]|].
  split; [rewrite <- F3; apply (pkt_load_heap r (p_elem st) 16 8); [exact W|reflexivity|discriminate]|].
  split; [rewrite <- F4; apply (pkt_load_heap r (p_elem st) 24 2); [exact W|reflexivity|discriminate]|].
  split; [exact L|]. split; [exact D|]. split; [exact TM|]. split; [|auto].
  intros NZ. unfold time_ns. cbn [fst snd]. destruct (N.eqb_spec (ebv r freq mod 2 ^ 8) 0); [congruence|]. rewrite C. unfold clock_value, u64.
  destruct (ebv r freq mod 2 ^ 8); [congruence|reflexivity].
Qed.
Print Assumptions C96_packet_is_well_formed.

(** Any frame on any device, with any bytes, at any reading of the clock of Linux and bare
    metal (whose multiplier is the symbol's), at any address, is one of the packets. *)
Theorem C96_every_packet_is_covered_partial : forall freq k count r0 msr tsc t addr data len dev bytes,
  ktime k = None -> freq < knext k -> Forall (depb (knext k)) (kcs k) -> dep (knext k) count -> holds r0 (kcs k) ->
  time_ns (intel_init msr) tsc = Some t -> ebv r0 freq mod 2 ^ 8 = fst (intel_init msr) -> tsc < 2 ^ 64 ->
  addr <> 0 -> addr + 26 < 2 ^ 64 - 1 -> data <> 0 -> data + 1514 < 2 ^ 64 - 1 ->
  60 <= len <= 1514 -> dev < ev r0 count -> dev < 2 ^ 16 -> (forall i, bytes i < 2 ^ 8) ->
  exists st a m time r, alloc freq k count = Ok (st, a) /\ p_net st = Some m /\ option_map fst (ktime (p_k st)) = Some time /\
    eqbelow (knext k) r0 r /\ holds r (kcs (p_k st)) /\
    ev r a = addr /\ ev r (n_addr m) = data /\ ev r (n_len m) = len /\ ev r (n_dev m) = dev /\ ev r time = t /\
    forall i, i < 1514 -> ev r (p_data st i) = bytes i.
Proof.
  intros freq k count r0 msr tsc t addr data len dev bytes K F D C H T FR TS A1 A2 B1 B2 L V V2 BY.
  assert (E : t = clock_value (ebv r0 freq mod 2 ^ 8) tsc).
  { unfold time_ns in T. destruct (N.eqb_spec (fst (intel_init msr)) 0) as [Z|NZ]; [discriminate|].
    assert (Q : t = u64 (tsc / fst (intel_init msr) * snd (intel_init msr))) by congruence. rewrite Q, FR. change (snd (intel_init msr)) with 10.
    unfold clock_value, u64. destruct (fst (intel_init msr)); [congruence|reflexivity]. }
  rewrite E. apply alloc_complete; auto. intros X. pose proof (intel_even _ _ _ T) as P. rewrite E, X in P. discriminate P.
Qed.
Print Assumptions C96_every_packet_is_covered_partial.

(** Refuted for DPDK: its clock reads times the packets never have. *)
Theorem C96_dpdk_time_not_covered_refuted : exists hz f tsc t, hz < 2 ^ 64 /\ tsc < 2 ^ 64 /\ dpdk_init hz = Some f /\ time_ns f tsc = Some t /\
  forall freq k count st addr time cycles r, alloc freq k count = Ok (st, addr) -> ktime (p_k st) = Some (time, cycles) ->
    holds r (kcs (p_k st)) -> ev r time <> t.
Proof.
  exists 2000000000, (2, 1), 6, 3. split; [reflexivity|]. split; [reflexivity|]. split; [reflexivity|]. split; [reflexivity|].
  intros freq k count st addr time cycles r A T HR X. destruct (alloc_spec _ _ _ _ _ A) as (time' & cycles' & _ & T' & _ & _ & m & _ & _ & _ & _ & SP).
  assert (time' = time) by congruence. assert (cycles' = cycles) by congruence. subst. destruct (SP r HR) as (_ & _ & _ & _ & C & _).
  rewrite X in C. assert (P : N.even 3 = true); [|discriminate P]. rewrite C. unfold clock_value.
  change (_ mod 2 ^ 64) with (u64 (match ebv r freq mod 2 ^ 8 with 0 => 2 ^ 64 - 1 | N.pos _ => ev r cycles / (ebv r freq mod 2 ^ 8) end * 10)).
  rewrite u64_even, N.even_mul. apply orb_true_r.
Qed.
Print Assumptions C96_dpdk_time_not_covered_refuted.

(** Whatever the handler did before, the specification compares with the packet as received. *)
Theorem C96_received_packet_is_kept : forall freq k count st addr l st' v tx, alloc freq k count = Ok (st, addr) -> steps st l = Ok st' ->
  spec_view st' count = Ok (v, tx) ->
  exists m, p_net st = Some m /\ s_data v = p_data st /\ s_len v = n_len m /\ s_devs v = Single (n_dev m) /\ s_time v = option_map fst (ktime (p_k st)) /\
  (forall r, holds r (kcs (p_k st')) -> holds r (kcs (p_k st))).
Proof. exact received_kept. Qed.
Print Assumptions C96_received_packet_is_kept.

(** A 100-byte packet on device 1 of 3. *)
Definition ex_k : kst := mkK [] 1 None.
Definition ex_count : bv := BVV 16 3.
Definition ex_r0 : env := mkEnv (fun x => if x =? 0 then 26 else 0) (fun _ => false).
Example C96_example : exists st a m time r, alloc 0 ex_k ex_count = Ok (st, a) /\ p_net st = Some m /\ option_map fst (ktime (p_k st)) = Some time /\
    eqbelow 1 ex_r0 r /\ holds r (kcs (p_k st)) /\
    ev r a = 4096 /\ ev r (n_addr m) = 8192 /\ ev r (n_len m) = 100 /\ ev r (n_dev m) = 1 /\ ev r time = 380 /\
    forall i, i < 1514 -> ev r (p_data st i) = i mod 256.
Proof.
  apply (C96_every_packet_is_covered_partial 0 ex_k ex_count ex_r0 6656 1000 380 4096 8192 100 1 (fun i => i mod 256)); try reflexivity; try discriminate; try (split; discriminate).
  all: try constructor; try apply holds_nil; try (intros r1 r2 _; reflexivity); intros i; apply N.mod_lt; discriminate.
Qed.

(** ** C97: what a specification sees as transmitted is what goes out *)

(** [wire driver]: for handlers whose actions satisfy [ok], the packets the driver puts on
    the wire are those the specification sees: [as_seen] compares the devices, lengths and
    bytes. *)
Definition wire (handle : (N -> N -> N) -> nat -> N -> N -> (N -> N) -> list cact -> option (list (N * N * (N -> N))))
    (ok : env -> nat -> N -> act -> Prop) : Prop :=
  forall r macs n ingress, ingress < N.of_nat n -> N.of_nat n <= 2 ^ 16 ->
  forall freq k count st addr m l st' v tx, alloc freq k count = Ok (st, addr) -> p_net st = Some m -> ev r (n_dev m) = ingress ->
  steps st l = Ok st' -> holds r (kcs (p_k st')) -> spec_view st' count = Ok (v, tx) -> Forall (ok r n ingress) l ->
  exists w, handle macs n ingress (ev r (n_len m)) (fun i => ev r (p_data st i)) (conc_all r l) = Some w /\ as_seen r n tx w.

(** What the handlers may not do: transmit with flags or to the packet's own device, exclude
    devices. *)
Theorem C97_tinynf_sends_what_is_seen_partial :
  wire tn_handle (fun r n ingress a => plain_tx r n ingress false a /\ plain_len r true a).
Proof.
  intros r macs n ingress Hing Hn freq k count st addr m l st' v tx A Hm D S HR V OK.
  apply (proj1 (view_is_wire r macs n ingress Hing freq k count st addr m l st' v tx A Hm D Hn S HR V)).
  - eapply Forall_impl; [|exact OK]. intros a [X _]. exact X.
  - eapply Forall_impl; [|exact OK]. intros a [_ X]. exact X.
Qed.
Print Assumptions C97_tinynf_sends_what_is_seen_partial.

(** As well: change the packet's length. *)
Theorem C97_dpdk_sends_what_is_seen_partial :
  wire dp_handle (fun r n ingress a => plain_tx r n ingress true a /\ plain_len r false a).
Proof.
  intros r macs n ingress Hing Hn freq k count st addr m l st' v tx A Hm D S HR V OK.
  apply (proj2 (view_is_wire r macs n ingress Hing freq k count st addr m l st' v tx A Hm D Hn S HR V)).
  - eapply Forall_impl; [|exact OK]. intros a [X _]. exact X.
  - eapply Forall_impl; [|exact OK]. intros a [_ X]. exact X.
Qed.
Print Assumptions C97_dpdk_sends_what_is_seen_partial.

(** The example's state: 60 bytes on device 1 of 3. *)
Definition ex_st : pst := match alloc 0 ex_k ex_count with Ok (st, _) => st | _ => mkP ex_k (BVV 1 0) (fun _ => BVV 8 0) (fun _ => BVV 8 0) None end.
Definition ex_r : env := pkt_env ex_r0 ex_k 4096 60 8192 1 1000 380 (fun _ => 7).
Definition ex_macs (d i : N) : N := 100 + d.
Lemma ex_alloc : alloc 0 ex_k ex_count = Ok (ex_st, BVS 64 1).
Proof. reflexivity. Qed.
Definition ex_m : net := mkNet (BVS 64 3) (BVS 16 4) (BVS 64 2) [].
Lemma ex_net : p_net ex_st = Some ex_m.
Proof. reflexivity. Qed.
Lemma ex_dev : ev ex_r (n_dev ex_m) = 1.
Proof. reflexivity. Qed.
Lemma ex_holds : holds ex_r (kcs (p_k ex_st)).
Proof. intros c Hc. cbn in Hc. repeat (destruct Hc as [<-|Hc]; [reflexivity|]). destruct Hc. Qed.

Lemma ex_small : N.of_nat 3 <= 2 ^ 16.
Proof. discriminate. Qed.

(** One transmission [a] of the packet as received, and what follows if the drivers' output
    were what is seen. *)
Lemma ex_wire : forall handle ok a t, wire handle ok -> (forall r n ingress x, In x a -> ok r n ingress x) ->
  match steps ex_st a with Ok st' => kcs (p_k st') = kcs (p_k ex_st) /\ option_map n_tx (p_net st') = Some [t] | _ => False end ->
  exists w, handle ex_macs 3%nat 1 60 (fun i => ev ex_r (p_data ex_st i)) (conc_all ex_r a) = Some w /\
    (forall d, (exists len data, In (d, len, data) w) <-> d < 3 /\ eb ex_r (contains (if t_flood t then Flooded (t_dev t) ex_count else Single (t_dev t)) (BVV 16 d)) = true) /\
    forall d len data, In (d, len, data) w -> len = ev ex_r (t_len t) /\
      forall i, match steps ex_st a with Ok st' => data i = ev ex_r (p_data st' i) | _ => True end.
Proof.
  intros handle ok a t W OK H. destruct (steps ex_st a) as [st'| |] eqn:S; [|destruct H|destruct H]. destruct H as (K & TX).
  destruct (p_net st') as [m|] eqn:Hm; [|discriminate TX]. assert (TX' : n_tx m = [t]) by (cbn [option_map] in TX; congruence). clear TX. rename TX' into TX.
  assert (V : exists v, spec_view st' ex_count = Ok (v, Some (mkSp (p_data st') (t_len t) None (if t_flood t then Flooded (t_dev t) ex_count else Single (t_dev t))))).
  { unfold spec_view. rewrite Hm, TX. eexists. reflexivity. }
  destruct V as [v V].
  assert (LT : 1 < N.of_nat 3) by reflexivity.
  destruct (W ex_r ex_macs 3%nat 1 LT ex_small 0 ex_k ex_count ex_st (BVS 64 1) ex_m a st' v _ ex_alloc ex_net ex_dev S ltac:(rewrite K; exact ex_holds) V) as (w & E & AS).
  - apply Forall_forall. intros x Hx. apply OK. exact Hx.
  - exists w. split; [exact E|]. cbn [as_seen s_devs s_len s_data] in AS. destruct AS as [A1 A2]. split; [exact A1|exact A2].
Qed.

(** Refuted: excluded devices are seen as transmitted to. *)
Theorem C97_excluded_devices_refuted :
  ~ wire tn_handle (fun _ _ _ a => match a with AExcept _ _ f => f = BVV 8 0 | _ => False end) /\
  ~ wire dp_handle (fun _ _ _ a => match a with AExcept _ _ f => f = BVV 8 0 | _ => False end).
Proof.
  pose (a := [AExcept (BVV 64 0) (fun d => if d =? 2 then BTrue else BFalse) (BVV 8 0)]).
  split; intros W; destruct (ex_wire _ _ a (mkTx (get_data_addr (p_elem ex_st)) (get_length (p_elem ex_st)) (BVV 8 0) true (get_device (p_elem ex_st)) (Some (BVV 64 0))) W) as (w & E & A1 & _);
    try (intros r n i x [<-|[]]; reflexivity); try (split; reflexivity).
  all: vm_compute in E; injection E as <-; destruct (proj2 (A1 2)) as (len & data & X); [split; reflexivity|].
  all: cbn [In] in X; repeat (destruct X as [X|X]; [discriminate X|]); exact X.
Qed.
Print Assumptions C97_excluded_devices_refuted.

(** Refuted: with the flag that asks for new Ethernet addresses, other bytes go out. *)
Theorem C97_flags_refuted :
  ~ wire tn_handle (fun _ _ _ a => a = ATransmit (BVV 16 0) (BVV 8 1)) /\
  ~ wire dp_handle (fun _ _ _ a => a = ATransmit (BVV 16 0) (BVV 8 1)).
Proof.
  pose (a := [ATransmit (BVV 16 0) (BVV 8 1)]).
  split; intros W; destruct (ex_wire _ _ a (mkTx (get_data_addr (p_elem ex_st)) (get_length (p_elem ex_st)) (BVV 8 1) false (BVV 16 0) None) W) as (w & E & _ & A2);
    try (intros r n i x [<-|[]]; reflexivity); try (split; reflexivity).
  - unfold tn_handle in E. cbn -[handle_flags] in E. injection E as <-. destruct (A2 _ _ _ (or_introl eq_refl)) as [_ X]. specialize (X 0). vm_compute in X. discriminate X.
  - unfold dp_handle in E. cbn -[handle_flags] in E. injection E as <-. destruct (A2 _ _ _ (or_introl eq_refl)) as [_ X]. specialize (X 0). vm_compute in X. discriminate X.
Qed.
Print Assumptions C97_flags_refuted.

(** Refuted for TinyNF: a packet transmitted to its own device goes to another one. *)
Theorem C97_own_device_refuted : ~ wire tn_handle (fun _ _ _ a => a = ATransmit (BVV 16 1) (BVV 8 0)).
Proof.
  pose (a := [ATransmit (BVV 16 1) (BVV 8 0)]).
  intros W; destruct (ex_wire _ _ a (mkTx (get_data_addr (p_elem ex_st)) (get_length (p_elem ex_st)) (BVV 8 0) false (BVV 16 1) None) W) as (w & E & A1 & _);
    try (intros r n i x [<-|[]]; reflexivity); try (split; reflexivity).
  unfold tn_handle in E. cbn -[handle_flags] in E. injection E as <-. destruct (proj1 (A1 2)) as [_ X]; [do 2 eexists; left; reflexivity|]. vm_compute in X. discriminate X.
Qed.
Print Assumptions C97_own_device_refuted.

(** Refuted for DPDK: a packet whose length was changed goes out with its old length. *)
Theorem C97_length_refuted : ~ wire dp_handle (fun _ _ _ a => a = ASetLen (BVV 64 100) \/ a = ATransmit (BVV 16 0) (BVV 8 0)).
Proof.
  pose (a := [ASetLen (BVV 64 100); ATransmit (BVV 16 0) (BVV 8 0)]).
  intros W; destruct (ex_wire _ _ a (mkTx (get_data_addr (set_len (p_elem ex_st) (BVV 64 100))) (get_length (set_len (p_elem ex_st) (BVV 64 100))) (BVV 8 0) false (BVV 16 0) None) W) as (w & E & _ & A2);
    try (intros r n i x [<-|[<-|[]]]; auto); try (split; reflexivity).
  unfold dp_handle in E. cbn -[handle_flags] in E. injection E as <-. destruct (A2 _ _ _ (or_introl eq_refl)) as [X _]. vm_compute in X. discriminate X.
Qed.
Print Assumptions C97_length_refuted.

(** A second transmission is an error, it does not replace the first. *)
Theorem C97_two_transmissions_are_rejected : forall st l st' count m, p_net st = Some m -> n_tx m = [] -> steps st l = Ok st' ->
  (2 <= length (filter (fun a => match a with ATransmit _ _ | AFlood _ | AExcept _ _ _ => true | _ => false end) l))%nat ->
  spec_view st' count = Err.
Proof.
  intros st l st' count m Hm TX S L.
  assert (G : forall l st st' m, p_net st = Some m -> steps st l = Ok st' -> exists m', p_net st' = Some m' /\
     length (n_tx m') = (length (n_tx m) + length (filter (fun a => match a with ATransmit _ _ | AFlood _ | AExcept _ _ _ => true | _ => false end) l))%nat).
  { clear. induction l as [|a l IH]; intros st st' m Hm S; cbn [steps] in S.
    - injection S as <-. exists m. cbn. split; [exact Hm|lia].
    - apply bindr_ok in S as (st1 & S1 & S2).
      assert (X : exists m1, p_net st1 = Some m1 /\ length (n_tx m1) = (length (n_tx m) + length (filter (fun a => match a with ATransmit _ _ | AFlood _ | AExcept _ _ _ => true | _ => false end) [a]))%nat).
      { destruct a; cbn [step] in S1; unfold transmitted in S1; try rewrite Hm in S1; injection S1 as <-; cbn [p_net filter length n_tx];
          eexists; (split; [try exact Hm; reflexivity|]); cbn [n_tx]; rewrite ?app_length; cbn [length]; lia. }
      destruct X as (m1 & H1 & L1). destruct (IH _ _ _ H1 S2) as (m2 & H2 & L2). exists m2. split; [exact H2|]. rewrite L2, L1.
      cbn [filter]. destruct a; cbn [length filter]; lia. }
  destruct (G l st st' m Hm S) as (m' & Hm' & L'). rewrite TX in L'. cbn [length] in L'. unfold spec_view. rewrite Hm'.
  destruct (n_tx m') as [|x [|y z]]; cbn [length] in L'; [lia|lia|reflexivity].
Qed.
Print Assumptions C97_two_transmissions_are_rejected.

(** Flooding from device 1 of 3 reaches 0 and 2, with both drivers. *)
Example C97_example :
  option_map (map fst) (tn_handle ex_macs 3%nat 1 60 (fun i => ev ex_r (p_data ex_st i)) (conc_all ex_r [AFlood (BVV 8 0)])) = Some [(0, 60); (2, 60)] /\
  option_map (map fst) (dp_handle ex_macs 3%nat 1 60 (fun i => ev ex_r (p_data ex_st i)) (conc_all ex_r [AFlood (BVV 8 0)])) = Some [(0, 60); (2, 60)] /\
  Forall (fun a => plain_tx ex_r 3 1 false a /\ plain_len ex_r true a) [AFlood (BVV 8 0)] /\
  exists st' v tx, steps ex_st [AFlood (BVV 8 0)] = Ok st' /\ spec_view st' ex_count = Ok (v, Some tx).
Proof.
  split; [vm_compute; reflexivity|]. split; [vm_compute; reflexivity|]. split; [repeat constructor|]. do 3 eexists. split; reflexivity.
Qed.

(** ** C98: configuration lookups *)

Definition cf0 : fstate cfst := ([], mkCf 0 []).
Lemma cf0_ok : cf_ok (snd cf0).
Proof. split; intros; discriminate. Qed.

(** On one path, a name found again has the same value, different names have different
    symbols, and the specification gets what the network function got. *)
Theorem C98_one_value_per_name : forall s, solver_ok s -> forall p log st, cexec s cf0 p log st ->
  (forall n v v', In (n, Some v) log -> In (n, Some v') log -> v = v') /\
  (forall n n' v, In (n, Some v) log -> In (n', Some v) log -> n = n') /\
  (forall n v, spec_config st n = Ok v <-> In (n, Some v) log) /\
  (forall n, spec_config st n = Err <-> forall v, ~ In (n, Some v) log).
Proof.
  intros s SOK p log st H. destruct (cexec_spec s SOK _ _ _ _ H cf0_ok) as (O & _ & _ & A & B).
  assert (B' : forall n v, find_item (f_items (snd st)) n = Some v -> In (n, Some v) log).
  { intros n v F. destruct (B n v F) as [X|X]; [discriminate X|exact X]. }
  split; [intros n v v' I1 I2; apply A in I1, I2; congruence|]. split; [intros n n' v I1 I2; apply A in I1, I2; exact (proj2 O n n' v I1 I2)|].
  unfold spec_config. split; intros n.
  - intros v. destruct (find_item (f_items (snd st)) n) as [v0|] eqn:F; split.
    + intros E. injection E as <-. apply B'. exact F.
    + intros I. apply A in I. congruence.
    + discriminate.
    + intros I. apply A in I. congruence.
  - destruct (find_item (f_items (snd st)) n) as [v0|] eqn:F; split.
    + discriminate.
    + intros X. destruct (X v0). apply B'. exact F.
    + intros _ v I. apply A in I. congruence.
    + reflexivity.
Qed.
Print Assumptions C98_one_value_per_name.

(** Whatever the program does with the values, there is a path for each configuration. *)
Theorem C98_every_configuration_is_covered : forall s, solver_ok s -> forall tbl p, (forall name v, os_config_try_get tbl name = Some v -> v < 2 ^ 64) -> wfp 0 p ->
  exists log st r, cexec s cf0 p log st /\ holds r (fst st) /\ crun tbl r p log.
Proof.
  intros s SOK tbl p T W. destruct (cexec_complete s SOK tbl T p cf0 (mkEnv (fun _ => 0) (fun _ => false))) as (log & st & r & E & _ & H & C).
  - apply holds_nil.
  - constructor.
  - exact cf0_ok.
  - exact W.
  - intros n v F. discriminate F.
  - exists log, st, r. auto.
Qed.
Print Assumptions C98_every_configuration_is_covered.

(** Conversely a path is what some configuration gives, if no name is found once and missing
    once. *)
Theorem C98_paths_are_configurations_partial : forall s, solver_ok s -> forall p log st, cexec s cf0 p log st ->
  (forall n out, In (n, out) log -> cstr_ok n) -> (forall n v, In (n, Some v) log -> ~ In (n, None) log) ->
  forall r, holds r (fst st) -> exists tbl, config_ok tbl /\ crun tbl r p log.
Proof.
  intros s SOK p log st H SK NB r HR. destruct (C98_one_value_per_name s SOK p log st H) as (U & _ & _).
  destruct (cexec_spec s SOK _ _ _ _ H cf0_ok) as (O & _ & _ & A & _).
  destruct (log_config_get r log SK U NB) as [CO G].
  { intros n v I. apply A in I. destruct (proj1 O _ _ I) as (y & -> & _). cbn [evalv]. apply wrap_lt. }
  exists (log_config r log). split; [exact CO|]. apply (proj2 (cexec_sound s SOK _ _ _ _ H r HR)). exact G.
Qed.
Print Assumptions C98_paths_are_configurations_partial.

(** Refuted: a name found once may be missing the next time, which no configuration does. *)
Definition twice (name : cstr) : cprog := CGet name (fun _ => CGet name (fun _ => CRet)).
Theorem C98_lost_name_refuted : exists name log st r, cexec bt cf0 (twice name) log st /\ holds r (fst st) /\
  forall tbl, ~ crun tbl r (twice name) log.
Proof.
  exists [97], [([97], Some (BVS 64 1)); ([97], None)]. do 2 eexists. split; [|split].
  - eapply ce_get; [vm_compute; reflexivity|right; left; reflexivity|].
    eapply ce_get; [vm_compute; reflexivity|left; reflexivity|]. apply ce_ret.
  - instantiate (1 := mkEnv (fun _ => 0) (fun x => x =? 0)). intros c Hc. vm_compute in Hc. repeat (destruct Hc as [<-|Hc]; [vm_compute; reflexivity|]). destruct Hc.
  - intros tbl C. cbn [twice crun] in C. destruct C as (o1 & l1 & E1 & G1 & o2 & l2 & E2 & G2 & _). injection E1 as <- <-. injection E2 as <- <-.
    rewrite <- G1 in G2. discriminate G2.
Qed.
Print Assumptions C98_lost_name_refuted.

(** Two names, with a branch on the first one's value. *)
Definition two_names : cprog :=
  CGet [97] (fun v => match v with Some e => CBranch (BUle (BVV 64 10) e) (CGet [98] (fun _ => CRet)) CRet | None => CRet end).
Example C98_example : wfp 0 two_names /\
  exists log st r, cexec bt cf0 two_names log st /\ holds r (fst st) /\ crun [([98], 5); ([97], 12)] r two_names log.
Proof.
  assert (W : wfp 0 two_names).
  { intros [e|] n' _ D; [|exact I]. split; [|split; [intros v n2 _ _; exact I|exact I]]. intros r1 r2 Q. cbn [evalb]. f_equal. apply (D e eq_refl). exact Q. }
  split; [exact W|]. apply C98_every_configuration_is_covered; [exact bt_ok| |exact W].
  intros name v. cbn [os_config_try_get]. destruct (string_compare [98] name); [intros E; injection E as <-; reflexivity|].
  destruct (string_compare [97] name); [intros E; injection E as <-; reflexivity|discriminate].
Qed.

(** ** C99: the clock *)

(** [close f t tsc res]: at [tsc] ticks of a counter of [f] Hz, that is [tsc * 10^9 / f]
    nanoseconds, [t] is at most [res] nanoseconds late. *)
Definition close (f t tsc res : N) : Prop := t * f <= tsc * 1000000000 /\ tsc * 1000000000 < (t + res) * f.

(** Linux and bare metal: the counter's frequency is 100 MHz times the MSR's field; 10 ns. *)
Theorem C99_intel_clock : forall msr tsc, let f := N.land (N.shiftr msr 8) 255 * 100000000 in f <> 0 -> tsc / N.land (N.shiftr msr 8) 255 * 10 < 2 ^ 64 ->
  exists t, time_ns (intel_init msr) tsc = Some t /\ close f t tsc 10.
Proof.
  intros msr tsc f F B. unfold time_ns, intel_init, tsc_get_nhz. cbn [fst snd].
  destruct (N.eqb_spec (N.land (N.shiftr msr 8) 255) 0) as [Z|NZ]; [unfold f in F; rewrite Z in F; destruct (F eq_refl)|].
  eexists. split; [reflexivity|]. unfold u64. rewrite N.mod_small by exact B. unfold close, f.
  destruct (div_window tsc _ NZ) as [W1 W2]. clear F B. clear f. generalize dependent (N.land (N.shiftr msr 8) 255). intros num NZ W1 W2.
  generalize dependent (tsc / num). intros q W1 W2. rewrite N.mul_add_distr_r in W2. rewrite !N.mul_add_distr_r.
  replace (q * 10 * (num * 100000000)) with (q * num * 1000000000) by ring. lia.
Qed.
Print Assumptions C99_intel_clock.

(** DPDK: the resolution is what is left of 10^9 once the zeros at the end of the frequency
    are taken off. *)
Theorem C99_dpdk_clock_partial : forall hz num den tsc, hz < 2 ^ 64 -> dpdk_init hz = Some (num, den) -> hz mod 10000000000 <> 0 -> tsc / num * den < 2 ^ 64 ->
  exists t, time_ns (num, den) tsc = Some t /\ close hz t tsc den /\ exists k, k <= 9 /\ den = 10 ^ (9 - k) /\ hz = num * 10 ^ k.
Proof.
  intros hz num den tsc H I M B. unfold dpdk_init in I. destruct (N.eqb_spec hz 0) as [Z|NZ]; [discriminate|].
  assert (I' : strip 20 hz 1000000000 = (num, den)) by congruence. clear I.
  apply strip_spec in I' as (NM & k & E1 & E2); [|lia|eapply N.lt_trans; [exact H|reflexivity]].
  assert (K : k <= 9).
  { destruct (N.le_gt_cases k 9) as [L|L]; [exact L|]. exfalso. apply M. rewrite E1. replace k with (10 + (k - 10)) by lia. rewrite N.pow_add_r.
    change (10 ^ 10) with 10000000000. replace (num * (10000000000 * 10 ^ (k - 10))) with (num * 10 ^ (k - 10) * 10000000000) by ring. apply N.mod_mul. discriminate. }
  assert (D : den = 10 ^ (9 - k)).
  { rewrite E2. change 1000000000 with (10 ^ 9). replace 9 with ((9 - k) + k) at 1 by lia. rewrite N.pow_add_r. apply N.div_mul. apply N.pow_nonzero. discriminate. }
  assert (ZN : num <> 0) by (intros Z; rewrite Z in NM; apply NM; reflexivity).
  unfold time_ns. cbn [fst snd]. destruct (N.eqb_spec num 0); [congruence|]. eexists. split; [reflexivity|]. unfold u64. rewrite N.mod_small by exact B.
  split; [|exists k; auto]. unfold close. rewrite E1. destruct (div_window tsc _ ZN) as [W1 W2].
  assert (P : den * 10 ^ k = 1000000000) by (rewrite D, <- N.pow_add_r; replace (9 - k + k) with 9 by lia; reflexivity).
  generalize dependent (tsc / num). intros q _ W1 W2. rewrite N.mul_add_distr_r in W2. rewrite !N.mul_add_distr_r.
  replace (q * den * (num * 10 ^ k)) with (q * num * (den * 10 ^ k)) by ring. replace (den * (num * 10 ^ k)) with (num * (den * 10 ^ k)) by ring.
  rewrite P. lia.
Qed.
Print Assumptions C99_dpdk_clock_partial.

(** Until the 64 bits are used up, time does not go back. *)
Theorem C99_monotonic : forall num den t1 t2 a b, t1 <= t2 -> t2 / num * den < 2 ^ 64 ->
  time_ns (num, den) t1 = Some a -> time_ns (num, den) t2 = Some b -> a <= b.
Proof.
  intros num den t1 t2 a b L B. unfold time_ns. cbn [fst snd]. destruct (N.eqb_spec num 0); [discriminate|]. intros E1 E2. injection E1 as <-. injection E2 as <-.
  pose proof (N.div_le_mono t1 t2 num n L) as M. unfold u64. assert (Q : t1 / num * den <= t2 / num * den) by (apply N.mul_le_mono_r; exact M).
  rewrite !N.mod_small by lia. exact Q.
Qed.
Print Assumptions C99_monotonic.

(** Linux and bare metal: never the value reserved for "no time". *)
Theorem C99_intel_never_max : forall msr tsc t, time_ns (intel_init msr) tsc = Some t -> t <> 2 ^ 64 - 1.
Proof. intros msr tsc t H E. apply intel_even in H. rewrite E in H. discriminate H. Qed.
Print Assumptions C99_intel_never_max.

(** Refuted for DPDK: at 2.599999999 GHz the clock moves once a second; at 10 GHz it never
    moves; at 1 GHz it can read the reserved value. *)
Theorem C99_dpdk_clock_refuted :
  (exists f, dpdk_init 2599999999 = Some f /\ time_ns f 2599999999 = Some 1000000000 /\ time_ns f (2599999999 * 2 - 1) = Some 1000000000) /\
  (exists f, dpdk_init 10000000000 = Some f /\ forall tsc, time_ns f tsc = Some 0) /\
  (exists f, dpdk_init 1000000000 = Some f /\ time_ns f (2 ^ 64 - 1) = Some (2 ^ 64 - 1)).
Proof.
  split; [eexists; split; [vm_compute; reflexivity|]; split; vm_compute; reflexivity|]. split.
  - eexists. split; [vm_compute; reflexivity|]. intros tsc. unfold time_ns, u64. cbn [fst snd N.eqb]. rewrite N.mul_0_r. reflexivity.
  - eexists. split; [vm_compute; reflexivity|]. vm_compute. reflexivity.
Qed.
Print Assumptions C99_dpdk_clock_refuted.

(** 2.6 GHz, one second. *)
Example C99_example : time_ns (intel_init 6656) 2600000000 = Some 1000000000 /\ close (26 * 100000000) 1000000000 2600000000 10 /\
  dpdk_init 2600000000 = Some (26, 10).
Proof. vm_compute. split; [reflexivity|]. split; [|reflexivity]. split; [discriminate|reflexivity]. Qed.

(** ** C100: sleeping *)

(** Linux asks for exactly the nanoseconds given, in a form [nanosleep] accepts. *)
Theorem C100_linux_sleep : forall ns, ns < 2 ^ 64 -> fst (linux_sleep ns) * 1000000000 + snd (linux_sleep ns) = ns /\
  snd (linux_sleep ns) < 1000000000 /\ fst (linux_sleep ns) < 2 ^ 63.
Proof. intros ns H. destruct (linux_sleep_exact ns) as (A & B & C). auto. Qed.
Print Assumptions C100_linux_sleep.

(** DPDK asks for at least the nanoseconds given, up to 2^32 / 1000. *)
Theorem C100_dpdk_sleep_partial : forall ns, ns * 1000 < 2 ^ 32 -> ns <= dpdk_sleep ns * 1000.
Proof. intros ns H. unfold dpdk_sleep, u32, u64. rewrite (N.mod_small (ns * 1000) (2 ^ 64)) by lia. rewrite N.mod_small by exact H. lia. Qed.
Print Assumptions C100_dpdk_sleep_partial.

(** Refuted beyond: half a second of sleep is none. *)
Theorem C100_dpdk_sleep_refuted : exists ns, 500000000 < ns /\ ns < 2 ^ 30 /\ dpdk_sleep ns = 0.
Proof. exists 536870912. vm_compute. split; [reflexivity|]. split; reflexivity. Qed.
Print Assumptions C100_dpdk_sleep_refuted.

(** Bare metal: a sleep that ends has lasted the time given, modulo 2^64. *)
Theorem C100_metal_sleep_partial : forall freq ns tscs i, metal_sleep freq ns tscs = Some i ->
  exists t0 ti a b, nth_error tscs 0 = Some t0 /\ nth_error tscs (i - 1) = Some ti /\ time_ns freq t0 = Some a /\ time_ns freq ti = Some b /\ b = (a + ns) mod 2 ^ 64.
Proof.
  intros freq ns tscs i H. unfold metal_sleep in H. destruct tscs as [|t0 rest]; [discriminate|]. destruct (time_ns freq t0) as [a|] eqn:E; [|discriminate].
  destruct (wait freq (u64 (a + ns)) rest) as [m|] eqn:W; [|discriminate]. injection H as <-. destruct (wait_spec _ _ _ _ W) as (ti & N1 & T).
  exists t0, ti, a, (u64 (a + ns)). split; [reflexivity|]. split; [|auto].
  destruct m as [|m]; [|cbn in *; rewrite Nat.sub_0_r in N1; exact N1].
  exfalso. clear - W. destruct rest as [|x l]; cbn [wait] in W; [discriminate|]. destruct (time_ns freq x); [|discriminate].
  destruct (_ =? _); [discriminate|]. destruct (wait freq _ l); discriminate.
Qed.
Print Assumptions C100_metal_sleep_partial.

(** Refuted: it need not end. It waits for one exact time: an odd number of nanoseconds is
    never over; and a microsecond is missed by readings 78 ticks apart at 2.6 GHz. *)
Theorem C100_metal_sleep_ends_refuted :
  (forall msr ns, N.even ns = false -> forall tscs, metal_sleep (intel_init msr) ns tscs = None) /\
  (forall n, 78 * N.of_nat n < 2 ^ 64 -> metal_sleep (intel_init 6656) 1000 (map (fun i => 78 * N.of_nat i) (seq 0 n)) = None).
Proof.
  split.
  - intros msr ns O tscs. destruct (metal_sleep (intel_init msr) ns tscs) as [i|] eqn:E; [|reflexivity]. exfalso.
    destruct (C100_metal_sleep_partial _ _ _ _ E) as (t0 & ti & a & b & _ & _ & A & B & EQ). apply intel_even in A, B.
    change ((a + ns) mod 2 ^ 64) with (u64 (a + ns)) in EQ. rewrite EQ, u64_even, N.even_add, A, O in B. discriminate B.
  - intros n L. destruct (metal_sleep (intel_init 6656) 1000 (map (fun i => 78 * N.of_nat i) (seq 0 n))) as [i|] eqn:E; [|reflexivity]. exfalso.
    destruct (C100_metal_sleep_partial _ _ _ _ E) as (t0 & ti & a & b & N0 & NI & A & B & EQ). change (intel_init 6656) with (26, 10) in A, B.
    assert (G : forall j t, nth_error (map (fun i => 78 * N.of_nat i) (seq 0 n)) j = Some t -> (j < n)%nat /\ t = 78 * N.of_nat j).
    { intros j t X. assert (J : (j < n)%nat).
      { assert (H : Nat.lt j (length (map (fun i => 78 * N.of_nat i) (seq 0 n)))) by (apply nth_error_Some; congruence). rewrite map_length, seq_length in H. exact H. }
      split; [exact J|]. apply (nth_error_nth _ _ 0) in X. rewrite <- X. rewrite (nth_indep _ 0 (78 * N.of_nat 0)) by (rewrite map_length, seq_length; exact J).
      rewrite (map_nth (fun i => 78 * N.of_nat i)). rewrite seq_nth by exact J. reflexivity. }
    destruct (G _ _ N0) as [_ ->]. destruct (G _ _ NI) as [J ->]. set (x := N.of_nat (i - 1)) in *. assert (X : 78 * x < 2 ^ 64) by (unfold x; lia).
    assert (A' : a = 0) by (vm_compute in A; congruence).
    assert (B' : b = 3 * x * 10).
    { unfold time_ns in B. cbn [fst snd] in B. change (26 =? 0) with false in B. cbv iota in B.
      replace (78 * x) with (3 * x * 26) in B by lia. rewrite N.div_mul in B by discriminate. unfold u64 in B. rewrite N.mod_small in B by lia. congruence. }
    rewrite A', B' in EQ. change ((0 + 1000) mod 2 ^ 64) with 1000 in EQ. lia.
Qed.
Print Assumptions C100_metal_sleep_ends_refuted.

Example C100_example : linux_sleep 1500000000 = (1, 500000000) /\ dpdk_sleep 2000 = 2000000 /\
  metal_sleep (intel_init 6656) 20 [26; 40; 60; 79; 90] = Some 4%nat.
Proof. vm_compute. split; [reflexivity|]. split; reflexivity. Qed.
