(** Property theorems C111 to C114: the router. *)

From Coq Require Import NArith List Bool Lia Arith.
From Verif Require Import Packet ContractsMore Router.
Import ListNotations.
Open Scope N_scope.

(** What the examples use: frames as lists of bytes. *)
Definition frame (device : N) (l : list N) : rpkt := mkR device 0 60 (fun o => nth (N.to_nat o) l 0).
(** On a router with three devices: a command with these four bytes, width and device. *)
Definition cmd (b0 b1 b2 b3 width dev : N) : rpkt := frame 2 [b0; b1; b2; b3; width; 0; 0; 0; 0; 0; 0; 0; dev; 0].
(** An IPv4 packet: total length and checksum (big-endian), TTL, destination. *)
Definition ip_to (len_hi len_lo ttl c_hi c_lo b0 b1 b2 b3 : N) : rpkt :=
  frame 0 [0; 0; 0; 0; 0; 0; 0; 0; 0; 0; 0; 0; 8; 0; 69; 0; len_hi; len_lo; 0; 0; 0; 0; ttl; 17; c_hi; c_lo; 10; 0; 0; 1; b0; b1; b2; b3].
Lemma frame_ok : forall device l, forallb (fun b => b <? 256) l = true -> data_ok (r_data (frame device l)).
Proof.
  intros device l H o. cbn [r_data frame]. destruct (Nat.ltb_spec (N.to_nat o) (length l)) as [L|G].
  - rewrite forallb_forall in H. apply N.ltb_lt. apply H. apply nth_In. exact L.
  - rewrite nth_overflow by exact G. reflexivity.
Qed.

(** ** C111 *)

(** Whatever was received before, with commands that meet lpm_set's precondition and do not
    give one prefix two devices. *)
Theorem C111_published_spec_partial : forall n cap search, search_ok search ->
  forall rs r, Forall (fun r => data_ok (r_data r)) rs -> data_ok (r_data r) -> set_fresh n cap search [] rs ->
  let t := snd (router_run n cap search [] rs) in
  consistent t -> router_spec n t r (fst (router_handle n cap search t r)).
Proof.
  intros n cap search HS rs r HD HR HF t HC. apply router_meets_spec; [exact HS| |exact HC|exact HR].
  apply run_ok; [|exact HD|exact HF]. split; [constructor|intros ? ? ? []].
Qed.
Print Assumptions C111_published_spec_partial.
(** 192.168.1.7/32 to device 1, all the rest to device 0. *)
Definition ex_cmds : list rpkt := [cmd 192 168 1 7 32 1; cmd 0 0 0 0 0 0].
Example C111_ex : set_fresh 3 4 ref_search [] ex_cmds /\ Forall (fun r => data_ok (r_data r)) ex_cmds /\
  let t := snd (router_run 3 4 ref_search [] ex_cmds) in
  consistent t /\
  option_map fst (fst (router_handle 3 4 ref_search t (ip_to 0 40 64 0 0 192 168 1 7))) = Some 1 /\
  option_map fst (fst (router_handle 3 4 ref_search t (ip_to 0 40 64 0 0 192 168 1 8))) = Some 0 /\
  option_map fst (fst (router_handle 3 4 ref_search t (ip_to 0 40 0 0 0 192 168 1 7))) = None.
Proof.
  split; [cbn; repeat split|]. split; [repeat constructor; apply frame_ok; reflexivity|]. cbn zeta.
  assert (E : snd (router_run 3 4 ref_search [] ex_cmds) = [((117549248, 32), 1); ((0, 0), 0)]) by reflexivity. rewrite E.
  split; [|repeat split; vm_compute; reflexivity].
  intros k w v k' v' [H|[H|[]]] [H'|[H'|[]]] _; congruence.
Qed.

(** Two commands for 10.x.x.x/0, with different addresses and devices: no answer of a lookup
    satisfies the specification. *)
Theorem C111_tie_refuted : exists n cap rs r, Forall (fun r => data_ok (r_data r)) rs /\ data_ok (r_data r) /\
  forall search, search_ok search -> set_fresh n cap search [] rs /\
  let t := snd (router_run n cap search [] rs) in ~ router_spec n t r (fst (router_handle n cap search t r)).
Proof.
  exists 4, 4%nat, [frame 3 [1; 0; 0; 0; 0; 0; 0; 0; 0; 0; 0; 0; 1; 0]; frame 3 [2; 0; 0; 0; 0; 0; 0; 0; 0; 0; 0; 0; 2; 0]], (ip_to 0 40 64 0 0 10 0 0 1).
  split; [repeat constructor; apply frame_ok; reflexivity|]. split; [apply frame_ok; reflexivity|].
  intros search HS. split; [cbn; repeat split|]. cbn zeta.
  assert (E : snd (router_run 4 4 search [] [frame 3 [1; 0; 0; 0; 0; 0; 0; 0; 0; 0; 0; 0; 1; 0]; frame 3 [2; 0; 0; 0; 0; 0; 0; 0; 0; 0; 0; 0; 2; 0]])
              = [((1, 0), 1); ((2, 0), 2)]) by reflexivity. rewrite E. set (t := [((1, 0), 1); ((2, 0), 2)]).
  assert (D : (r_device (ip_to 0 40 64 0 0 10 0 0 1) =? 4 - 1) = false) by reflexivity.
  assert (P : passes (r_data (ip_to 0 40 64 0 0 10 0 0 1)) = true) by reflexivity.
  rewrite handle_passes, P by exact D. intros S. apply (spec_passes _ _ _ _ D P) in S. cbn [fst] in S.
  change (ld32 (r_data (ip_to 0 40 64 0 0 10 0 0 1)) (IP + 16)) with 16777226 in S.
  assert (SM : forall k, spec_matches k 0 16777226 <-> k / 2 ^ 32 = 0).
  { intros k. unfold spec_matches. cbn zeta. change ((32 + 2 ^ 64 - 0) mod 2 ^ 64 mod 2 ^ 32) with 32. rewrite !N.shiftr_div_pow2. reflexivity. }
  destruct (search t 16777226) as [dev|]; cbn [option_map] in S.
  - destruct S as (k & w & v & Hin & _ & F).
    assert (w = 0) by (destruct Hin as [Q|[Q|[]]]; congruence). subst w.
    destruct (F 1 0 1 (or_introl eq_refl)) as [A|[A|A]]; [apply A, SM; reflexivity|lia|].
    destruct (F 2 0 2 (or_intror (or_introl eq_refl))) as [B|[B|B]]; [apply B, SM; reflexivity|lia|congruence].
  - apply (S 1 0 1 (or_introl eq_refl)). apply SM. reflexivity.
Qed.
Print Assumptions C111_tie_refuted.

(** ** C112 *)

(** What is forwarded passed these checks, and is unchanged. *)
Theorem C112_validation_partial : forall n cap search t r dev d', fst (router_handle n cap search t r) = Some (dev, d') ->
  d' = r_data r /\ r_device r <> n - 1 /\ be16 (r_data r) 12 = 2048 /\
  r_data r IP / 16 = 4 /\ 5 <= r_data r IP mod 16 /\ 0 < r_data r (IP + 8).
Proof.
  intros n cap search t r dev d' H. destruct (r_device r =? n - 1) eqn:D.
  - unfold router_handle in H. cbn zeta in H. rewrite D in H. destruct (command n r) as [[[k w] v]|]; discriminate.
  - rewrite handle_passes in H by exact D. destruct (passes (r_data r)) eqn:P; [|discriminate]. cbn [fst] in H.
    destruct (search t _) as [v|]; [|discriminate]. cbn [option_map] in H. assert (d' = r_data r) by congruence. subst d'. split; [reflexivity|].
    apply N.eqb_neq in D. split; [exact D|]. unfold passes in P.
    apply andb_prop in P as [P P5]. apply andb_prop in P as [P P4]. apply andb_prop in P as [P P3]. apply andb_prop in P as [P1 P2].
    apply negb_true_iff in P3, P5. apply N.eqb_eq in P1, P2. apply N.eqb_neq in P5. apply N.ltb_ge in P3.
    split; [|repeat split; auto; lia]. unfold ld16 in P1. unfold be16. lia.
Qed.
Print Assumptions C112_validation_partial.
Example C112_ex : option_map fst (fst (router_handle 3 4 ref_search [((0, 0), 1)] (ip_to 0 40 64 0 0 10 1 2 3))) = Some 1.
Proof. vm_compute. reflexivity. Qed.

Ltac forwarded search HS :=
  rewrite handle_passes by reflexivity; change (passes _) with true; cbn [fst];
  match goal with |- option_map _ (search ?t ?k) = _ =>
    let R := fresh in assert (R : lpm_result 4 t k (search t k)) by (apply HS; [split; [repeat constructor; intros []|intros ? ? ? [Q|[]]; injection Q as <- <- <-; split; vm_compute; congruence]|vm_compute; reflexivity]);
    destruct (search t k) as [v|]; cbn [option_map];
    [destruct R as (? & ? & [Q|[]] & _); injection Q as _ _ <-; reflexivity
    |exfalso; apply (R 0 0 1 (or_introl eq_refl)); apply prefix_none]
  end.

(** Whatever the checksum, a packet is forwarded: with a default route this one is. *)
Theorem C112_checksum_refuted : exists r, data_ok (r_data r) /\ ~ rfc_valid (r_data r) /\ ~ ip_checksum_valid (r_data r) /\
  forall search, search_ok search -> fst (router_handle 3 4 search [((0, 0), 1)] r) = Some (1, r_data r).
Proof.
  exists (ip_to 0 40 64 0 0 10 1 2 3). split; [apply frame_ok; reflexivity|].
  assert (B : ~ ip_checksum_valid (r_data (ip_to 0 40 64 0 0 10 1 2 3))) by (unfold ip_checksum_valid; vm_compute; discriminate).
  split; [intros [H _]; exact (B H)|]. split; [exact B|]. intros search HS. forwarded search HS.
Qed.
Print Assumptions C112_checksum_refuted.

(** A valid packet whose total length is not a multiple of 256 is looked up. *)
Theorem C112_valid_partial : forall n cap search t r, data_ok (r_data r) -> rfc_valid (r_data r) ->
  r_device r <> n - 1 -> be16 (r_data r) 12 = 2048 -> 0 < r_data r (IP + 8) -> be16 (r_data r) (IP + 2) mod 256 <> 0 ->
  fst (router_handle n cap search t r) = option_map (fun dev => (dev, r_data r)) (search t (ld32 (r_data r) (IP + 16))).
Proof.
  intros n cap search t r HD (_ & V & IH & _) D T TTL L. apply N.eqb_neq in D. rewrite handle_passes by exact D.
  assert (P : passes (r_data r) = true); [|rewrite P; reflexivity]. unfold passes. set (d := r_data r) in *.
  assert (A : ld16 d 12 = 8) by (unfold be16 in T; unfold ld16; pose proof (HD 12); pose proof (HD (12 + 1)); lia).
  assert (B : d IP mod 16 < 16) by (apply N.mod_lt; discriminate).
  assert (C : 256 <= ld16 d (IP + 2)).
  { unfold ld16. unfold be16 in L. destruct (N.eq_dec (d (IP + 2 + 1)) 0) as [Z|Z]; [|lia].
    exfalso. apply L. rewrite Z, N.add_0_r, N.mul_comm. apply N.mod_mul. discriminate. }
  rewrite A, V. change (8 =? 8) with true. change (4 =? 4) with true. cbn [andb].
  destruct (N.ltb_spec (d IP mod 16) 5); [lia|]. destruct (N.ltb_spec (ld16 d (IP + 2)) (d IP mod 16 * 4)); [lia|].
  destruct (N.eqb_spec (d (IP + 8)) 0); [lia|]. reflexivity.
Qed.
Print Assumptions C112_valid_partial.
Example C112_valid_ex : let r := ip_to 0 40 64 100 193 10 1 2 3 in data_ok (r_data r) /\ rfc_valid (r_data r) /\
  r_device r <> 3 - 1 /\ be16 (r_data r) 12 = 2048 /\ 0 < r_data r (IP + 8) /\ be16 (r_data r) (IP + 2) mod 256 <> 0.
Proof.
  cbv zeta. split; [apply frame_ok; reflexivity|]. split; [split; [vm_compute; reflexivity|]; split; [reflexivity|]; split; vm_compute; congruence|].
  split; [vm_compute; discriminate|]. split; [reflexivity|]. split; [reflexivity|vm_compute; discriminate].
Qed.

(** The total length is compared with its bytes the wrong way round: a packet that claims to
    be 1 byte long is forwarded, and a valid one of 1280 bytes is not. *)
Theorem C112_total_length_refuted :
  (exists r, data_ok (r_data r) /\ be16 (r_data r) (IP + 2) < r_data r IP mod 16 * 4 /\ ip_checksum_valid (r_data r) /\
   forall search, search_ok search -> fst (router_handle 3 4 search [((0, 0), 1)] r) = Some (1, r_data r)) /\
  (exists r, data_ok (r_data r) /\ rfc_valid (r_data r) /\ 0 < r_data r (IP + 8) /\ be16 (r_data r) 12 = 2048 /\
   forall search, fst (router_handle 3 4 search [((0, 0), 1)] r) = None).
Proof.
  split.
  - exists (ip_to 0 1 64 100 232 10 1 2 3). split; [apply frame_ok; reflexivity|]. split; [vm_compute; reflexivity|].
    split; [vm_compute; reflexivity|]. intros search HS. forwarded search HS.
  - exists (ip_to 5 0 64 95 233 10 1 2 3). split; [apply frame_ok; reflexivity|].
    split; [split; [vm_compute; reflexivity|]; split; [reflexivity|]; split; vm_compute; congruence|].
    split; [reflexivity|]. split; [reflexivity|]. intros search. rewrite handle_passes by reflexivity. reflexivity.
Qed.
Print Assumptions C112_total_length_refuted.

(** The time to live is never decremented (RFC 1812 section 5.3.1). *)
Theorem C112_ttl_refuted : forall n cap search t r dev d', fst (router_handle n cap search t r) = Some (dev, d') ->
  d' (IP + 8) = r_data r (IP + 8).
Proof. intros n cap search t r dev d' H. apply C112_validation_partial in H as [-> _]. reflexivity. Qed.
Print Assumptions C112_ttl_refuted.

(** ** C113 *)

(** Routes for single addresses and a default route, entered with their addresses in network
    order: the packet goes where the longest match of its destination, read as RFC 791 has
    it, says. *)
Theorem C113_host_routes_partial : forall n cap search rts r, search_ok search -> table_ok 4 rts -> table_ok 4 (entered rts) ->
  (forall k w v, In ((k, w), v) rts -> w = 0 \/ w = 32) ->
  data_ok (r_data r) -> r_device r <> n - 1 -> passes (r_data r) = true ->
  lpm_result 4 rts (be32 (r_data r) (IP + 16)) (option_map fst (fst (router_handle n cap search (entered rts) r))).
Proof.
  intros n cap search rts r HS T1 T2 HW HD D P. apply entered_result; auto. apply N.eqb_neq in D. rewrite handle_passes, P by exact D. cbn [fst].
  assert (E : forall o : option N, option_map fst (option_map (fun v => (v, r_data r)) o) = o) by (intros [v|]; reflexivity).
  rewrite E. apply HS; [exact T2|]. apply ld32_lt. exact HD.
Qed.
Print Assumptions C113_host_routes_partial.
(** The table the commands of [ex_cmds] make: 192.168.1.7/32 and 0.0.0.0/0. *)
Example C113_ex : entered [((3232235783, 32), 1); ((0, 0), 0)] = snd (router_run 3 4 ref_search [] ex_cmds) /\
  be32 (r_data (ip_to 0 40 64 0 0 192 168 1 7)) (IP + 16) = 3232235783.
Proof. split; vm_compute; reflexivity. Qed.

(** Not so for networks, in whichever order the address is entered: with a route for
    10.0.0.0/8 to device 1, a packet for 10.1.2.3 is not forwarded. *)
Theorem C113_networks_refuted : forall key, In key [be32 (r_data (frame 2 [10; 0; 0; 0])) 0; ld32 (r_data (frame 2 [10; 0; 0; 0])) 0] ->
  exists r, data_ok (r_data r) /\ passes (r_data r) = true /\ rfc_valid (r_data r) /\
  same_prefix 32 8 (be32 (r_data (frame 2 [10; 0; 0; 0])) 0) (be32 (r_data r) (IP + 16)) /\
  forall search, search_ok search -> fst (router_handle 3 4 search [((key, 8), 1)] r) = None.
Proof.
  intros key HK. exists (ip_to 0 40 64 100 193 10 1 2 3). split; [apply frame_ok; reflexivity|]. split; [reflexivity|].
  split; [split; [vm_compute; reflexivity|]; split; [reflexivity|]; split; vm_compute; congruence|].
  split; [apply matchb_prefix; vm_compute; reflexivity|].
  intros search HS. rewrite handle_passes by reflexivity. change (passes _) with true. cbn [fst].
  match goal with |- option_map _ (search ?t ?k) = _ =>
    assert (R : lpm_result 4 t k (search t k)) by (apply HS; [split; [repeat constructor; intros []|intros ? ? ? [Q|[]]; injection Q as <- <- <-; split; [|vm_compute; congruence]; destruct HK as [<-|[<-|[]]]; vm_compute; reflexivity]|vm_compute; reflexivity]);
    destruct (search t k) as [v|]; cbn [option_map]; [exfalso|reflexivity] end.
  destruct R as (k & w & [Q|[]] & SP & _). injection Q as <- <- _. apply matchb_prefix in SP; [|destruct HK as [<-|[<-|[]]]; vm_compute; reflexivity|vm_compute; reflexivity].
  destruct HK as [<-|[<-|[]]]; vm_compute in SP; discriminate.
Qed.
Print Assumptions C113_networks_refuted.

(** ** C114 *)

(** A packet leaves on a device some command named. *)
Theorem C114_named_device_partial : forall n cap search, search_ok search ->
  forall rs r, Forall (fun r => data_ok (r_data r)) rs -> data_ok (r_data r) -> set_fresh n cap search [] rs ->
  forall dev d', fst (router_handle n cap search (snd (router_run n cap search [] rs)) r) = Some (dev, d') ->
  exists c, In c rs /\ r_device c = n - 1 /\ ld16 (r_data c) 12 = dev.
Proof.
  intros n cap search HS rs r HD HR HF dev d' H.
  assert (INV : forall rs t, (forall k w v, In ((k, w), v) (snd (router_run n cap search t rs)) -> In ((k, w), v) t \/ exists c, In c rs /\ r_device c = n - 1 /\ ld16 (r_data c) 12 = v)).
  { clear. induction rs as [|c rs IH]; intros t k w v Hin; [left; exact Hin|]. cbn [router_run] in Hin.
    destruct (router_handle n cap search t c) as [o t1] eqn:E. destruct (router_run n cap search t1 rs) as [os t2] eqn:E2. cbn [snd] in Hin.
    specialize (IH t1 k w v). rewrite E2 in IH. destruct (IH Hin) as [H|(c' & H1 & H2)]; [|right; exists c'; split; [right; exact H1|exact H2]].
    destruct (r_device c =? n - 1) eqn:D.
    - unfold router_handle in E. cbn zeta in E. rewrite D in E. unfold command in E. rewrite D in E. cbn zeta in E.
      destruct (32 <? ld64 (r_data c) 4); [left; congruence|]. assert (t1 = lpm_set cap t (ld32 (r_data c) 0) (ld64 (r_data c) 4) (ld16 (r_data c) 12)) by congruence. subst t1.
      unfold lpm_set in H. destruct (Nat.ltb _ _); [|left; exact H]. apply in_app_or in H as [H|[H|[]]]; [left; exact H|].
      right. exists c. split; [left; reflexivity|]. split; [apply N.eqb_eq; exact D|congruence].
    - left. rewrite handle_passes in E by exact D. destruct (passes (r_data c)); congruence. }
  destruct (r_device r =? n - 1) eqn:D.
  - unfold router_handle in H. cbn zeta in H. rewrite D in H. destruct (command n r) as [[[? ?] ?]|]; discriminate.
  - rewrite handle_passes in H by exact D. destruct (passes (r_data r)); [|discriminate]. cbn [fst] in H.
    set (t := snd (router_run n cap search [] rs)) in *.
    assert (T : table_ok 4 t) by (apply run_ok; [split; [constructor|intros ? ? ? []]|exact HD|exact HF]).
    pose proof (HS t _ T (ld32_lt _ (IP + 16) HR)) as R. destruct (search t (ld32 (r_data r) (IP + 16))) as [v|]; [|discriminate].
    cbn [option_map] in H. assert (v = dev) by congruence. subst v. destruct R as (k & w & Hin & _).
    destruct (INV rs [] k w dev Hin) as [[]|X]. exact X.
Qed.
Print Assumptions C114_named_device_partial.

(** What a frame on the last device does, byte by byte: bytes 0 to 3 are the address, byte 4 the
    prefix length if bytes 5 to 11 are zero, bytes 12 and 13 the device. *)
Theorem C114_command : forall n cap search t r, data_ok (r_data r) -> r_device r = n - 1 ->
  let d := r_data r in
  fst (router_handle n cap search t r) = None /\
  ((d 4 <= 32 /\ (forall i, 5 <= i -> i <= 11 -> d i = 0) /\ (length t < cap)%nat /\
    snd (router_handle n cap search t r) =
      (t ++ [((d 0 + 2 ^ 8 * d 1 + 2 ^ 16 * d 2 + 2 ^ 24 * d 3, d 4), d 12 + 2 ^ 8 * d 13)])%list) \/
   ((32 < d 4 \/ (exists i, 5 <= i /\ i <= 11 /\ d i <> 0) \/ (cap <= length t)%nat) /\
    snd (router_handle n cap search t r) = t)).
Proof.
  intros n cap search t r HD D d. unfold router_handle, command. cbn zeta. rewrite D, N.eqb_refl. fold d.
  assert (L : ld64 d 4 = d 4 + 256 * (d 5 + 256 * (d 6 + 256 * (d 7 + 256 * (d 8 + 256 * (d 9 + 256 * (d 10 + 256 * d 11))))))) by
    (unfold ld64, ld32, ld16; change (4 + 1) with 5; change (4 + 2) with 6; change (6 + 1) with 7; change (4 + 4) with 8; change (8 + 1) with 9; change (8 + 2) with 10; change (10 + 1) with 11; change (2 ^ 32) with 4294967296; lia).
  assert (W : 32 < ld64 d 4 <-> 32 < d 4 \/ exists i, 5 <= i /\ i <= 11 /\ d i <> 0).
  { rewrite L. split.
    - intros H. destruct (N.lt_ge_cases 32 (d 4)) as [|G]; [left; assumption|right].
      destruct (N.eq_dec (d 5) 0) as [Z5|]; [|exists 5; repeat split; [lia|lia|assumption]].
      destruct (N.eq_dec (d 6) 0) as [Z6|]; [|exists 6; repeat split; [lia|lia|assumption]].
      destruct (N.eq_dec (d 7) 0) as [Z7|]; [|exists 7; repeat split; [lia|lia|assumption]].
      destruct (N.eq_dec (d 8) 0) as [Z8|]; [|exists 8; repeat split; [lia|lia|assumption]].
      destruct (N.eq_dec (d 9) 0) as [Z9|]; [|exists 9; repeat split; [lia|lia|assumption]].
      destruct (N.eq_dec (d 10) 0) as [Z10|]; [|exists 10; repeat split; [lia|lia|assumption]].
      destruct (N.eq_dec (d 11) 0) as [Z11|]; [|exists 11; repeat split; [lia|lia|assumption]]. lia.
    - intros [H|(i & H1 & H2 & H3)]; [lia|].
      assert (I : i = 5 \/ i = 6 \/ i = 7 \/ i = 8 \/ i = 9 \/ i = 10 \/ i = 11) by lia.
      destruct I as [->|[->|[->|[->|[->|[->| ->]]]]]]; lia. }
  destruct (N.ltb_spec 32 (ld64 d 4)) as [G|G]; cbn [fst snd].
  - split; [reflexivity|]. right. split; [|reflexivity]. apply W in G. tauto.
  - split; [reflexivity|]. unfold lpm_set. destruct (Nat.ltb_spec (length t) cap) as [C|C].
    + left. assert (Z : forall i, 5 <= i -> i <= 11 -> d i = 0) by (intros i H1 H2; destruct (N.eq_dec (d i) 0) as [|X]; [assumption|]; assert (32 < ld64 d 4) by (apply W; right; exists i; auto); lia).
      split; [destruct (N.le_gt_cases (d 4) 32) as [|X]; [assumption|]; assert (32 < ld64 d 4) by (apply W; left; exact X); lia|].
      split; [exact Z|]. split; [exact C|].
      assert (E4 : ld64 d 4 = d 4) by (rewrite L, (Z 5), (Z 6), (Z 7), (Z 8), (Z 9), (Z 10), (Z 11) by lia; lia).
      assert (E0 : ld32 d 0 = d 0 + 2 ^ 8 * d 1 + 2 ^ 16 * d 2 + 2 ^ 24 * d 3) by (unfold ld32, ld16; change (0 + 1) with 1; change (0 + 2) with 2; change (2 + 1) with 3; change (2 ^ 8) with 256; change (2 ^ 16) with 65536; change (2 ^ 24) with 16777216; lia).
      rewrite E4, E0. reflexivity.
    + right. split; [right; right; exact C|reflexivity].
Qed.
Print Assumptions C114_command.
Example C114_command_ex : snd (router_handle 3 4 ref_search [] (cmd 10 0 0 0 8 1)) = [((10, 8), 1)].
Proof. vm_compute. reflexivity. Qed.

(** But nothing checks that it exists: on a router with three devices, this command is
    accepted and packets are given to device 7. *)
Theorem C114_device_refuted : exists rs r, Forall (fun r => data_ok (r_data r)) rs /\ data_ok (r_data r) /\
  forall search, search_ok search -> set_fresh 3 4 search [] rs /\
  fst (router_handle 3 4 search (snd (router_run 3 4 search [] rs)) r) = Some (7, r_data r).
Proof.
  exists [cmd 0 0 0 0 0 7], (ip_to 0 40 64 0 0 10 1 2 3).
  split; [repeat constructor; apply frame_ok; reflexivity|]. split; [apply frame_ok; reflexivity|]. intros search HS.
  split; [cbn; repeat split|]. change (snd (router_run 3 4 search [] [cmd 0 0 0 0 0 7])) with [((0, 0), 7)].
  rewrite handle_passes by reflexivity; change (passes _) with true; cbn [fst].
  match goal with |- option_map _ (search ?t ?k) = _ =>
    assert (R : lpm_result 4 t k (search t k)) by (apply HS; [split; [repeat constructor; intros []|intros ? ? ? [Q|[]]; injection Q as <- <- <-; split; vm_compute; congruence]|vm_compute; reflexivity]);
    destruct (search t k) as [v|]; cbn [option_map] end.
  - destruct R as (? & ? & [Q|[]] & _). injection Q as _ _ <-. reflexivity.
  - exfalso. apply (R 0 0 7 (or_introl eq_refl)). apply prefix_none.
Qed.
Print Assumptions C114_device_refuted.
(** Nor that a pair is new before it calls lpm_set: repeating a command breaks the
    precondition lpm.h states. *)
Theorem C114_precondition_refuted : exists rs, Forall (fun r => data_ok (r_data r)) rs /\ forall search, ~ set_fresh 3 4 search [] rs.
Proof.
  exists [cmd 10 0 0 0 8 1; cmd 10 0 0 0 8 0]. split; [repeat constructor; apply frame_ok; reflexivity|].
  intros search (_ & H & _). vm_compute in H. discriminate.
Qed.
Print Assumptions C114_precondition_refuted.
(** The table never outgrows the capacity it was given (lpm.h 16). *)
Theorem C114_capacity : forall n cap search rs, (length (snd (router_run n cap search [] rs)) <= cap)%nat.
Proof.
  intros n cap search rs. assert (G : forall rs t, (length t <= cap)%nat -> (length (snd (router_run n cap search t rs)) <= cap)%nat).
  { clear. induction rs as [|r rs IH]; intros t H; [exact H|]. cbn [router_run]. destruct (router_handle n cap search t r) as [o t1] eqn:E.
    specialize (IH t1). destruct (router_run n cap search t1 rs) as [os t2]. cbn [snd] in *. apply IH.
    destruct (r_device r =? n - 1) eqn:D.
    - unfold router_handle in E. cbn zeta in E. rewrite D in E. destruct (command n r) as [[[k w] v]|]; [|congruence].
      assert (t1 = lpm_set cap t k w v) by congruence. subst t1. unfold lpm_set. destruct (Nat.ltb_spec (length t) cap); [rewrite app_length; cbn [length]; lia|exact H].
    - rewrite handle_passes in E by exact D. destruct (passes (r_data r)); congruence. }
  apply G. apply Nat.le_0_l.
Qed.
Print Assumptions C114_capacity.
