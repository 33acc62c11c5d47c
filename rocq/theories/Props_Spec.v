(** Property theorems C56, C57, C58, C59. *)

From Coq Require Import NArith ZArith List Bool Lia.
From Verif Require Import Expr Solver SpecValues.
Import ListNotations.
Open Scope N_scope.

(** C56, what holds: when the right operand fits in the width of the left one, the
    result is the mathematical one (modulo the left width). *)
Theorem C56_arithmetic_partial : forall r self other o y, 0 < width self ->
  other_val r self other = Z.of_N y -> y < 2 ^ width self -> defined o (ev r self) y ->
  value_of r (proxy_op self other o) = math o (width self) (ev r self) y.
Proof. exact proxy_op_math. Qed.
Print Assumptions C56_arithmetic_partial.
(** In particular for every right operand that is not wider. *)
Theorem C56_not_wider_partial : forall r self e o, 0 < width self -> width e <= width self ->
  defined o (ev r self) (ev r e) ->
  value_of r (proxy_op self (PBv e) o) = math o (width self) (ev r self) (ev r e).
Proof.
  intros r self e o Hp Hw Hd. apply proxy_op_math; [exact Hp|reflexivity| |exact Hd].
  eapply N.lt_le_trans; [apply evalv_lt|]. apply N.pow_le_mono_r; lia.
Qed.
Print Assumptions C56_not_wider_partial.
Example C56_example :
  value_of (mkEnv (fun _ => 300) (fun _ => false)) (proxy_op (BVS 16 1) (PBv (BVV 8 7)) Osub) = MNum 293 /\
  value_of (mkEnv (fun _ => 5) (fun _ => false)) (proxy_op (BVS 4 1) (PInt 6) Olt) = MBool true /\
  value_of (mkEnv (fun _ => 5) (fun _ => false)) (proxy_op (BVS 16 1) (PInt 32) Orsub) = MNum 27.
Proof. vm_compute. auto. Qed.

(** C56 fails for wider right operands: an 8-bit 1 "equals" a 16-bit 257, though it does
    not when the operands are swapped. *)
Theorem C56_wider_refuted : exists r a b,
  ev r a <> ev r b /\ width a < width b /\
  value_of r (proxy_op a (PBv b) Oeq) = MBool true /\ value_of r (proxy_op b (PBv a) Oeq) = MBool false.
Proof.
  exists (mkEnv (fun _ => 0) (fun _ => false)), (BVV 8 1), (BVV 16 257). vm_compute. repeat split; discriminate.
Qed.
Print Assumptions C56_wider_refuted.
(** The same for constants: the 4-bit field 4 "equals" the number 20. *)
Theorem C56_constant_refuted : exists r a z, (z <> Z.of_N (ev r a) /\ 0 <= z < 256)%Z /\
  value_of r (proxy_op a (PInt z) Oeq) = MBool true.
Proof.
  exists (mkEnv (fun _ => 0) (fun _ => false)), (BVV 4 4), 20%Z. vm_compute. repeat split; discriminate.
Qed.
Print Assumptions C56_constant_refuted.

(** C57: splitting and joining are inverse, for flat structures of positive sizes. *)
Theorem C57_split_join_partial : forall r value fs n, posfs fs -> fs <> [] -> type_size (TDict fs) = width value ->
  exists e, type_unwrap (type_wrap value (TDict fs)) n = Ok e /\ ev r e = ev r value.
Proof. intros r value fs n Hp Hne Hs. rewrite type_size_dict in Hs. apply unwrap_wrap; assumption. Qed.
Print Assumptions C57_split_join_partial.
Theorem C57_join_split_partial : forall r vs fs n, posfs fs -> fs <> [] -> fits vs fs -> type_size (TDict fs) <= n ->
  exists e d, type_unwrap (VDict (members vs)) n = Ok e /\ width e = n /\
    type_wrap e (TDict fs) = VDict d /\ same_members r vs d.
Proof. intros r vs fs n Hp Hne Hf Hn. rewrite type_size_dict in Hn. apply wrap_unwrap; assumption. Qed.
Print Assumptions C57_join_split_partial.
(** The firewall's flows. *)
Definition ex_flow : list (N * ty) := [(1, TBits 32); (2, TBits 32); (3, TBits 16); (4, TBits 16); (5, TBits 8)].
Definition ex_members : list (N * bv) := [(1, BVS 32 1); (2, BVS 32 2); (3, BVS 16 3); (4, BVS 16 4); (5, BVS 8 5)].
Example C57_example : posfs ex_flow /\ fits ex_members ex_flow /\ type_size (TDict ex_flow) = 104.
Proof.
  split; [|split; [cbn; tauto|reflexivity]].
  intros k t Hin. cbn in Hin. repeat (destruct Hin as [E|Hin]; [injection E as <- <-; cbn; lia|]). destruct Hin.
Qed.

(** C57 fails for structures inside structures: they cannot be joined. *)
Theorem C57_nested_refuted : exists value fs n, type_size (TDict fs) = n /\
  type_unwrap (VDict value) n = Err /\
  map fst value = map fst fs /\ value = [(1, VBits (BVV 8 1)); (2, VDict [(3, VBits (BVV 8 2))])].
Proof. exists [(1, VBits (BVV 8 1)); (2, VDict [(3, VBits (BVV 8 2))])], [(1, TBits 8); (2, TDict [(3, TBits 8)])], 16. repeat split. Qed.
Print Assumptions C57_nested_refuted.
(** C57 fails for a member narrower than declared: the members after it are misplaced. *)
Theorem C57_narrow_refuted : exists vs fs r e d, type_unwrap (VDict (members vs)) (type_size (TDict fs)) = Ok e /\
  map fst vs = map fst fs /\ type_wrap e (TDict fs) = VDict d /\ ~ same_members r vs d.
Proof.
  exists [(1, BVV 8 1); (2, BVV 8 2)], [(1, TBits 16); (2, TBits 8)], (mkEnv (fun _ => 0) (fun _ => false)).
  do 2 eexists. split; [reflexivity|]. split; [reflexivity|]. split; [reflexivity|].
  vm_compute. intros (_ & H & _). discriminate.
Qed.
Print Assumptions C57_narrow_refuted.

(** C58: these fields read their wire bits (positions as in the RFCs, in bits from the
    start of the packet). *)
Theorem C58_fields_partial :
  reads_wire ether_base ether_fields F_dst 0 48 /\ reads_wire ether_base ether_fields F_src 48 48 /\
  reads_wire ether_base ether_fields F_type 96 16 /\
  reads_wire ipv4_base ipv4_fields F_version (112 + 0) 4 /\ reads_wire ipv4_base ipv4_fields F_ihl (112 + 4) 4 /\
  reads_wire ipv4_base ipv4_fields F_total_length (112 + 16) 16 /\
  reads_wire ipv4_base ipv4_fields F_identification (112 + 32) 16 /\
  reads_wire ipv4_base ipv4_fields F_time_to_live (112 + 64) 8 /\ reads_wire ipv4_base ipv4_fields F_protocol (112 + 72) 8 /\
  reads_wire ipv4_base ipv4_fields F_checksum (112 + 80) 16 /\
  reads_wire ipv4_base ipv4_fields F_src (112 + 96) 32 /\ reads_wire ipv4_base ipv4_fields F_dst (112 + 128) 32 /\
  (* when the IP header has no options *)
  reads_wire tcpudp_base tcpudp_fields F_src (112 + 8 * 20) 16 /\ reads_wire tcpudp_base tcpudp_fields F_dst (112 + 8 * 20 + 16) 16.
Proof.
  repeat split;
    first [apply aligned_wire; [vm_compute; reflexivity|reflexivity|vm_compute; discriminate]
          |eapply nibble_wire; [vm_compute; reflexivity|lia|lia|reflexivity|reflexivity]].
Qed.
Print Assumptions C58_fields_partial.
Definition ex_packet (i : N) : bv := BVV 8 (nth (N.to_nat i) [1;2;3;4;5;6; 7;8;9;10;11;12; 8;0; 0x46] 0).
Example C58_example :
  (exists e, header_get ex_packet ether_base ether_fields F_type = Ok e /\ ev env0 e = 8) /\
  (exists e, header_get ex_packet ipv4_base ipv4_fields F_version = Ok e /\ ev env0 e = 4) /\
  (exists e, header_get ex_packet ipv4_base ipv4_fields F_ihl = Ok e /\ ev env0 e = 6).
Proof. repeat split; eexists; split; vm_compute; reflexivity. Qed.

(** C58 fails for DSCP, ECN, flags and fragment offset: two packets with the same wire
    bits for the field, that read differently. *)
Definition misread (attr p n : N) : Prop := exists b1 b2 e1 e2,
  (forall q, p <= q < p + n -> wire_bit b1 q = wire_bit b2 q) /\
  header_get (fun i => BVV 8 (b1 i)) ipv4_base ipv4_fields attr = Ok e1 /\
  header_get (fun i => BVV 8 (b2 i)) ipv4_base ipv4_fields attr = Ok e2 /\
  ev env0 e1 <> ev env0 e2.
Theorem C58_misplaced_refuted :
  misread F_dscp (112 + 8) 6 /\ misread F_ecn (112 + 14) 2 /\
  misread F_flags (112 + 48) 3 /\ misread F_fragment_offset (112 + 51) 13.
Proof.
  assert (W : forall k a b p n, (forall j, j < n -> (p + j) / 8 = k -> N.testbit a (7 - (p + j) mod 8) = N.testbit b (7 - (p + j) mod 8)) ->
    forall q, p <= q < p + n -> wire_bit (fun i => if i =? k then a else 0) q = wire_bit (fun i => if i =? k then b else 0) q).
  { intros k a b p n H q Hq. unfold wire_bit. destruct (N.eqb_spec (q / 8) k) as [E|E]; [|reflexivity].
    replace q with (p + (q - p)) by lia. apply H; [lia|]. replace (p + (q - p)) with q by lia. exact E. }
  repeat split.
  - exists (fun i => if i =? 15 then 0 else 0), (fun i => if i =? 15 then 1 else 0). do 2 eexists.
    split; [|split; [reflexivity|split; [reflexivity|vm_compute; discriminate]]].
    apply W. intros j Hj _. assert (H : j = 0 \/ j = 1 \/ j = 2 \/ j = 3 \/ j = 4 \/ j = 5) by lia.
    repeat (destruct H as [->|H]; [reflexivity|]). subst j. reflexivity.
  - exists (fun i => if i =? 15 then 0 else 0), (fun i => if i =? 15 then 64 else 0). do 2 eexists.
    split; [|split; [reflexivity|split; [reflexivity|vm_compute; discriminate]]].
    apply W. intros j Hj _. assert (H : j = 0 \/ j = 1) by lia.
    repeat (destruct H as [->|H]; [reflexivity|]). subst j. reflexivity.
  - exists (fun i => if i =? 20 then 0 else 0), (fun i => if i =? 20 then 1 else 0). do 2 eexists.
    split; [|split; [reflexivity|split; [reflexivity|vm_compute; discriminate]]].
    apply W. intros j Hj _. assert (H : j = 0 \/ j = 1 \/ j = 2) by lia.
    repeat (destruct H as [->|H]; [reflexivity|]). subst j. reflexivity.
  - exists (fun i => if i =? 20 then 0 else 0), (fun i => if i =? 20 then 128 else 0). do 2 eexists.
    split; [|split; [reflexivity|split; [reflexivity|vm_compute; discriminate]]].
    apply W. intros j Hj E.
    assert (H : j = 0 \/ j = 1 \/ j = 2 \/ j = 3 \/ j = 4 \/ 5 <= j) by lia.
    repeat (destruct H as [->|H]; [reflexivity|]).
    exfalso. assert (21 <= (112 + 51 + j) / 8); [|lia]. apply N.div_le_lower_bound; lia.
Qed.
Print Assumptions C58_misplaced_refuted.
(** C58 fails for TCP and UDP ports when the IP header has options: the ports follow
    the 4 * ihl bytes of the IP header, the fields are read after 20 bytes. *)
Theorem C58_options_refuted : exists (byte : N -> N) ihl e,
  header_get (fun i => BVV 8 (byte i)) ipv4_base ipv4_fields F_ihl = Ok ihl /\ ev env0 ihl = 6 /\
  header_get (fun i => BVV 8 (byte i)) tcpudp_base tcpudp_fields F_src = Ok e /\
  ev env0 e = 7 /\ byte (14 + 4 * 6) = 0 /\ byte (14 + 4 * 6 + 1) = 80.
Proof.
  exists (fun i => if i =? 14 then 0x46 else if i =? 34 then 7 else if i =? 39 then 80 else 0).
  do 2 eexists. repeat split; vm_compute; reflexivity.
Qed.
Print Assumptions C58_options_refuted.

(** C59: when [exists] says no, no value works in any allowed execution... *)
Theorem C59_no_means_none_partial : forall s, solver_ok s -> forall cs w x pred,
  spec_exists s cs w x pred = false ->
  forall r, holds r cs -> eb r (pred (BVS w x)) = false.
Proof.
  intros s SOK cs w x pred H r Hr. destruct (eb r (pred (BVS w x))) eqn:E; [|reflexivity].
  exfalso. unfold spec_exists in H. apply (proj1 (sat_false_iff s SOK _) H r). apply holds_cons. auto.
Qed.
Print Assumptions C59_no_means_none_partial.
(** ... and when it says yes and the predicate only depends on the value, there is one
    value that works in all of them. *)
Theorem C59_yes_means_some_partial : forall s, solver_ok s -> forall cs w x pred,
  (forall r r', ebv r x = ebv r' x -> eb r (pred (BVS w x)) = eb r' (pred (BVS w x))) ->
  spec_exists s cs w x pred = true ->
  exists n, forall r, ebv r x = n -> eb r (pred (BVS w x)) = true.
Proof.
  intros s SOK cs w x pred Hp H. unfold spec_exists in H. apply (sat_iff s SOK) in H as [r0 Hr].
  apply holds_cons in Hr as [Hr _]. exists (ebv r0 x). intros r E. rewrite <- Hr. apply Hp. exact E.
Qed.
Print Assumptions C59_yes_means_some_partial.
Example C59_example :
  spec_exists bf [BUlt (BVS 3 1) (BVV 3 2)] 3 9 (fun v => BUlt (BVV 3 4) v) = true /\
  spec_exists bf [BUlt (BVS 3 1) (BVV 3 2)] 3 9 (fun v => BAnd (BUlt (BVV 3 4) v) (BUlt v (BVS 3 1))) = false.
Proof. vm_compute. auto. Qed.
(** C59 fails in general: it is enough that one execution has such a value. *)
Theorem C59_one_execution_refuted : forall s, solver_ok s -> exists cs w x pred r,
  spec_exists s cs w x pred = true /\ holds r cs /\
  forall n, eb (mkEnv (fun y => if y =? x then n else ebv r y) (ebool r)) (pred (BVS w x)) = false.
Proof.
  intros s SOK. exists [], 8, 9, (fun v => BAnd (BEq v (BVV 8 3)) (BEq (BVS 8 1) (BVV 8 0))), (mkEnv (fun _ => 1) (fun _ => false)).
  split.
  - apply (sat_iff s SOK). exists (mkEnv (fun y => if y =? 9 then 3 else 0) (fun _ => false)).
    intros c [<-|[]]. reflexivity.
  - split; [apply holds_nil|]. intros n. cbn. apply andb_false_r.
Qed.
Print Assumptions C59_one_execution_refuted.
