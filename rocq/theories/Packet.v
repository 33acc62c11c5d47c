(** * Packet bytes, header access and checksums (env/include/net/packet.h) *)

From Coq Require Import NArith ZArith List Bool Lia.
From Verif Require Import IndexPool HashMap Firewall.
Import ListNotations.
Open Scope N_scope.

(** The bytes of a packet by offset. *)
Definition data := N -> N.
Definition data_ok (d : data) : Prop := forall o, d o < 256.

(** Little-endian accesses of the x86 target. *)
Definition ld16 (d : data) (o : N) : N := d o + 256 * d (o + 1).
Definition ld32 (d : data) (o : N) : N := ld16 d o + 65536 * ld16 d (o + 2).
Definition ld48 (d : data) (o : N) : N := ld32 d o + 2 ^ 32 * ld16 d (o + 4).
Definition st16 (d : data) (o v : N) : data :=
  fun a => if a =? o then v mod 256 else if a =? o + 1 then (v / 256) mod 256 else d a.
Definition st32 (d : data) (o v : N) : data := st16 (st16 d o (v mod 65536)) (o + 2) (v / 65536).

(** packet.h 31-57: offsets of the headers and of their fields. The structures are
    packed and the getters (60-89) do not look at the IP header's length. *)
Definition IP : N := 14.
Definition L4 : N := 14 + 20.

(** struct net_packet (18-26), parsed; the fields of headers that the packet does not
    have are just the bytes there. *)
Record rpkt := mkR { r_device : N; r_time : N; r_length : N; r_data : data }.
Definition parse (r : rpkt) : pkt :=
  mkPkt (r_device r) (r_time r) (r_length r)
        (ld48 (r_data r) 0) (ld48 (r_data r) 6) (ld16 (r_data r) 12)
        (r_data r (IP + 9)) (ld32 (r_data r) (IP + 12)) (ld32 (r_data r) (IP + 16))
        (ld16 (r_data r) L4) (ld16 (r_data r) (L4 + 2)).
Definition rpkt_ok (r : rpkt) : Prop := r_device r < 2 /\ r_time r < TIME_MAX /\ data_ok (r_data r).

Lemma ld16_lt : forall d o, data_ok d -> ld16 d o < 2 ^ 16.
Proof. intros d o H. unfold ld16. pose proof (H o). pose proof (H (o + 1)). change (2 ^ 16) with 65536. lia. Qed.
Lemma ld32_lt : forall d o, data_ok d -> ld32 d o < 2 ^ 32.
Proof.
  intros d o H. unfold ld32. pose proof (ld16_lt d o H). pose proof (ld16_lt d (o + 2) H).
  change (2 ^ 16) with 65536 in *. change (2 ^ 32) with 4294967296. lia.
Qed.
Lemma parse_ok : forall r, rpkt_ok r -> pkt_ok (parse r).
Proof.
  intros r (H1 & H2 & H3). unfold pkt_ok, parse. cbn [p_device p_time p_length e_dst e_src e_type ip_proto ip_src ip_dst l4_src l4_dst].
  pose proof (ld32_lt _ 0 H3). pose proof (ld16_lt _ (0 + 4) H3). pose proof (ld32_lt _ 6 H3). pose proof (ld16_lt _ (6 + 4) H3).
  repeat split; try assumption; try (apply ld16_lt; assumption); try (apply ld32_lt; assumption); [| |apply H3];
  unfold ld48; change (2 ^ 16) with 65536 in *; change (2 ^ 32) with 4294967296 in *; change (2 ^ 48) with 281474976710656; lia.
Qed.

Lemma st16_same : forall d o v, v < 2 ^ 16 -> ld16 (st16 d o v) o = v.
Proof.
  intros d o v H. unfold ld16, st16. rewrite N.eqb_refl. destruct (N.eqb_spec (o + 1) o); [lia|]. rewrite N.eqb_refl.
  rewrite (N.mod_small (v / 256)) by (apply N.div_lt_upper_bound; [lia|exact H]).
  rewrite (N.div_mod v 256) at 3 by lia. lia.
Qed.
Lemma st16_byte : forall d o v a, a <> o -> a <> o + 1 -> st16 d o v a = d a.
Proof. intros. unfold st16. destruct (N.eqb_spec a o); [contradiction|]. destruct (N.eqb_spec a (o + 1)); [contradiction|reflexivity]. Qed.
Lemma st16_other : forall d o v a, a + 1 < o \/ o + 1 < a -> ld16 (st16 d o v) a = ld16 d a.
Proof. intros d o v a H. unfold ld16. rewrite !st16_byte by lia. reflexivity. Qed.
Lemma st16_ok : forall d o v, data_ok d -> data_ok (st16 d o v).
Proof.
  intros d o v H a. unfold st16. destruct (a =? o); [apply N.mod_lt; lia|]. destruct (a =? o + 1); [apply N.mod_lt; lia|apply H].
Qed.
Lemma st32_ok : forall d o v, data_ok d -> data_ok (st32 d o v).
Proof. intros. unfold st32. apply st16_ok, st16_ok. assumption. Qed.
Lemma st32_same : forall d o v, v < 2 ^ 32 -> ld32 (st32 d o v) o = v.
Proof.
  intros d o v H. unfold ld32, st32. rewrite st16_other by lia.
  rewrite st16_same by (apply N.mod_lt; lia). rewrite st16_same by (apply N.div_lt_upper_bound; [lia|exact H]).
  rewrite (N.div_mod v 65536) at 3 by lia. lia.
Qed.
Lemma st32_other16 : forall d o v a, a + 1 < o \/ o + 3 < a -> ld16 (st32 d o v) a = ld16 d a.
Proof. intros. unfold st32. rewrite !st16_other by lia. reflexivity. Qed.
Lemma st32_other : forall d o v a, a + 3 < o \/ o + 3 < a -> ld32 (st32 d o v) a = ld32 d a.
Proof. intros. unfold ld32. rewrite !st32_other16 by lia. reflexivity. Qed.
Lemma st32_byte : forall d o v a, a < o \/ o + 3 < a -> st32 d o v a = d a.
Proof. intros. unfold st32. rewrite !st16_byte by lia. reflexivity. Qed.
Lemma st16_other32 : forall d o v a, a + 3 < o \/ o + 1 < a -> ld32 (st16 d o v) a = ld32 d a.
Proof. intros. unfold ld32. rewrite !st16_other by lia. reflexivity. Qed.

(** packet.h 99-106. The operands are promoted to int, where ~x is -x-1, and the result
    is truncated to 16 bits. *)
Definition csum_word (c old_word new_word : N) : N :=
  Z.to_N (Z.lnot (Z.lnot (Z.of_N c) + Z.lnot (Z.of_N old_word) + Z.of_N new_word) mod 2 ^ 16)%Z.
Definition net_checksum_update (d : data) (o : N) (old_word new_word : N) : data :=
  st16 d o (csum_word (ld16 d o) old_word new_word).

(** packet.h 109-123. *)
Definition net_packet_checksum_update (d : data) (old_word new_word : N) (in_ip : bool) : data :=
  let d1 := if in_ip then net_checksum_update d (IP + 12) old_word new_word else d in
  let proto := d1 (IP + 9) in
  if proto =? 6 then net_checksum_update d1 (L4 + 16) old_word new_word
  else if proto =? 17 then net_checksum_update d1 (L4 + 6) old_word new_word
  else d1.

(** packet.h 126-130. *)
Definition net_packet_checksum_update_32 (d : data) (old_word new_word : N) (in_ip : bool) : data :=
  let d1 := net_packet_checksum_update d (old_word mod 65536) (new_word mod 65536) in_ip in
  net_packet_checksum_update d1 (old_word / 65536) (new_word / 65536) in_ip.

(** ** Specification: RFC 791 and RFC 1071

    The one's complement sum of all 16-bit words of the header is all ones. (The sum
    does not depend on the byte order of the words.) *)
Definition oc_add (a b : N) : N := if a + b <? 65536 then a + b else a + b - 65535.
Definition words (d : data) (o : N) (n : nat) : list N := map (fun i => ld16 d (o + 2 * N.of_nat i)) (seq 0 n).
Definition oc_sum (l : list N) : N := fold_right oc_add 0 l.
(** Headers without options. *)
Definition ip_checksum_valid (d : data) : Prop := oc_sum (words d IP 10) = 65535.

Lemma oc_add_mod : forall a b, a < 65536 -> b < 65536 ->
  oc_add a b < 65536 /\ (oc_add a b) mod 65535 = (a + b) mod 65535 /\ (oc_add a b = 0 <-> a = 0 /\ b = 0).
Proof.
  intros a b Ha Hb. unfold oc_add. destruct (N.ltb_spec (a + b) 65536); [repeat split; lia|].
  split; [lia|]. split; [|lia].
  rewrite <- (N.mod_add (a + b - 65535) 1 65535) by lia. f_equal. lia.
Qed.

Fixpoint nsum (l : list N) : N := match l with [] => 0 | a :: l' => a + nsum l' end.
Lemma oc_sum_spec : forall l, Forall (fun a => a < 65536) l ->
  oc_sum l < 65536 /\ oc_sum l mod 65535 = nsum l mod 65535 /\ (oc_sum l = 0 <-> nsum l = 0).
Proof.
  induction l as [|a l IH]; intros H; [cbn; repeat split; lia|].
  inversion H; subst. destruct (IH H3) as (I1 & I2 & I3). cbn [oc_sum fold_right nsum]. fold (oc_sum l).
  destruct (oc_add_mod a (oc_sum l) H2 I1) as (A1 & A2 & A3). split; [exact A1|]. split.
  - rewrite A2, N.add_mod, I2, <- N.add_mod by lia. reflexivity.
  - rewrite A3, I3. lia.
Qed.
(** A sum is valid when it is a positive multiple of 65535. *)
Lemma valid_iff : forall l, Forall (fun a => a < 65536) l -> (oc_sum l = 65535 <-> nsum l <> 0 /\ nsum l mod 65535 = 0).
Proof.
  intros l H. destruct (oc_sum_spec l H) as (S1 & S2 & S3). split.
  - intros E. rewrite E in S2. split; [intros Q; apply S3 in Q; lia|]. rewrite <- S2. reflexivity.
  - intros [N0 M]. rewrite M in S2.
    assert (oc_sum l <> 0) by (rewrite S3; exact N0).
    pose proof (N.div_mod (oc_sum l) 65535 ltac:(lia)) as D. rewrite S2 in D.
    assert (oc_sum l / 65535 < 2) by (apply N.div_lt_upper_bound; lia).
    assert (oc_sum l / 65535 = 0 \/ oc_sum l / 65535 = 1) by lia. lia.
Qed.

Lemma csum_word_eq : forall c o n, c < 65536 -> o < 65536 -> n < 65536 ->
  csum_word c o n = (c + o + 1 + (65536 - n)) mod 65536.
Proof.
  intros c o n Hc Ho Hn. unfold csum_word.
  replace (Z.lnot (Z.lnot (Z.of_N c) + Z.lnot (Z.of_N o) + Z.of_N n))%Z with (Z.of_N (c + o + 1 + (65536 - n)) + -1 * 2 ^ 16)%Z.
  - rewrite Z.mod_add by lia. change (2 ^ 16)%Z with (Z.of_N 65536). rewrite <- N2Z.inj_mod, N2Z.id. reflexivity.
  - unfold Z.lnot. lia.
Qed.

(** Replacing a word [old] and the checksum [c] of a valid sum: the result is valid
    exactly when no end-around carry was needed. *)
Lemma csum_update_exact : forall c old new rest, c < 65536 -> old < 65536 -> new < 65536 ->
  Forall (fun a => a < 65536) rest -> Exists (fun a => a <> 0) rest -> oc_sum (c :: old :: rest) = 65535 ->
  (oc_sum (csum_word c old new :: new :: rest) = 65535 <-> 65535 + new <= c + old).
Proof.
  intros c old new rest Hc Ho Hn HR HE HV.
  assert (HS : nsum rest <> 0).
  { clear -HE. induction HE as [a l H|a l H IH]; cbn [nsum]; lia. }
  assert (Hw : csum_word c old new < 65536) by (rewrite csum_word_eq by assumption; apply N.mod_lt; lia).
  rewrite valid_iff in HV by (repeat constructor; assumption). rewrite valid_iff by (repeat constructor; assumption).
  cbn [nsum] in *. destruct HV as [HV0 HV]. set (S := nsum rest) in *. clearbody S.
  rewrite csum_word_eq in * by assumption. set (x := c + old + 1 + (65536 - new)) in *.
  assert (Hx : x < 3 * 65536) by (unfold x; lia).
  apply N.mod_divide in HV; [|lia]. destruct HV as [q Hq].
  clear Hw. pose proof (N.div_mod x 65536 ltac:(lia)) as D.
  assert (Y : x / 65536 < 3) by (apply N.div_lt_upper_bound; [lia|exact Hx]).
  assert (Hm : x mod 65536 < 65536) by (apply N.mod_lt; lia).
  set (m := x mod 65536) in *. set (y := x / 65536) in *. clearbody m y.
  assert (C : y = 0 \/ y = 1 \/ y = 2) by lia. unfold x in *. clear x.
  split.
  - intros [_ M]. apply N.mod_divide in M; [|lia]. destruct M as [q' Hq'].
    destruct C as [C|[C|C]]; subst y; lia.
  - intros H. assert (y = 2) by lia. subst y.
    assert (m + (new + S) = (q - 1) * 65535) by lia.
    split; [lia|]. rewrite H0. apply N.mod_mul. lia.
Qed.

(** What the packet-level functions touch. *)
Lemma checksum_update_touches : forall d old new in_ip a, 
  net_packet_checksum_update d old new in_ip a <> d a ->
  (in_ip = true /\ (a = IP + 12 \/ a = IP + 13)) \/ (d (IP + 9) = 6 /\ (a = L4 + 16 \/ a = L4 + 17)) \/
  (d (IP + 9) = 17 /\ (a = L4 + 6 \/ a = L4 + 7)).
Proof.
  intros d old new in_ip a H. unfold net_packet_checksum_update in H. cbv zeta in H.
  set (d1 := if in_ip then net_checksum_update d (IP + 12) old new else d) in *.
  assert (P : d1 (IP + 9) = d (IP + 9)) by (unfold d1; destruct in_ip; [apply st16_byte; cbn; lia|reflexivity]).
  assert (Q : forall x, d1 x <> d x -> in_ip = true /\ (x = IP + 12 \/ x = IP + 13)).
  { intros x Hx. unfold d1 in Hx. destruct in_ip; [|congruence]. split; [reflexivity|].
    destruct (N.eq_dec x (IP + 12)); [auto|]. destruct (N.eq_dec x (IP + 13)); [auto|]. exfalso. apply Hx.
    apply st16_byte; [assumption|]. cbn in *. lia. }
  rewrite P in H. clearbody d1.
  destruct (N.eqb_spec (d (IP + 9)) 6) as [E|E].
  - destruct (N.eq_dec a (L4 + 16)); [auto|]. destruct (N.eq_dec a (L4 + 17)); [auto|]. left. apply Q.
    unfold net_checksum_update in H. rewrite st16_byte in H; [exact H|assumption|cbn in *; lia].
  - destruct (N.eqb_spec (d (IP + 9)) 17) as [E'|E'].
    + destruct (N.eq_dec a (L4 + 6)); [auto|]. destruct (N.eq_dec a (L4 + 7)); [auto|]. left. apply Q.
      unfold net_checksum_update in H. rewrite st16_byte in H; [exact H|assumption|cbn in *; lia].
    + left. apply Q. exact H.
Qed.
Lemma checksum_update_ok : forall d old new in_ip, data_ok d -> data_ok (net_packet_checksum_update d old new in_ip).
Proof.
  intros d old new in_ip H. unfold net_packet_checksum_update, net_checksum_update. cbv zeta.
  destruct in_ip; repeat match goal with |- data_ok (if ?b then _ else _) => destruct b end; repeat apply st16_ok; assumption.
Qed.
Lemma checksum_update_32_ok : forall d old new in_ip, data_ok d -> data_ok (net_packet_checksum_update_32 d old new in_ip).
Proof. intros. unfold net_packet_checksum_update_32. apply checksum_update_ok, checksum_update_ok. assumption. Qed.
Lemma checksum_update_same : forall d old new in_ip a, 
  ~ (in_ip = true /\ (a = IP + 12 \/ a = IP + 13)) -> ~ (a = L4 + 16 \/ a = L4 + 17 \/ a = L4 + 6 \/ a = L4 + 7) ->
  net_packet_checksum_update d old new in_ip a = d a.
Proof.
  intros d old new in_ip a H1 H2. destruct (N.eq_dec (net_packet_checksum_update d old new in_ip a) (d a)) as [E|E]; [exact E|].
  exfalso. apply checksum_update_touches in E. tauto.
Qed.
Lemma checksum_update_32_same : forall d old new in_ip a, 
  ~ (in_ip = true /\ (a = IP + 12 \/ a = IP + 13)) -> ~ (a = L4 + 16 \/ a = L4 + 17 \/ a = L4 + 6 \/ a = L4 + 7) ->
  net_packet_checksum_update_32 d old new in_ip a = d a.
Proof. intros. unfold net_packet_checksum_update_32. rewrite !checksum_update_same by assumption. reflexivity. Qed.

(** Where the checksum of the transport header is, RFC 793 and RFC 768. *)
Definition l4_checksum_at (d : data) (o : N) : Prop := (d (IP + 9) = 6 /\ o = L4 + 16) \/ (d (IP + 9) = 17 /\ o = L4 + 6).
Lemma checksum_update_word : forall d old new in_ip o, data_ok d -> l4_checksum_at d o -> old < 65536 -> new < 65536 ->
  ld16 (net_packet_checksum_update d old new in_ip) o = csum_word (ld16 d o) old new /\
  net_packet_checksum_update d old new in_ip (IP + 9) = d (IP + 9).
Proof.
  intros d old new in_ip o HD HO Ho Hn.
  assert (B : ld16 d o < 65536). { unfold ld16. pose proof (HD o). pose proof (HD (o + 1)). lia. }
  assert (W : csum_word (ld16 d o) old new < 2 ^ 16). { rewrite csum_word_eq by assumption. apply N.mod_lt. lia. }
  split; [|apply checksum_update_same; cbn; lia].
  unfold net_packet_checksum_update, net_checksum_update. cbv zeta.
  set (d1 := if in_ip then st16 d (IP + 12) (csum_word (ld16 d (IP + 12)) old new) else d).
  assert (P : d1 (IP + 9) = d (IP + 9)) by (unfold d1; destruct in_ip; [apply st16_byte; cbn; lia|reflexivity]).
  assert (Q : ld16 d1 o = ld16 d o).
  { unfold d1. destruct in_ip; [|reflexivity]. apply st16_other. destruct HO as [[_ ->]|[_ ->]]; cbn; lia. }
  rewrite P. clearbody d1. destruct HO as [[E ->]|[E ->]]; rewrite E; cbn [N.eqb Pos.eqb]; rewrite Q, st16_same by exact W; reflexivity.
Qed.
(** Two words, one after the other. *)
Lemma checksum_update_32_valid : forall d ol oh nl nh in_ip o rest, data_ok d -> l4_checksum_at d o ->
  ol < 65536 -> oh < 65536 -> nl < 65536 -> nh < 65536 ->
  Forall (fun a => a < 65536) rest -> Exists (fun a => a <> 0) rest -> oc_sum (ld16 d o :: ol :: oh :: rest) = 65535 ->
  65535 + nl <= ld16 d o + ol -> 2 * 65535 + nh + nl <= ld16 d o + ol + oh ->
  oc_sum (ld16 (net_packet_checksum_update_32 d (ol + 65536 * oh) (nl + 65536 * nh) in_ip) o :: nl :: nh :: rest) = 65535.
Proof.
  intros d ol oh nl nh in_ip o rest HD HO H1 H2 H3 H4 HR HE HV C1 C2. unfold net_packet_checksum_update_32.
  assert (M : forall a b, a < 65536 -> (a + 65536 * b) mod 65536 = a) by (intros a b Ha; rewrite (N.mul_comm 65536), N.mod_add by lia; apply N.mod_small; exact Ha).
  assert (D : forall a b, a < 65536 -> (a + 65536 * b) / 65536 = b) by (intros a b Ha; rewrite (N.mul_comm 65536), N.div_add by lia; rewrite N.div_small by exact Ha; lia).
  rewrite !M, !D by assumption.
  destruct (checksum_update_word d ol nl in_ip o HD HO H1 H3) as [W1 P1].
  set (d1 := net_packet_checksum_update d ol nl in_ip) in *.
  assert (HD1 : data_ok d1) by (apply checksum_update_ok; exact HD).
  assert (HO1 : l4_checksum_at d1 o) by (unfold l4_checksum_at in *; rewrite P1; exact HO).
  destruct (checksum_update_word d1 oh nh in_ip o HD1 HO1 H2 H4) as [W2 _]. rewrite W2, W1. clear W2.
  assert (B : ld16 d o < 65536). { unfold ld16. pose proof (HD o). pose proof (HD (o + 1)). lia. }
  set (c := ld16 d o) in *. clearbody c d1. clear HD HO HD1 HO1 P1 W1.
  assert (B1 : csum_word c ol nl < 65536) by (rewrite csum_word_eq by assumption; apply N.mod_lt; lia).
  assert (V1 : oc_sum (csum_word c ol nl :: nl :: oh :: rest) = 65535).
  { apply csum_update_exact; auto. }
  assert (SW : forall x y z, x < 65536 -> y < 65536 -> z < 65536 -> oc_sum (x :: y :: z :: rest) = 65535 -> oc_sum (x :: z :: y :: rest) = 65535).
  { intros x y z X Y Z V. rewrite valid_iff in * by (repeat constructor; assumption). cbn [nsum] in *.
    replace (x + (z + (y + nsum rest))) with (x + (y + (z + nsum rest))) by lia. exact V. }
  apply SW; auto; [rewrite csum_word_eq by assumption; apply N.mod_lt; lia|].
  apply csum_update_exact; auto.
  rewrite csum_word_eq by assumption.
  replace (c + ol + 1 + (65536 - nl)) with (c + ol + 1 - 65536 - nl + 2 * 65536) by lia.
  rewrite N.mod_add by lia. rewrite N.mod_small by lia. lia.
Qed.
