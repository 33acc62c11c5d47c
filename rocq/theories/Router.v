(** * The router (nf/router)

    Over any longest-prefix-match structure with the behaviour of lpm.h (the repository has
    no implementation of it); [lpm_result] of ContractsMore.v is what a lookup returns. *)

From Coq Require Import NArith List Bool Lia Arith.
From Verif Require Import Packet ContractsMore.
Import ListNotations.
Open Scope N_scope.

Notation routes := ContractsMore.table.

(** A 64-bit little-endian load. *)
Definition ld64 (d : data) (o : N) : N := ld32 d o + 2 ^ 32 * ld32 d (o + 4).

(** lpm.h 13-18, when its first precondition holds ([set_fresh]). *)
Definition lpm_set (cap : nat) (t : routes) (key width value : N) : routes :=
  if Nat.ltb (length t) cap then (t ++ [((key, width), value)])%list else t.
Definition has_route (t : routes) (key width : N) : bool :=
  existsb (fun e => (fst (fst e) =? key) && (snd (fst e) =? width)) t.

(** include/net/packet.h 89-93. *)
Definition net_ipv4_checksum_valid (d : data) : bool := true.

Section Router.
Variable n : N. (* devices_count *)
Variable cap : nat.
Variable search : routes -> N -> option N.

(** router.c 23-33: what a frame on the last device asks for. *)
Definition command (r : rpkt) : option (N * N * N) :=
  if r_device r =? n - 1 then
    let d := r_data r in
    if 32 <? ld64 d 4 then None else Some (ld32 d 0, ld64 d 4, ld16 d 12)
  else None.

(** router.c 21-71: the device and bytes sent. The Ethernet addresses, which net_transmit
    rewrites, are not modelled. *)
Definition router_handle (t : routes) (r : rpkt) : option (N * data) * routes :=
  let d := r_data r in
  if r_device r =? n - 1 then
    match command r with
    | None => (None, t)
    | Some (key, width, value) => (None, lpm_set cap t key width value)
    end
  else if negb (ld16 d 12 =? 8) then (None, t)
  else if negb (d IP / 16 =? 4) then (None, t)
  else if d IP mod 16 <? 5 then (None, t)
  else if ld16 d (IP + 2) <? d IP mod 16 * 4 then (None, t)
  else if negb (net_ipv4_checksum_valid d) then (None, t)
  else if d (IP + 8) =? 0 then (None, t)
  else match search t (ld32 d (IP + 16)) with
       | Some dst_device => (Some (dst_device, d), t)
       | None => (None, t)
       end.

Fixpoint router_run (t : routes) (rs : list rpkt) : list (option (N * data)) * routes :=
  match rs with
  | [] => ([], t)
  | r :: rs => let (o, t1) := router_handle t r in let (os, t2) := router_run t1 rs in (o :: os, t2)
  end.

(** No command is for a pair that is there already: lpm_set's precondition (lpm.h 14). *)
Fixpoint set_fresh (t : routes) (rs : list rpkt) : Prop :=
  match rs with
  | [] => True
  | r :: rs =>
      match command r with Some (k, w, _) => has_route t k w = false | None => True end /\
      set_fresh (snd (router_handle t r)) rs
  end.

(** ** The published specification (nf/router/spec.py), as the tool evaluates it: fields
    little-endian (C58), shifts logical (C55), ipv4_checksum the packet's own (spec_prefix.py
    383-384). *)

(** spec.py 9-11: the 64-bit difference, cut to the 32 bits of the address by the proxy. *)
Definition spec_matches (dest length ip : N) : Prop :=
  let shift := (32 + 2 ^ 64 - length) mod 2 ^ 64 mod 2 ^ 32 in N.shiftr dest shift = N.shiftr ip shift.
(** spec.py 14-58. *)
Definition router_spec (t : routes) (r : rpkt) (out : option (N * data)) : Prop :=
  let d := r_data r in
  let dst := ld32 d (IP + 16) in
  if r_device r =? n - 1 then True
  else if negb (ld16 d 12 =? 8) then out = None
  else if negb (ld16 d (IP + 10) =? ld16 d (IP + 10)) || negb (d IP / 16 =? 4) || (d IP mod 16 <? 5) || (ld16 d (IP + 2) / 4 <? d IP mod 16) then out = None
  else if d (IP + 8) =? 0 then out = None
  else match out with
       | None => forall k w v, In ((k, w), v) t -> ~ spec_matches k w dst
       | Some (dev, d') =>
           ld16 d' 12 = 8 /\ 0 < d' (IP + 8) /\
           exists k w v, In ((k, w), v) t /\ spec_matches k w dst /\
             forall k' w' v', In ((k', w'), v') t -> ~ spec_matches k' w' dst \/ w' < w \/ v' = dev
       end.

(** A lookup structure that works. *)
Definition search_ok : Prop := forall t key, table_ok 4 t -> key < 2 ^ 32 -> lpm_result 4 t key (search t key).

(** Routes for the same prefix agree. *)
Definition consistent (t : routes) : Prop :=
  forall k w v k' v', In ((k, w), v) t -> In ((k', w), v') t -> same_prefix 32 w k k' -> v = v'.

Lemma ld16_lt : forall d o, data_ok d -> ld16 d o < 65536.
Proof. intros d o H. unfold ld16. pose proof (H o). pose proof (H (o + 1)). lia. Qed.
Lemma ld32_lt : forall d o, data_ok d -> ld32 d o < 2 ^ 32.
Proof. intros d o H. unfold ld32. pose proof (ld16_lt d o H). pose proof (ld16_lt d (o + 2) H). change (2 ^ 32) with 4294967296. lia. Qed.

Lemma has_route_In : forall t k w, has_route t k w = false -> ~ In (k, w) (map fst t).
Proof.
  intros t k w H Hin. apply in_map_iff in Hin as ([[k' w'] v] & E & Hin). cbn in E. injection E as -> ->.
  assert (has_route t k w = true); [|congruence]. apply existsb_exists. exists ((k, w), v). split; [exact Hin|]. cbn. rewrite !N.eqb_refl. reflexivity.
Qed.

Lemma handle_ok : forall t r, table_ok 4 t -> data_ok (r_data r) ->
  match command r with Some (k, w, _) => has_route t k w = false | None => True end -> table_ok 4 (snd (router_handle t r)).
Proof.
  intros t r [H1 H2] HD HF. unfold router_handle. cbn zeta. destruct (r_device r =? n - 1) eqn:ED.
  - unfold command in *. rewrite ED in *. cbn zeta in *. destruct (N.ltb_spec 32 (ld64 (r_data r) 4)) as [|W]; cbn [snd]; [split; assumption|].
    unfold lpm_set. destruct (Nat.ltb _ _); [|split; assumption]. split.
    + rewrite map_app. cbn [map fst]. apply has_route_In in HF. apply NoDup_rev in H1. rewrite <- (rev_involutive (map fst t ++ _)). apply NoDup_rev.
      rewrite rev_app_distr. cbn [rev app]. constructor; [|exact H1]. intros Hin. apply HF. apply in_rev. exact Hin.
    + intros k w v Hin. apply in_app_or in Hin as [Hin|[E|[]]]; [eauto|]. injection E as <- <- <-. split; [apply ld32_lt; exact HD|exact W].
  - repeat (match goal with |- table_ok 4 (snd (if ?b then _ else _)) => destruct b end; [split; assumption|]).
    destruct (search t _); split; assumption.
Qed.

Lemma run_ok : forall rs t, table_ok 4 t -> Forall (fun r => data_ok (r_data r)) rs -> set_fresh t rs -> table_ok 4 (snd (router_run t rs)).
Proof.
  induction rs as [|r rs IH]; intros t H HD HF; [exact H|]. cbn [router_run set_fresh] in *. destruct HF as [HF1 HF2].
  inversion HD as [|? ? D1 D2]; subst. pose proof (handle_ok t r H D1 HF1) as H1. destruct (router_handle t r) as [o t1]. cbn [snd] in *.
  specialize (IH t1 H1 D2 HF2). destruct (router_run t1 rs) as [os t2]. exact IH.
Qed.

Lemma spec_matches_prefix : forall k w ip, k < 2 ^ 32 -> ip < 2 ^ 32 -> w <= 32 -> spec_matches k w ip <-> same_prefix 32 w k ip.
Proof.
  intros k w ip HK HI HW. unfold spec_matches. cbn zeta.
  replace ((32 + 2 ^ 64 - w) mod 2 ^ 64) with (32 - w).
  2:{ replace (32 + 2 ^ 64 - w) with (32 - w + 1 * 2 ^ 64) by lia. rewrite N.mod_add by discriminate. symmetry. apply N.mod_small. change (2 ^ 64) with 18446744073709551616. lia. }
  rewrite (N.mod_small (32 - w)) by (change (2 ^ 32) with 4294967296; lia).
  rewrite !N.shiftr_div_pow2. unfold same_prefix. apply div_pow_prefix; assumption.
Qed.

Lemma div4_lt : forall a b, a / 4 < b <-> a < b * 4.
Proof. intros a b. split; intros H. - pose proof (N.div_mod a 4). pose proof (N.mod_lt a 4). lia. - apply N.div_lt_upper_bound; lia. Qed.

Lemma router_meets_spec : search_ok -> forall t r, table_ok 4 t -> consistent t -> data_ok (r_data r) ->
  router_spec t r (fst (router_handle t r)).
Proof.
  intros HS t r HT HC HD. unfold router_spec, router_handle. cbn zeta. set (d := r_data r) in *.
  destruct (r_device r =? n - 1); [exact I|]. destruct (negb (ld16 d 12 =? 8)) eqn:EE; [reflexivity|].
  rewrite N.eqb_refl. cbn [negb orb]. destruct (negb (d IP / 16 =? 4)); cbn [orb]; [reflexivity|].
  destruct (d IP mod 16 <? 5); cbn [orb]; [reflexivity|].
  assert (Q : (ld16 d (IP + 2) / 4 <? d IP mod 16) = (ld16 d (IP + 2) <? d IP mod 16 * 4)).
  { apply eq_true_iff_eq. rewrite !N.ltb_lt. apply div4_lt. }
  rewrite Q. destruct (ld16 d (IP + 2) <? d IP mod 16 * 4); [reflexivity|]. cbn [net_ipv4_checksum_valid negb].
  destruct (N.eqb_spec (d (IP + 8)) 0) as [|TTL]; [reflexivity|].
  pose proof (ld32_lt d (IP + 16) HD) as DL. pose proof (HS t (ld32 d (IP + 16)) HT DL) as R.
  destruct (search t (ld32 d (IP + 16))) as [dev|]; cbn [fst lpm_result] in *; change (4 * 8) with 32 in R.
  - destruct R as (k & w & Hin & SP & MX). apply negb_false_iff, N.eqb_eq in EE. split; [exact EE|]. split; [lia|].
    destruct (proj2 HT _ _ _ Hin) as [KB WB]. exists k, w, dev. split; [exact Hin|]. split; [apply spec_matches_prefix; auto|].
    intros k' w' v' Hin'. destruct (proj2 HT _ _ _ Hin') as [KB' WB'].
    destruct (N.lt_ge_cases w' w) as [L|G]; [auto|].
    assert (D : spec_matches k' w' (ld32 d (IP + 16)) \/ ~ spec_matches k' w' (ld32 d (IP + 16))) by (unfold spec_matches; cbn zeta; destruct (N.eq_dec (N.shiftr k' ((32 + 2 ^ 64 - w') mod 2 ^ 64 mod 2 ^ 32)) (N.shiftr (ld32 d (IP + 16)) ((32 + 2 ^ 64 - w') mod 2 ^ 64 mod 2 ^ 32))); auto).
    destruct D as [D|D]; [|auto]. right. right. apply spec_matches_prefix in D; auto. pose proof (MX _ _ _ Hin' D). assert (w' = w) by lia. subst w'.
    symmetry. eapply HC; [exact Hin|exact Hin'|]. intros i L1 L2. rewrite SP, D by assumption. reflexivity.
  - intros k w v Hin SM. destruct (proj2 HT _ _ _ Hin) as [KB WB]. apply (R _ _ _ Hin). apply spec_matches_prefix; auto.
Qed.
End Router.

(** ** The network's view *)

(** A 16- or 32-bit field in network order. *)
Definition be16 (d : data) (o : N) : N := 256 * d o + d (o + 1).
Definition be32 (d : data) (o : N) : N := 65536 * be16 d o + be16 d (o + 2).
(** RFC 1812 section 5.2.2: what a router must check of an IPv4 header. *)
Definition rfc_valid (d : data) : Prop :=
  ip_checksum_valid d /\ d IP / 16 = 4 /\ 5 <= d IP mod 16 /\ d IP mod 16 * 4 <= be16 d (IP + 2).

(** Swapping the bytes of an address. *)
Definition swap32 (a : N) : N :=
  a mod 256 * 2 ^ 24 + a / 256 mod 256 * 2 ^ 16 + a / 2 ^ 16 mod 256 * 2 ^ 8 + a / 2 ^ 24 mod 256.

Lemma bytes_div : forall b0 b1 b2 b3, b0 < 256 -> b1 < 256 -> b2 < 256 -> b3 < 256 ->
  swap32 (b3 + 256 * b2 + 65536 * (b1 + 256 * b0)) = b0 + 256 * b1 + 65536 * (b2 + 256 * b3).
Proof.
  intros b0 b1 b2 b3 H0 H1 H2 H3. unfold swap32. set (a := b3 + 256 * b2 + 65536 * (b1 + 256 * b0)).
  assert (A1 : a / 256 = b2 + 256 * b1 + 65536 * b0) by (symmetry; apply (N.div_unique a 256 _ b3); unfold a; lia).
  assert (A2 : a / 2 ^ 16 = b1 + 256 * b0) by (symmetry; apply (N.div_unique a (2 ^ 16) _ (b3 + 256 * b2)); unfold a; change (2 ^ 16) with 65536; lia).
  assert (A3 : a / 2 ^ 24 = b0) by (symmetry; apply (N.div_unique a (2 ^ 24) _ (b3 + 256 * b2 + 65536 * b1)); unfold a; change (2 ^ 24) with 16777216; lia).
  assert (M0 : a mod 256 = b3) by (symmetry; apply (N.mod_unique a 256 (b2 + 256 * b1 + 65536 * b0)); unfold a; lia).
  assert (M1 : a / 256 mod 256 = b2) by (rewrite A1; symmetry; apply (N.mod_unique _ 256 (b1 + 256 * b0)); lia).
  assert (M2 : a / 2 ^ 16 mod 256 = b1) by (rewrite A2; symmetry; apply (N.mod_unique _ 256 b0); lia).
  rewrite M0, M1, M2, A3, (N.mod_small b0) by assumption. change (2 ^ 24) with 16777216. change (2 ^ 16) with 65536. change (2 ^ 8) with 256. lia.
Qed.
Lemma swap_be : forall d o, data_ok d -> ld32 d o = swap32 (be32 d o).
Proof.
  intros d o H. unfold ld32, be32, ld16, be16.
  pose proof (bytes_div (d o) (d (o + 1)) (d (o + 2)) (d (o + 2 + 1)) (H _) (H _) (H _) (H _)) as B.
  replace (65536 * (256 * d o + d (o + 1)) + (256 * d (o + 2) + d (o + 2 + 1))) with (d (o + 2 + 1) + 256 * d (o + 2) + 65536 * (d (o + 1) + 256 * d o)) by lia.
  rewrite B. reflexivity.
Qed.
Lemma digits : forall a, a < 2 ^ 32 -> exists b0 b1 b2 b3, b0 < 256 /\ b1 < 256 /\ b2 < 256 /\ b3 < 256 /\ a = b3 + 256 * b2 + 65536 * (b1 + 256 * b0).
Proof.
  intros a H. exists (a / 2 ^ 24), (a / 2 ^ 16 mod 256), (a / 256 mod 256), (a mod 256).
  split; [apply N.div_lt_upper_bound; [discriminate|exact H]|].
  split; [apply N.mod_lt; discriminate|]. split; [apply N.mod_lt; discriminate|]. split; [apply N.mod_lt; discriminate|].
  pose proof (N.div_mod a 256). pose proof (N.div_mod (a / 256) 256). pose proof (N.div_mod (a / 256 / 256) 256).
  replace (a / 2 ^ 16) with (a / 256 / 256) by (rewrite N.div_div by discriminate; reflexivity).
  replace (a / 2 ^ 24) with (a / 256 / 256 / 256) by (rewrite !N.div_div by discriminate; reflexivity). lia.
Qed.
Lemma swap_swap : forall a, a < 2 ^ 32 -> swap32 (swap32 a) = a.
Proof.
  intros a H. destruct (digits a H) as (b0 & b1 & b2 & b3 & H0 & H1 & H2 & H3 & ->). rewrite bytes_div by assumption.
  replace (b0 + 256 * b1 + 65536 * (b2 + 256 * b3)) with (b0 + 256 * b1 + 65536 * (b2 + 256 * b3)) by lia. rewrite bytes_div by assumption. lia.
Qed.
Lemma swap_lt : forall a, a < 2 ^ 32 -> swap32 a < 2 ^ 32.
Proof.
  intros a H. destruct (digits a H) as (b0 & b1 & b2 & b3 & H0 & H1 & H2 & H3 & ->). rewrite bytes_div by assumption. change (2 ^ 32) with 4294967296. lia.
Qed.

Lemma prefix_full : forall a b, a < 2 ^ 32 -> b < 2 ^ 32 -> same_prefix 32 32 a b <-> a = b.
Proof.
  intros a b A B. unfold same_prefix. change (32 - 32) with 0. rewrite <- (div_pow_prefix 32 0 a b A B). change (2 ^ 0) with 1. rewrite !N.div_1_r. reflexivity.
Qed.
Lemma prefix_none : forall a b, same_prefix 32 0 a b.
Proof. intros a b i H1 H2. lia. Qed.

(** Routes written in network order, as they are in the table. *)
Definition entered (t : routes) : routes := map (fun e => ((swap32 (fst (fst e)), snd (fst e)), snd e)) t.

Lemma entered_result : forall t d out, table_ok 4 t -> data_ok d -> (forall k w v, In ((k, w), v) t -> w = 0 \/ w = 32) ->
  lpm_result 4 (entered t) (ld32 d (IP + 16)) out -> lpm_result 4 t (be32 d (IP + 16)) out.
Proof.
  intros t d out [_ TO] HD HW H.
  assert (BL : be32 d (IP + 16) < 2 ^ 32).
  { unfold be32, be16. pose proof (HD (IP + 16)). pose proof (HD (IP + 16 + 1)). pose proof (HD (IP + 16 + 2)). pose proof (HD (IP + 16 + 2 + 1)).
    change (2 ^ 32) with 4294967296. lia. }
  rewrite (swap_be d _ HD) in H. set (b := be32 d (IP + 16)) in *. change (4 * 8) with 32 in *.
  assert (P : forall k w v, In ((k, w), v) t -> same_prefix 32 w (swap32 k) (swap32 b) <-> same_prefix 32 w k b).
  { intros k w v Hin. destruct (TO _ _ _ Hin) as [KB _]. destruct (HW _ _ _ Hin) as [->| ->].
    - split; intros _; apply prefix_none.
    - rewrite !prefix_full by (auto using swap_lt). split; intros E; [|congruence]. rewrite <- (swap_swap k KB), <- (swap_swap b BL). congruence. }
  assert (IN : forall k w v, In ((k, w), v) t -> In ((swap32 k, w), v) (entered t)).
  { intros k w v Hin. unfold entered. apply in_map_iff. exists ((k, w), v). auto. }
  destruct out as [v|]; cbn [lpm_result] in *; change (4 * 8) with 32 in *.
  - destruct H as (k & w & Hin & SP & MX). unfold entered in Hin. apply in_map_iff in Hin as ([[k0 w0] v0] & E & Hin). cbn in E. injection E as <- <- <-.
    exists k0, w0. split; [exact Hin|]. split; [apply (P _ _ _ Hin); exact SP|].
    intros k' w' v' Hin' S'. eapply MX; [apply IN; exact Hin'|]. apply (P _ _ _ Hin'). exact S'.
  - intros k w v Hin S. eapply H; [apply IN; exact Hin|]. apply (P _ _ _ Hin). exact S.
Qed.

(** ** A lookup that works: there are such structures *)
Definition matchb (w k key : N) : bool := N.shiftr k (32 - w) =? N.shiftr key (32 - w).
Fixpoint best (t : routes) (key : N) : option (N * N) :=
  match t with
  | [] => None
  | ((k, w), v) :: t =>
      match best t key with
      | Some (w', v') => if matchb w k key && (w' <? w) then Some (w, v) else Some (w', v')
      | None => if matchb w k key then Some (w, v) else None
      end
  end.
Definition ref_search (t : routes) (key : N) : option N := option_map snd (best t key).

Lemma matchb_prefix : forall w k key, k < 2 ^ 32 -> key < 2 ^ 32 -> matchb w k key = true <-> same_prefix 32 w k key.
Proof. intros w k key A B. unfold matchb. rewrite N.eqb_eq, !N.shiftr_div_pow2. unfold same_prefix. apply div_pow_prefix; assumption. Qed.

Lemma ref_search_ok : search_ok ref_search.
Proof.
  intros t key [_ TO] HK. unfold ref_search. change (4 * 8) with 32 in TO.
  assert (B : match best t key with
              | None => forall k w v, In ((k, w), v) t -> ~ same_prefix 32 w k key
              | Some (w, v) => (exists k, In ((k, w), v) t /\ same_prefix 32 w k key) /\
                  forall k' w' v', In ((k', w'), v') t -> same_prefix 32 w' k' key -> w' <= w
              end).
  { induction t as [|[[k w] v] t IH]; [intros ? ? ? []|]. cbn [best].
    specialize (IH (fun k w v H => TO k w v (or_intror H))). destruct (TO k w v (or_introl eq_refl)) as [KB _].
    pose proof (matchb_prefix w k key KB HK) as M. destruct (best t key) as [[w' v']|].
    - destruct IH as [(k' & Hin & SP) MX]. destruct (matchb w k key) eqn:E; cbn [andb].
      + destruct (N.ltb_spec w' w) as [L|G].
        * split; [exists k; split; [left; reflexivity|apply M; reflexivity]|]. intros k2 w2 v2 [Q|H2] S2; [injection Q as <- <- <-; lia|]. specialize (MX _ _ _ H2 S2). lia.
        * split; [exists k'; split; [right; exact Hin|exact SP]|]. intros k2 w2 v2 [Q|H2] S2; [injection Q as <- <- <-; lia|eauto].
      + split; [exists k'; split; [right; exact Hin|exact SP]|]. intros k2 w2 v2 [Q|H2] S2; [injection Q as <- <- <-; apply M in S2; discriminate|eauto].
    - destruct (matchb w k key) eqn:E.
      + split; [exists k; split; [left; reflexivity|apply M; reflexivity]|]. intros k2 w2 v2 [Q|H2] S2; [injection Q as <- <- <-; lia|exfalso; eapply IH; eauto].
      + intros k2 w2 v2 [Q|H2] S2; [injection Q as <- <- <-; apply M in S2; discriminate|eapply IH; eauto]. }
  destruct (best t key) as [[w v]|]; cbn [option_map snd lpm_result]; change (4 * 8) with 32; [|exact B].
  destruct B as [(k & Hin & SP) MX]. exists k, w. auto.
Qed.

(** The packets that are looked up. *)
Definition passes (d : data) : bool :=
  (ld16 d 12 =? 8) && (d IP / 16 =? 4) && negb (d IP mod 16 <? 5) && negb (ld16 d (IP + 2) <? d IP mod 16 * 4) && negb (d (IP + 8) =? 0).
Lemma handle_passes : forall n cap search t r, (r_device r =? n - 1) = false ->
  router_handle n cap search t r =
  if passes (r_data r) then (option_map (fun v => (v, r_data r)) (search t (ld32 (r_data r) (IP + 16))), t) else (None, t).
Proof.
  intros n cap search t r H. unfold router_handle, passes. cbn zeta. rewrite H. cbn [net_ipv4_checksum_valid negb].
  destruct (ld16 (r_data r) 12 =? 8); cbn [negb andb]; [|reflexivity]. destruct (r_data r IP / 16 =? 4); cbn [negb andb]; [|reflexivity].
  destruct (r_data r IP mod 16 <? 5); cbn [negb andb]; [reflexivity|]. destruct (_ <? _ * 4); cbn [negb andb]; [reflexivity|].
  destruct (r_data r (IP + 8) =? 0); cbn [negb]; [reflexivity|]. destruct (search t _); reflexivity.
Qed.
Lemma spec_passes : forall n t r out, (r_device r =? n - 1) = false -> passes (r_data r) = true -> router_spec n t r out ->
  match out with
  | None => forall k w v, In ((k, w), v) t -> ~ spec_matches k w (ld32 (r_data r) (IP + 16))
  | Some (dev, d') => exists k w v, In ((k, w), v) t /\ spec_matches k w (ld32 (r_data r) (IP + 16)) /\
      forall k' w' v', In ((k', w'), v') t -> ~ spec_matches k' w' (ld32 (r_data r) (IP + 16)) \/ w' < w \/ v' = dev
  end.
Proof.
  intros n t r out H HP S. unfold router_spec in S. cbn zeta in S. rewrite H in S. unfold passes in HP.
  apply andb_prop in HP as [HP P5]. apply andb_prop in HP as [HP P4]. apply andb_prop in HP as [HP P3]. apply andb_prop in HP as [P1 P2].
  rewrite P1, P2 in S. cbn [negb] in S. rewrite N.eqb_refl in S. cbn [negb orb] in S. apply negb_true_iff in P3, P4, P5. rewrite P3 in S. cbn [orb] in S.
  assert (Q : (ld16 (r_data r) (IP + 2) / 4 <? r_data r IP mod 16) = false).
  { rewrite <- P4. apply eq_true_iff_eq. rewrite !N.ltb_lt. apply div4_lt. }
  rewrite Q, P5 in S. destruct out as [[dev d']|]; [apply S|exact S].
Qed.
