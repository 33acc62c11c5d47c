(** * When the load balancer moves a flow to another backend (nf/maglev) *)

From Coq Require Import NArith ZArith Znumtheory List Bool Lia Arith Permutation.
From Verif Require Import Solver IndexPool HashMap Cht Table Firewall Packet Maglev.
Import ListNotations.
Open Scope nat_scope.

Section Moves.
Variable hash : bytes -> N.
Variables base loc : N.
Variables n height cap : nat.
Variables fexp bexp : N.
Hypothesis Hprime : prime (Z.of_nat height).
Notation hist := (mg_hist hash base loc n height cap fexp bexp).
Notation handle := (mg_handle hash base loc n height).
Notation alive := (backend_alive n bexp).

(** The first available ones of a list, for two pools, are the same if each is available in the other pool. *)
Lemma first_same : forall pa ta pb tb row x y, first_avail pa ta row x -> first_avail pb tb row y -> avail pb tb x -> avail pa ta y -> x = y.
Proof.
  intros pa ta pb tb row x y (bef & aft & E & A & N1) (bef2 & aft2 & E2 & A2 & N2) Hx Hy. rewrite E in E2. clear E A A2.
  revert bef2 E2 N2. induction bef as [|u bef IH]; intros [|v bef2] E2 N2; cbn in E2; injection E2 as Q1 Q2.
  - exact Q1.
  - exfalso. subst v. apply (N2 x); [left; reflexivity|exact Hx].
  - exfalso. subst u. apply (N1 y); [left; reflexivity|exact Hy].
  - apply (IH (fun z Hz => N1 z (or_intror Hz)) bef2 Q2). intros z Hz. apply N2. right. exact Hz.
Qed.

(** A packet that does not go to backend 0, or goes there though it is not known, goes to the one that was chosen. *)
Lemma out_chosen : forall h b p d, hist h b -> for_backends n p = true -> fst (handle b p) = Some d ->
  d = 0%N /\ alive 0 (p_time p) h \/ exists x, d = N.of_nat x /\ chosen hash n height b p = Some x.
Proof.
  intros h b p d H F E. pose proof (mg_live hash base loc n height cap fexp bexp Hprime h b p H F) as Al. rewrite E in Al.
  rewrite (mg_out hash base loc n height cap fexp bexp h b p H F) in E.
  destruct (N.eq_dec d 0) as [->|D]; [left; auto|right].
  assert (Q : option_map N.of_nat (chosen hash n height b p) = Some d).
  { destruct (tfind _ _ _ _ _ _); [|exact E]. destruct (pool_used _ _ _); [congruence|exact E]. }
  destruct (chosen hash n height b p) as [x|]; [|discriminate]. injection Q as <-. eauto.
Qed.

Theorem mg_moves : forall h1 b1 p1 d1 h2 b2 p2 d2,
  hist h1 b1 -> for_backends n p1 = true -> fst (handle b1 p1) = Some d1 ->
  hist h2 b2 -> for_backends n p2 = true -> fst (handle b2 p2) = Some d2 -> pkt_flow p2 = pkt_flow p1 ->
  ~ (alive 0 (p_time p1) h1 /\ alive 0 (p_time p2) h2) ->
  alive d1 (p_time p2) h2 -> alive d2 (p_time p1) h1 -> d1 = d2.
Proof.
  intros h1 b1 p1 d1 h2 b2 p2 d2 H1 F1 E1 H2 F2 E2 Ef Z A1 A2.
  destruct (out_chosen h1 b1 p1 d1 H1 F1 E1) as [(-> & B)|(x & -> & C1)]; [exfalso; auto|].
  destruct (out_chosen h2 b2 p2 d2 H2 F2 E2) as [(-> & B)|(y & -> & C2)]; [exfalso; auto|]. f_equal.
  pose proof (mg_hist_inv _ _ _ _ _ _ _ _ _ _ H1) as I1. pose proof (mg_hist_inv _ _ _ _ _ _ _ _ _ _ H2) as I2.
  pose proof (chosen_spec hash n height bexp Hprime h1 b1 p1 I1) as S1. pose proof (chosen_spec hash n height bexp Hprime h2 b2 p2 I2) as S2.
  rewrite C1 in S1. rewrite C2, Ef in S2. destruct S1 as [L1 S1]. destruct S2 as [L2 S2].
  assert (Hcd : cht_data b1 = cht_data b2).
  { assert (Some (cht_data b1) = Some (cht_data b2)); [|congruence]. etransitivity; [symmetry; eapply mi_cht; exact I1|eapply mi_cht; exact I2]. }
  rewrite <- Hcd in S2. apply (first_same _ _ _ _ _ _ _ S1 S2).
  - eapply avail_alive; [exact I2|exact L1|exact A1].
  - eapply avail_alive; [exact I1|exact L2|exact A2].
Qed.

(** The packets from backends, which are their signs of life: maglev.c 50-53. *)
Definition from_backends (h : list (pkt * option N)) : list pkt := filter (fun p => (p_device p <? N.of_nat (n - 1))%N) (map fst h).

Lemma beat_from : forall d h1 h2, (d < N.of_nat (n - 1))%N -> from_backends h1 = from_backends h2 -> last_beat d h1 = last_beat d h2.
Proof.
  intros d h1 h2 Hd. unfold from_backends.
  assert (G : forall h, last_beat d h = last_beat d (map (fun p => (p, None)) (filter (fun p => (p_device p <? N.of_nat (n - 1))%N) (map fst h)))).
  { induction h as [|[p o] h IH]; [reflexivity|]. cbn [map fst filter last_beat].
    destruct (N.ltb_spec (p_device p) (N.of_nat (n - 1))); cbn [map last_beat]; [rewrite IH; reflexivity|].
    destruct (N.eqb_spec (p_device p) d); [lia|]. rewrite andb_false_r. exact IH. }
  intros E. rewrite (G h1), (G h2), E. reflexivity.
Qed.

(** The decision is the same for the same signs of life. *)
Theorem mg_beats : forall h1 b1 p1 h2 b2 p2, hist h1 b1 -> for_backends n p1 = true -> hist h2 b2 -> for_backends n p2 = true ->
  pkt_flow p2 = pkt_flow p1 -> p_time p2 = p_time p1 -> from_backends h1 = from_backends h2 -> ~ alive 0 (p_time p1) h1 ->
  fst (handle b1 p1) = fst (handle b2 p2).
Proof.
  intros h1 b1 p1 h2 b2 p2 H1 F1 H2 F2 Ef Et Eb Z.
  assert (S : forall d, alive d (p_time p1) h1 <-> alive d (p_time p2) h2).
  { intros d. unfold backend_alive. rewrite Et. split; intros [L B]; (split; [exact L|]);
      [rewrite <- (beat_from d h1 h2 L Eb)|rewrite (beat_from d h1 h2 L Eb)]; exact B. }
  pose proof (mg_live hash base loc n height cap fexp bexp Hprime h1 b1 p1 H1 F1) as A1.
  pose proof (mg_live hash base loc n height cap fexp bexp Hprime h2 b2 p2 H2 F2) as A2.
  destruct (fst (handle b1 p1)) as [d1|] eqn:E1, (fst (handle b2 p2)) as [d2|] eqn:E2.
  - f_equal. apply (mg_moves h1 b1 p1 d1 h2 b2 p2 d2); try assumption; [tauto|apply S; exact A1|apply S; exact A2].
  - exfalso. apply (A2 d1). apply S. exact A1.
  - exfalso. apply (A1 d2). apply S. exact A2.
  - reflexivity.
Qed.
End Moves.
