(** * What a bridge's spanning tree state is after any history of frames

    nf/bridge/spanning_tree.h 43-99 (modelled in Bridge.v), described by the frames alone. *)

From Coq Require Import NArith List Bool Lia Arith.
From Verif Require Import IndexPool HashMap Table Firewall ExpSet Packet Bridge.
Import ListNotations.
Local Open Scope N_scope.

(** ** Specification: a function of the times and contents of the frames (latest first) *)

(** When the last update was sent, if one is sent with the first frame that is more than [upd] later than the one before. *)
Fixpoint updated_at (upd : N) (h : list rpkt) : N :=
  match h with [] => 0 | r :: h' => let l := updated_at upd h' in if (l + upd) mod 2 ^ 64 <? r_time r then r_time r else l end.
Definition due_after (upd : N) (h : list rpkt) (r : rpkt) : bool := (updated_at upd h + upd) mod 2 ^ 64 <? r_time r.
(** A BPDU that is read. *)
Definition heard_after (upd : N) (h : list rpkt) (r : rpkt) : bool := negb (due_after upd h r) && (ld48 (r_data r) 0 =? STP_ADDR).
(** A way to a root: the root, the cost in 32 bits, the port. *)
Definition route := (N * N * N)%type.
Definition offer (r : rpkt) : route := (bpdu_root (r_data r), (bpdu_cost (r_data r) + LINK_COST) mod 2 ^ 32, r_device r).
(** The ways heard of. *)
Fixpoint offers (upd : N) (h : list rpkt) : list route :=
  match h with [] => [] | r :: h' => if heard_after upd h' r then offer r :: offers upd h' else offers upd h' end.
(** A smaller root, or the same at a smaller cost, or the same on a smaller port. *)
Definition better (a b : route) : Prop :=
  let '(ra, ca, pa) := a in let '(rb, cb, pb) := b in ra < rb \/ (ra = rb /\ (ca < cb \/ (ca = cb /\ pa < pb))).
Definition best_of (x : route) (l : list route) : Prop := In x l /\ forall y, In y l -> ~ better y x.
(** Whether the last frame on port [p] that speaks for or against it speaks against it: one that offers a worse root than the best before it
    does, one that offers the best way of all does not. *)
Inductive blocked (self upd : N) : list rpkt -> N -> Prop :=
| bl_now : forall r h ro co po, heard_after upd h r = true -> best_of (ro, co, po) ((self, 0, 0) :: offers upd h) -> ro < bpdu_root (r_data r) -> blocked self upd (r :: h) (r_device r)
| bl_still : forall r h p best, blocked self upd h p -> best_of best ((self, 0, 0) :: offers upd h) ->
    ~ (heard_after upd h r = true /\ r_device r = p /\ better (offer r) best) -> blocked self upd (r :: h) p.

(** ** Proofs *)
Definition way (s : stp) : route := (root s, root_cost s, root_port s).
Definition betterb (a b : route) : bool :=
  let '(ra, ca, pa) := a in let '(rb, cb, pb) := b in (ra <? rb) || ((ra =? rb) && ((ca <? cb) || ((ca =? cb) && (pa <? pb)))).
Lemma betterb_iff : forall a b, betterb a b = true <-> better a b.
Proof.
  intros [[ra ca] pa] [[rb cb] pb]. unfold betterb, better. rewrite orb_true_iff, andb_true_iff, orb_true_iff, andb_true_iff, !N.ltb_lt, !N.eqb_eq. reflexivity.
Qed.
Lemma better_trans : forall a b c, better a b -> better b c -> better a c.
Proof. intros [[? ?] ?] [[? ?] ?] [[? ?] ?]. unfold better. lia. Qed.
Lemma better_irrefl : forall a, ~ better a a.
Proof. intros [[? ?] ?]. unfold better. lia. Qed.
Lemma better_total : forall a b, ~ better a b -> ~ better b a -> a = b.
Proof. intros [[? ?] ?] [[? ?] ?]. unfold better. intros H1 H2. assert (n = n2 /\ n0 = n3 /\ n1 = n4) as (-> & -> & ->) by lia. reflexivity. Qed.
Lemma better_not_trans : forall a b c, ~ better b a -> better b c \/ b = c -> ~ better c a.
Proof. intros [[? ?] ?] [[? ?] ?] [[? ?] ?] H [X|X]; [unfold better in *; lia|rewrite <- X; exact H]. Qed.
Lemma best_of_unique : forall x y l, best_of x l -> best_of y l -> x = y.
Proof. intros x y l [X1 X2] [Y1 Y2]. apply better_total; auto. Qed.

Lemma stp_step : forall n s r o s', stp_handle n s r = (o, s') ->
  self_id s' = self_id s /\ update_time s' = update_time s /\
  last_update s' = (if due s r then r_time r else last_update s) /\
  let heard := negb (due s r) && (ld48 (r_data r) 0 =? STP_ADDR) in
  way s' = (if heard && betterb (offer r) (way s) then offer r else way s) /\
  disabled s' = (if heard then if root s <? bpdu_root (r_data r) then set_nth (disabled s) (N.to_nat (r_device r)) true
                               else if betterb (offer r) (way s) then set_nth (disabled s) (N.to_nat (r_device r)) false else disabled s
                 else disabled s).
Proof.
  intros n s r o s' E. unfold stp_handle in E. unfold due, way, offer, betterb.
  destruct (_ <? r_time r); [injection E as _ <-; cbn; auto|]. cbn [negb andb].
  destruct (ld48 (r_data r) 0 =? STP_ADDR); cbn [negb] in E; [|injection E as _ <-; cbn; auto].
  cbn [andb]. set (rt := bpdu_root (r_data r)) in *. set (c := (bpdu_cost (r_data r) + LINK_COST) mod 2 ^ 32) in *.
  destruct (N.ltb_spec (root s) rt) as [L|L].
  - injection E as _ <-. cbn. replace (rt <? root s) with false by (symmetry; apply N.ltb_ge; lia). replace (rt =? root s) with false by (symmetry; apply N.eqb_neq; lia). cbn. auto.
  - destruct (N.ltb_spec rt (root s)) as [L'|L']; [injection E as _ <-; cbn; auto|]. assert (Q : rt = root s) by lia. rewrite Q, N.eqb_refl in *. cbn [andb orb] in *.
    destruct (N.ltb_spec c (root_cost s)); [injection E as _ <-; cbn; auto|]. cbn [orb].
    destruct (N.eqb_spec c (root_cost s)) as [Ec|]; cbn [andb] in *; [|injection E as _ <-; cbn; auto].
    destruct (N.ltb_spec (r_device r) (root_port s)); injection E as _ <-; cbn; rewrite ?Ec; auto.
Qed.

Section Hist.
Variables (hash : bytes -> N) (base loc : N) (n cap : nat) (exp self upd : N).
Notation hist := (br_hist hash base loc n cap exp self upd).
Lemma br_handle_stp : forall b r out b', br_handle hash base loc n b r = (out, b') -> bstp b' = snd (stp_handle n (bstp b) r).
Proof.
  intros b r out b' E. unfold br_handle in E. destruct (stp_handle n (bstp b) r) as [[[ds bp]|] s']; injection E as _ <-; [reflexivity|]. unfold br_learn.
  destruct (negb _); [|reflexivity]. destruct (tlearn _ _ _ _ _ _ _) as [[i|] tb]; reflexivity.
Qed.
Definition frames (h : list bevent) : list rpkt := map ev_frame h.
Lemma hist_state : forall h b, hist h b ->
  self_id (bstp b) = self /\ update_time (bstp b) = upd /\ last_update (bstp b) = updated_at upd (frames h) /\ length (disabled (bstp b)) = n /\
  best_of (way (bstp b)) ((self, 0, 0) :: offers upd (frames h)).
Proof.
  intros h b H. induction H as [b I|h b r out b' H IH OK E].
  - unfold br_init in I. destruct (n <? 2)%nat; [discriminate|]. injection I as <-. cbn [bstp stp_init self_id update_time last_update disabled frames map updated_at offers]. split; [reflexivity|]. split; [reflexivity|]. split; [reflexivity|]. split; [apply repeat_length|]. split; [left; reflexivity|]. intros y [<-|[]]. apply better_irrefl.
  - destruct IH as (I1 & I2 & I3 & I4 & I5 & I6). rewrite (br_handle_stp _ _ _ _ E). destruct (stp_handle n (bstp b) r) as [o s'] eqn:S. cbn [snd].
    destruct (stp_step _ _ _ _ _ S) as (S1 & S2 & S3 & S4 & S5). unfold due in S3, S4, S5. rewrite I2, I3 in S3, S4, S5. cbn [frames map ev_frame]. fold (frames h).
    cbn [updated_at offers]. unfold heard_after, due_after. split; [congruence|]. split; [congruence|]. split; [rewrite S3; reflexivity|]. split.
    { rewrite S5. repeat match goal with |- context [if ?c then _ else _] => destruct c end; rewrite ?set_nth_length; exact I4. }
    rewrite S4. destruct (negb _ && _); cbn [andb]; [|split; assumption]. destruct (betterb (offer r) (way (bstp b))) eqn:B.
    + apply betterb_iff in B. split; [right; left; reflexivity|]. intros y Y.
      assert (C : y = offer r \/ In y ((self, 0, 0) :: offers upd (frames h))) by (destruct Y as [Y|[Y|Y]]; [right; left; exact Y|left; auto|right; right; exact Y]).
      destruct C as [->|C]; [apply better_irrefl|]. intros X. apply (I6 y C). eapply better_trans; eassumption.
    + split; [destruct I5 as [I5|I5]; [left; exact I5|right; right; exact I5]|]. intros y [Y|[Y|Y]]; [apply I6; left; exact Y| |apply I6; right; exact Y].
      subst y. intros X. apply betterb_iff in X. congruence.
Qed.
Lemma hist_blocked : forall h b, hist h b -> forall p, is_disabled (bstp b) p = true <-> blocked self upd (frames h) p.
Proof.
  intros h b H. induction H as [b I|h b r out b' H IH OK E]; intros p.
  - unfold br_init in I. destruct (n <? 2)%nat; [discriminate|]. injection I as <-. unfold is_disabled. cbn. split; [|intros X; inversion X].
    intros X. exfalso. clear - X. revert p X. generalize n. intros m p. generalize (N.to_nat p). induction m as [|m IHm]; intros [|k]; cbn; try discriminate. apply IHm.
  - pose proof (hist_state _ _ H) as (I1 & I2 & I3 & I4 & I5). rewrite (br_handle_stp _ _ _ _ E). destruct (stp_handle n (bstp b) r) as [o s'] eqn:S. cbn [snd].
    destruct (stp_step _ _ _ _ _ S) as (_ & _ & _ & _ & S5). unfold due in S5. rewrite I2, I3 in S5. cbn [frames map ev_frame]. fold (frames h).
    fold (due_after upd (frames h) r) in S5. fold (heard_after upd (frames h) r) in S5. unfold is_disabled. rewrite S5.
    destruct OK as (OK & _). specialize (IH p). unfold is_disabled in IH.
    assert (NTH : forall v, nth (N.to_nat p) (set_nth (disabled (bstp b)) (N.to_nat (r_device r)) v) false = if p =? r_device r then v else nth (N.to_nat p) (disabled (bstp b)) false).
    { intros v. rewrite set_nth_nth by lia. destruct (N.eqb_spec p (r_device r)) as [->|NE]; [rewrite Nat.eqb_refl; reflexivity|]. destruct (Nat.eqb_spec (N.to_nat p) (N.to_nat (r_device r))); [lia|reflexivity]. }
    destruct (heard_after upd (frames h) r) eqn:HE.
    + destruct (N.ltb_spec (root (bstp b)) (bpdu_root (r_data r))) as [L|L].
      * rewrite NTH. destruct (N.eqb_spec p (r_device r)) as [->|NE].
        { split; [intros _|reflexivity]. eapply bl_now; eauto. }
        { rewrite IH. split; [intros X; eapply bl_still; [exact X|exact I5|intros (_ & A & _); congruence]|]. intros X. inversion X; subst; [contradiction|assumption]. }
      * destruct (betterb (offer r) (way (bstp b))) eqn:B.
        { rewrite NTH. apply betterb_iff in B. destruct (N.eqb_spec p (r_device r)) as [->|NE].
          - split; [discriminate|]. intros X. exfalso. inversion X as [? ? ro co po A1 A2 A3|? ? ? best A1 A2 A3]; subst.
            + pose proof (best_of_unique _ _ _ A2 I5) as Q. unfold way in Q. injection Q as -> -> ->. lia.
            + apply A3. rewrite (best_of_unique _ _ _ A2 I5). auto.
          - rewrite IH. split; [intros X; eapply bl_still; [exact X|exact I5|intros (_ & A & _); congruence]|]. intros X. inversion X; subst; [contradiction|assumption]. }
        { rewrite IH. split.
          - intros X. eapply bl_still; [exact X|exact I5|]. intros (_ & _ & A). apply betterb_iff in A. congruence.
          - intros X. inversion X as [? ? ro co po A1 A2 A3|]; subst; [|assumption]. exfalso. pose proof (best_of_unique _ _ _ A2 I5) as Q. unfold way in Q. injection Q as -> -> ->. lia. }
    + rewrite IH. split; [intros X; eapply bl_still; [exact X|exact I5|intros (A & _); congruence]|]. intros X. inversion X; subst; [congruence|assumption].
Qed.
End Hist.
