(** * Expression simplification (tool/kalm/utils.py 144-187) *)

From Coq Require Import NArith ZArith List Bool Lia.
From Verif Require Import Expr Solver Wt.
Import ListNotations.
Open Scope N_scope.

Section Simplify.
Variable k : claripy.
Variable s : solver.

(** utils.py 145-150. *)
Fixpoint force_burrow_ite (v : bv) : bv :=
  match v with
  | BvIte c a b => burrow k (mkif k c (force_burrow_ite a) (force_burrow_ite b))
  | _ => v
  end.

Definition is_add (e : bv) : bool := match e with BvAdd _ _ => true | _ => false end.

Definition zero (w : N) : bv := BVV w 0.

(** utils.py 170-183: factor the common first or last summand out of an If. *)
Definition factor (c : bexp) (a b : bv) : bv :=
  let v := BvIte c a b in
  if is_add a && is_add b then
    let xs := add_args a in
    let ys := add_args b in
    let w := width a in
    let mk x xs' ys' := mkadd k x (mkif k c (sum_from k (zero w) xs') (sum_from k (zero w) ys')) in
    match xs, ys with
    | x0 :: xt, y0 :: yt =>
        let xl := last xs x0 in let xi := removelast xs in
        let yl := last ys y0 in let yi := removelast ys in
        if bv_eqb x0 y0 then mk x0 xt yt
        else if bv_eqb x0 yl then mk x0 xt yi
        else if bv_eqb xl y0 then mk xl xi yt
        else if bv_eqb xl yl then mk xl xi yi
        else v
    | _, _ => v
    end
  else v.

(** utils.py 152-187; [loop] is the while loop of 159-185. [fuel] bounds the nesting
    of calls and iterations. Python's sum starts from the integer 0. *)
Fixpoint simplify (fuel : nat) (cs : list bexp) (value : bv) (cond : bexp) : res bv :=
  match fuel with
  | O => NoFuel
  | S f =>
      if is_add value then
        (fix go (l : list bv) (acc : bv) : res bv :=
           match l with
           | [] => Ok acc
           | a :: l' => do a' <- simplify f cs a cond; go l' (mkadd k acc a')
           end) (add_args value) (zero (width value))
      else
        do v <- loop f cs (excavate k value) cond;
        Ok (simp k cs (force_burrow_ite v))
  end
with loop (fuel : nat) (cs : list bexp) (value : bv) (cond : bexp) : res bv :=
  match fuel with
  | O => NoFuel
  | S f =>
      match value with
      | BvIte c a b =>
          do kc <- get_if_constant_b s cs (BAnd cond c);
          match kc with
          | Some true => loop f cs (excavate k a) cond
          | Some false => loop f cs (excavate k b) cond
          | None =>
              do a' <- simplify f cs a (BAnd cond c);
              do b' <- simplify f cs b (BAnd cond (BNot c));
              match mkif k c a' b' with
              | BvIte c' a'' b'' => Ok (factor c' a'' b'')
              | v => Ok v
              end
          end
      | _ => Ok value
      end
  end.
End Simplify.

(** * Proofs *)

Section Proofs.
Variable k : claripy.
Variable s : solver.
Hypothesis K : claripy_ok k.
Hypothesis SOK : solver_ok s.

(** Same value whenever [P] holds. *)
Definition same_under (P : env -> Prop) (a b : bv) : Prop :=
  width b = width a /\ wtv b = true /\ forall r, P r -> zev r b = zev r a.

Lemma ite_wt : forall c a b, wtv (BvIte c a b) = true -> wtv a = true /\ wtv b = true /\ width a = width b.
Proof. intros c a b H. cbn [wtv] in H. rewrite !andb_true_iff, N.eqb_eq in H. tauto. Qed.
Lemma mk_ite_wt : forall c a b, wtv a = true -> wtv b = true -> width a = width b -> wtv (BvIte c a b) = true.
Proof. intros c a b A B W. cbn [wtv]. rewrite A, B, W, N.eqb_refl. auto. Qed.

Lemma force_burrow_spec : forall P v, wtv v = true -> same_under P v (force_burrow_ite k v).
Proof.
  induction v; intros H; cbn [force_burrow_ite]; try (repeat split; auto; fail).
  apply ite_wt in H as [H1 [H2 W]].
  destruct (IHv1 H1) as [A1 [A2 A3]]. destruct (IHv2 H2) as [B1 [B2 B3]].
  pose proof (ok_if k K c (force_burrow_ite k v1) (force_burrow_ite k v2)) as E.
  pose proof (bveq_trans _ _ _ E (ok_burrow k K _)) as E'.
  assert (WT : wtv (BvIte c (force_burrow_ite k v1) (force_burrow_ite k v2)) = true)
    by (apply mk_ite_wt; auto; congruence).
  split; [|split].
  - rewrite (bveq_w _ _ E'). cbn [width]. auto.
  - eapply bveq_wt; eauto.
  - intros r Hr. rewrite <- (bveq_zev _ _ r E'). rewrite !zev_ite by congruence.
    rewrite A3, B3 by auto. reflexivity.
Qed.

Lemma zero_wt : forall w, 0 < w -> wtv (zero w) = true.
Proof. intros. cbn. apply N.ltb_lt. auto. Qed.
Lemma zero_ev : forall w r, zev r (zero w) = 0%Z.
Proof. intros. unfold zero. rewrite zev_bvv. apply Z.mod_0_l. pose proof (p2_pos w). lia. Qed.

Lemma zsum_removelast : forall r l d, l <> [] -> zsum r l = (zsum r (removelast l) + zev r (last l d))%Z.
Proof.
  intros r l d H. rewrite (app_removelast_last d H) at 1. rewrite zsum_app. cbn. lia.
Qed.

(** Pulling one equal summand out of both branches. *)
Lemma factor_one : forall P c a b x xs ys w,
  wtv a = true -> wtv b = true -> width a = w -> width b = w ->
  wtv x = true -> width x = w -> allw w xs -> allw w ys ->
  (forall r, zev r a = ((zev r x + zsum r xs) mod p2 w)%Z) ->
  (forall r, zev r b = ((zev r x + zsum r ys) mod p2 w)%Z) ->
  same_under P (BvIte c a b)
    (mkadd k x (mkif k c (sum_from k (zero w) xs) (sum_from k (zero w) ys))).
Proof.
  intros P c a b x xs ys w Ta Tb Wa Wb Tx Wx AX AY EA EB.
  assert (Hw : 0 < w) by (rewrite <- Wa; apply wtv_pos; auto).
  destruct (sum_from_spec k K xs (zero w) w (zero_wt w Hw) eq_refl AX) as [X1 [X2 X3]].
  destruct (sum_from_spec k K ys (zero w) w (zero_wt w Hw) eq_refl AY) as [Y1 [Y2 Y3]].
  pose proof (ok_if k K c (sum_from k (zero w) xs) (sum_from k (zero w) ys)) as EI.
  set (i := mkif k c (sum_from k (zero w) xs) (sum_from k (zero w) ys)) in *.
  assert (TI : wtv i = true) by (eapply bveq_wt; [exact EI|]; apply mk_ite_wt; auto; congruence).
  assert (WI : width i = w) by (rewrite (bveq_w _ _ EI); cbn; auto).
  pose proof (ok_add k K x i) as EAd.
  split; [|split].
  - rewrite (bveq_w _ _ EAd). cbn. congruence.
  - eapply bveq_wt; [exact EAd|]. cbn [wtv]. rewrite Tx, TI, Wx, WI, N.eqb_refl. auto.
  - intros r _. rewrite <- (bveq_zev _ _ r EAd), zev_add, Wx.
    rewrite <- (bveq_zev _ _ r EI). rewrite !zev_ite by congruence.
    rewrite X3, Y3, zero_ev, EA, EB. cbn [Z.add].
    destruct (eb r c); rewrite Zplus_mod_idemp_r; reflexivity.
Qed.

Lemma allw_removelast : forall w l, allw w l -> allw w (removelast l).
Proof.
  intros w l H. unfold allw in *. rewrite Forall_forall in *. intros x Hx. apply H.
  clear H. induction l as [|a l IH]; cbn in *; [auto|]. destruct l; [destruct Hx|].
  destruct Hx as [<-|Hx]; auto.
Qed.
Lemma allw_last : forall w l d, allw w l -> l <> [] -> wtv (last l d) = true /\ width (last l d) = w.
Proof.
  intros w l d H N. unfold allw in H. rewrite Forall_forall in H. apply H.
  rewrite (app_removelast_last d N) at 2. apply in_or_app. right. left. auto.
Qed.

Lemma factor_spec : forall P c a b, wtv (BvIte c a b) = true -> same_under P (BvIte c a b) (factor k c a b).
Proof.
  intros P c a b H. assert (Hsame : same_under P (BvIte c a b) (BvIte c a b)) by (repeat split; auto).
  unfold factor. destruct (is_add a && is_add b); [|auto].
  apply ite_wt in H as [Ta [Tb W]].
  destruct (add_args_spec a Ta) as [AA EA]. destruct (add_args_spec b Tb) as [AB EB].
  rewrite <- W in AB, EB.
  destruct (add_args a) as [|x0 xt] eqn:XS; [auto|]. destruct (add_args b) as [|y0 yt] eqn:YS; [auto|].
  inversion AA as [|? ? [Tx0 Wx0] AXt]; subst. inversion AB as [|? ? [Ty0 Wy0] AYt]; subst.
  assert (NX : x0 :: xt <> []) by discriminate. assert (NY : y0 :: yt <> []) by discriminate.
  destruct (allw_last _ _ x0 AA NX) as [Txl Wxl]. destruct (allw_last _ _ y0 AB NY) as [Tyl Wyl].
  pose proof (allw_removelast _ _ AA) as AXi. pose proof (allw_removelast _ _ AB) as AYi.
  assert (EXh : forall r, zev r a = ((zev r x0 + zsum r xt) mod p2 (width a))%Z) by (intros; rewrite EA; reflexivity).
  assert (EYh : forall r, zev r b = ((zev r y0 + zsum r yt) mod p2 (width a))%Z) by (intros; rewrite EB; reflexivity).
  assert (EXl : forall r, zev r a = ((zev r (last (x0 :: xt) x0) + zsum r (removelast (x0 :: xt))) mod p2 (width a))%Z).
  { intros. rewrite EA, (zsum_removelast r (x0 :: xt) x0 NX). f_equal. lia. }
  assert (EYl : forall r, zev r b = ((zev r (last (y0 :: yt) y0) + zsum r (removelast (y0 :: yt))) mod p2 (width a))%Z).
  { intros. rewrite EB, (zsum_removelast r (y0 :: yt) y0 NY). f_equal. lia. }
  destruct (bv_eqb x0 y0) eqn:Q1; [|destruct (bv_eqb x0 (last (y0 :: yt) y0)) eqn:Q2;
    [|destruct (bv_eqb (last (x0 :: xt) x0) y0) eqn:Q3; [|destruct (bv_eqb (last (x0 :: xt) x0) (last (y0 :: yt) y0)) eqn:Q4; [|auto]]]].
  - apply bv_eqb_eq in Q1. subst. apply factor_one; auto.
  - apply bv_eqb_eq in Q2. apply factor_one; auto. rewrite Q2. auto.
  - apply bv_eqb_eq in Q3. apply factor_one; auto. rewrite Q3. auto.
  - apply bv_eqb_eq in Q4. apply factor_one; auto. rewrite Q4. auto.
Qed.

Lemma same_under_trans : forall P a b c, same_under P a b -> (wtv b = true -> same_under P b c) -> same_under P a c.
Proof.
  intros P a b c [A1 [A2 A3]] H. destruct (H A2) as [B1 [B2 B3]].
  split; [congruence|]. split; [auto|]. intros r Hr. rewrite B3, A3; auto.
Qed.
Lemma bveq_same : forall P a b, bveq a b -> wtv a = true -> same_under P a b.
Proof.
  intros P a b E T. split; [apply bveq_w; auto|]. split; [eapply bveq_wt; eauto|].
  intros r _. symmetry. apply bveq_zev. auto.
Qed.

Definition under (cs : list bexp) (cond : bexp) (r : env) : Prop := holds r cs /\ eb r cond = true.

Lemma simplify_S : forall f cs value cond, simplify k s (S f) cs value cond =
  if is_add value then
    (fix go (l : list bv) (acc : bv) : res bv :=
       match l with
       | [] => Ok acc
       | a :: l' => do a' <- simplify k s f cs a cond; go l' (mkadd k acc a')
       end) (add_args value) (zero (width value))
  else do v <- loop k s f cs (excavate k value) cond; Ok (simp k cs (force_burrow_ite k v)).
Proof. reflexivity. Qed.
Lemma loop_S : forall f cs value cond, loop k s (S f) cs value cond =
  match value with
  | BvIte c a b =>
      do kc <- get_if_constant_b s cs (BAnd cond c);
      match kc with
      | Some true => loop k s f cs (excavate k a) cond
      | Some false => loop k s f cs (excavate k b) cond
      | None =>
          do a' <- simplify k s f cs a (BAnd cond c);
          do b' <- simplify k s f cs b (BAnd cond (BNot c));
          match mkif k c a' b' with
          | BvIte c' a'' b'' => Ok (factor k c' a'' b'')
          | v => Ok v
          end
      end
  | _ => Ok value
  end.
Proof. reflexivity. Qed.

Lemma simplify_loop_spec : forall fuel,
  (forall cs value cond v, wtv value = true -> simplify k s fuel cs value cond = Ok v ->
     same_under (under cs cond) value v) /\
  (forall cs value cond v, wtv value = true -> loop k s fuel cs value cond = Ok v ->
     same_under (under cs cond) value v).
Proof.
  induction fuel as [|f [IHs IHl]]; [split; intros; discriminate|]. split.
  - intros cs value cond v T H. rewrite simplify_S in H. destruct (is_add value) eqn:A.
    + destruct (add_args_spec value T) as [AA EA].
      assert (Hw : 0 < width value) by (apply wtv_pos; auto).
      assert (G : forall l acc v0, allw (width value) l -> wtv acc = true -> width acc = width value ->
        (fix go (l : list bv) (acc : bv) : res bv :=
           match l with
           | [] => Ok acc
           | a :: l' => do a' <- simplify k s f cs a cond; go l' (mkadd k acc a')
           end) l acc = Ok v0 ->
        width v0 = width value /\ wtv v0 = true /\
        forall r, under cs cond r -> zev r v0 = ((zev r acc + zsum r l) mod p2 (width value))%Z).
      { induction l as [|a l IH]; intros acc v0 AL TA WA G.
        - injection G as <-. repeat split; auto. intros r _. cbn. rewrite Z.add_0_r, <- WA, zev_small. auto.
        - inversion AL as [|? ? [Ta Wa] AL']; subst.
          destruct (simplify k s f cs a cond) as [a'| |] eqn:SA; try discriminate. cbn [bindr] in G.
          destruct (IHs cs a cond a' Ta SA) as [S1 [S2 S3]].
          pose proof (ok_add k K acc a') as E.
          apply IH in G as [G1 [G2 G3]]; auto.
          + repeat split; auto. intros r Hr. rewrite G3 by auto. rewrite <- (bveq_zev _ _ r E), zev_add, WA.
            rewrite Zplus_mod_idemp_l, S3 by auto. cbn [zsum fold_right]. fold (zsum r l). f_equal. lia.
          + eapply bveq_wt; [exact E|]. cbn [wtv]. rewrite TA, S2. cbn. apply N.eqb_eq. congruence.
          + rewrite (bveq_w _ _ E). cbn. auto. }
      apply G in H as [G1 [G2 G3]]; auto; [|apply zero_wt; auto].
      split; [auto|]. split; [auto|]. intros r Hr. rewrite G3, zero_ev, EA by auto. reflexivity.
    + destruct (loop k s f cs (excavate k value) cond) as [v'| |] eqn:L; try discriminate. cbn [bindr] in H.
      injection H as <-.
      eapply same_under_trans; [apply bveq_same; [apply (ok_excavate k K)|auto]|]. intros T1.
      eapply same_under_trans; [apply IHl; [auto|exact L]|]. intros T2.
      eapply same_under_trans; [apply force_burrow_spec; auto|]. intros T3.
      apply bveq_same; [apply (ok_simp k K)|auto].
  - intros cs value cond v T H. rewrite loop_S in H.
    destruct value; try (injection H as <-; repeat split; auto; fail).
    pose proof (ite_wt _ _ _ T) as [T1 [T2 W]].
    destruct (get_if_constant_b s cs (BAnd cond c)) as [kc| |] eqn:KC; try discriminate. cbn [bindr] in H.
    pose proof (get_if_constant_b_spec s SOK cs (BAnd cond c)) as SP. rewrite KC in SP.
    destruct kc as [[|]|].
    + eapply same_under_trans; [|intros T'; eapply IHl; [|exact H]; eapply bveq_wt; [apply (ok_excavate k K)|exact T1]].
      split; [rewrite (bveq_w _ _ (ok_excavate k K value1)); auto|].
      split; [eapply bveq_wt; [apply (ok_excavate k K)|auto]|].
      intros r [Hr Hc]. rewrite <- (bveq_zev _ _ r (ok_excavate k K value1)), zev_ite by auto.
      destruct SP as [_ SP]. specialize (SP r Hr). cbn [evalb] in SP. rewrite Hc in SP. cbn in SP. rewrite SP. auto.
    + eapply same_under_trans; [|intros T'; eapply IHl; [|exact H]; eapply bveq_wt; [apply (ok_excavate k K)|exact T2]].
      split; [rewrite (bveq_w _ _ (ok_excavate k K value2)); auto|].
      split; [eapply bveq_wt; [apply (ok_excavate k K)|auto]|].
      intros r [Hr Hc]. rewrite <- (bveq_zev _ _ r (ok_excavate k K value2)), zev_ite by auto.
      destruct SP as [_ SP]. specialize (SP r Hr). cbn [evalb] in SP. rewrite Hc in SP. cbn in SP. rewrite SP. auto.
    + destruct (simplify k s f cs value1 (BAnd cond c)) as [a'| |] eqn:SA; try discriminate. cbn [bindr] in H.
      destruct (simplify k s f cs value2 (BAnd cond (BNot c))) as [b'| |] eqn:SB; try discriminate. cbn [bindr] in H.
      destruct (IHs _ _ _ _ T1 SA) as [A1 [A2 A3]]. destruct (IHs _ _ _ _ T2 SB) as [B1 [B2 B3]].
      pose proof (ok_if k K c a' b') as E.
      assert (TI : wtv (BvIte c a' b') = true) by (apply mk_ite_wt; auto; congruence).
      assert (M : same_under (under cs cond) (BvIte c value1 value2) (mkif k c a' b')).
      { split; [rewrite (bveq_w _ _ E); cbn; auto|]. split; [eapply bveq_wt; eauto|].
        intros r [Hr Hc]. rewrite <- (bveq_zev _ _ r E). rewrite !zev_ite by congruence.
        destruct (eb r c) eqn:EC.
        - apply A3. split; [auto|]. cbn. rewrite Hc, EC. auto.
        - apply B3. split; [auto|]. cbn. rewrite Hc, EC. auto. }
      eapply same_under_trans; [exact M|]. intros TM.
      destruct (mkif k c a' b'); try (injection H as <-; repeat split; auto; fail).
      injection H as <-. apply factor_spec. auto.
Qed.

Lemma simplify_preserves : forall fuel cs value cond v, wtv value = true ->
  simplify k s fuel cs value cond = Ok v ->
  width v = width value /\ forall r, holds r cs -> eb r cond = true -> ev r v = ev r value.
Proof.
  intros fuel cs value cond v T H.
  destruct (proj1 (simplify_loop_spec fuel) cs value cond v T H) as [A [_ B]].
  split; [auto|]. intros r Hr Hc. apply N2Z.inj. apply (B r). split; auto.
Qed.
Lemma simplify_wt : forall fuel cs value cond v, wtv value = true ->
  simplify k s fuel cs value cond = Ok v -> wtv v = true.
Proof.
  intros fuel cs value cond v T H. apply (proj1 (simplify_loop_spec fuel) cs value cond v T H).
Qed.
End Proofs.
