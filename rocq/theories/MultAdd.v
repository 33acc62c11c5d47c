(** * Address arithmetic (tool/kalm/utils.py 195-323) *)

From Coq Require Import NArith ZArith List Bool Lia.
From Verif Require Import Expr Solver Wt Simplify.
Import ListNotations.
Open Scope N_scope.

(** A multiplier is a Python integer or a claripy expression (shifting an integer by
    an expression gives an expression). *)
Inductive mult := MI (z : Z) | MB (b : bv).
(** The dict of terms, in insertion order; keys are hash-consed expressions. *)
Definition dec := list (bv * mult).

(** A Python integer coerced to a bit-vector of width [w]. *)
Definition bvz (w : N) (z : Z) : bv := BVV w (Z.to_N (z mod p2 w)).

Definition mshl_int (m : mult) (n : N) : mult :=
  match m with
  | MI z => MI (z * p2 n)
  | MB b => MB (BvShl b (bvz (width b) (Z.of_N n)))
  end.
Definition mshl_bv (m : mult) (sh : bv) : res mult :=
  match m with
  | MI z => Ok (MB (BvShl (bvz (width sh) z) sh))
  | MB b => if width b =? width sh then Ok (MB (BvShl b sh)) else Err
  end.
Definition mmul_int (m : mult) (z : Z) : mult :=
  match m with
  | MI z' => MI (z' * z)
  | MB b => MB (BvMul b (bvz (width b) z))
  end.
Definition madd (m1 m2 : mult) : res mult :=
  match m1, m2 with
  | MI a, MI b => Ok (MI (a + b))
  | MI a, MB b => Ok (MB (BvAdd (bvz (width b) a) b))
  | MB a, MI b => Ok (MB (BvAdd a (bvz (width a) b)))
  | MB a, MB b => if width a =? width b then Ok (MB (BvAdd a b)) else Err
  end.

Fixpoint mapm (f : mult -> res mult) (d : dec) : res dec :=
  match d with
  | [] => Ok []
  | (e, m) :: d' => do m' <- f m; do d'' <- mapm f d'; Ok ((e, m') :: d'')
  end.
(** [result.setdefault(e, 0); result[e] += m] (254-255). *)
Fixpoint dadd (d : dec) (e : bv) (m : mult) : res dec :=
  match d with
  | [] => do m' <- madd (MI 0) m; Ok [(e, m')]
  | (e', m0) :: d' =>
      if bv_eqb e' e then do m' <- madd m0 m; Ok ((e', m') :: d')
      else do d'' <- dadd d' e m; Ok ((e', m0) :: d'')
  end.
(** [if e in result: result[e] += m else: result[e] = m] (295-298). *)
Fixpoint dput (d : dec) (e : bv) (m : mult) : res dec :=
  match d with
  | [] => Ok [(e, m)]
  | (e', m0) :: d' =>
      if bv_eqb e' e then do m' <- madd m0 m; Ok ((e', m') :: d')
      else do d'' <- dput d' e m; Ok ((e', m0) :: d'')
  end.
Fixpoint dadd_all (d : dec) (coeff : Z) (l : dec) : res dec :=
  match l with
  | [] => Ok d
  | (e, m) :: l' => do d' <- dadd d e (mmul_int m coeff); dadd_all d' coeff l'
  end.

(** utils.py 240-286. n-ary sums and products are left-nested here; the loop over
    their arguments is the nesting of the recursion. A claripy boolean has no truth
    value, so comparing expression multipliers (284) raises; a product without any
    symbolic factor recurses on None and raises. *)
Fixpoint as_mult_add (e : bv) : res dec :=
  match e with
  | BvConcat a (BVV n 0) =>
      do d <- as_mult_add a;
      Ok (map (fun em => (BvZext n (fst em), mshl_int (snd em) n)) d)
  | BvShl a sh => do d <- as_mult_add a; mapm (fun m => mshl_bv m sh) d
  | BvAdd a b =>
      do da <- as_mult_add a; do db <- as_mult_add b;
      do d <- dadd_all [] 1 da; dadd_all d 1 db
  | BvSub a b =>
      do da <- as_mult_add a; do db <- as_mult_add b;
      do d <- dadd_all [] 1 da; dadd_all d (-1) db
  | BvMul a b =>
      match symbolic a, symbolic b with
      | true, true => Ok [(e, MI 1)]
      | true, false =>
          match b with
          | BVV _ c => do d <- as_mult_add a; Ok (map (fun em => (fst em, mmul_int (snd em) (Z.of_N c))) d)
          | _ => Err
          end
      | false, true =>
          match a with
          | BVV _ c => do d <- as_mult_add b; Ok (map (fun em => (fst em, mmul_int (snd em) (Z.of_N c))) d)
          | _ => Err
          end
      | false, false => Err
      end
  | BvIte c a b =>
      do da <- as_mult_add a; do db <- as_mult_add b;
      match da, db with
      | [(ka, ma)], [(kb, mb)] =>
          match ma, mb with
          | MI x, MI y => if Z.eqb x y then Ok [(BvIte c ka kb, MI x)] else Ok [(e, MI 1)]
          | _, _ => Err
          end
      | _, _ => Ok [(e, MI 1)]
      end
  | _ => Ok [(e, MI 1)]
  end.

Section Outer.
Variable k : claripy.
Variable s : solver.

(** utils.py 289-299. claripy raises when comparing expressions of different sizes. *)
Definition group_key (cs : list bexp) (e : bv) : res bv :=
  match e with
  | BvZext n (BvExtract hi 0 x) =>
      if width x =? width e then
        if definitely_true s cs (BEq x e) then Ok x else Ok e
      else Err
  | _ => Ok e
  end.
Fixpoint group (cs : list bexp) (d : dec) (l : dec) : res dec :=
  match l with
  | [] => Ok d
  | (e, m) :: l' => do e' <- group_key cs e; do d' <- dput d e' m; group cs d' l'
  end.
Definition as_mult_add_outer (cs : list bexp) (e : bv) : res dec :=
  do d <- as_mult_add e; group cs [] d.

(** The multiplier as a claripy operand of width [w]. *)
Definition mexp (w : N) (m : mult) : bv := match m with MI z => bvz w z | MB b => b end.
Definition mw_ok (w : N) (m : mult) : bool := match m with MI _ => true | MB b => width b =? w end.

(** utils.py 302-309; [b] is an expression of the pointer size. The running sum starts
    from the integer 0. *)
Fixpoint modulo_terms (w : N) (b : bv) (d : dec) (acc : bv) : res bv :=
  match d with
  | [] => Ok acc
  | (e, m) :: d' =>
      if negb (width e =? width b) then Err
      else if istrue k (BEq (BvUrem e b) (BVV w 0)) then modulo_terms w b d' acc
      else if negb (mw_ok (width b) m) then Err
      else if istrue k (BEq (BvUrem (mexp (width b) m) b) (BVV w 0)) then modulo_terms w b d' acc
      else modulo_terms w b d' (mkadd k acc (BvMul e (mexp (width e) m)))
  end.
Definition modulo_simplify (cs : list bexp) (a b : bv) : res bv :=
  do d <- as_mult_add_outer cs a;
  do sum <- modulo_terms (width a) b d (zero (width a));
  Ok (BvUrem sum b).

(** utils.py 312-323. *)
Definition make_term (b e : bv) (m : mult) : res bv :=
  if negb (mw_ok (width b) m) then Err
  else if istrue k (BEq (BvUrem (mexp (width b) m) b) (zero (width b))) then Ok e
  else if negb (width e =? width b) then Err
  else Ok (BvUdiv (BvMul e (mexp (width e) m)) b).
Fixpoint div_terms (b : bv) (d : dec) (acc : bv) : res bv :=
  match d with
  | [] => Ok acc
  | (e, m) :: d' => do t <- make_term b e m; div_terms b d' (mkadd k acc t)
  end.
Definition div_simplify (cs : list bexp) (a b : bv) : res bv :=
  if istrue k (BEq a (zero (width a))) then Ok a
  else if istrue k (BEq b (bvz (width b) 1)) then Ok a
  else do d <- as_mult_add_outer cs a; div_terms b d (zero (width a)).
End Outer.

(** * Meaning of a decomposition *)
Definition mval (r : env) (m : mult) : Z := match m with MI z => z | MB b => zev r b end.
Definition wsum (r : env) (d : dec) : Z := fold_right (fun em acc => (zev r (fst em) * mval r (snd em) + acc)%Z) 0%Z d.
(** Every product term * multiplier can be built: sizes agree with the whole. *)
Definition sized (w : N) (d : dec) : bool :=
  forallb (fun em => (width (fst em) =? w) && mw_ok w (snd em)) d.

(** * Proofs *)

Definition eqm (w : N) (a b : Z) : Prop := (a mod p2 w = b mod p2 w)%Z.
Lemma eqm_refl : forall w a, eqm w a a. Proof. reflexivity. Qed.
Lemma eqm_sym : forall w a b, eqm w a b -> eqm w b a. Proof. unfold eqm. auto. Qed.
Lemma eqm_trans : forall w a b c, eqm w a b -> eqm w b c -> eqm w a c. Proof. unfold eqm. congruence. Qed.
Lemma eqm_add : forall w a b c d, eqm w a b -> eqm w c d -> eqm w (a + c) (b + d).
Proof. unfold eqm. intros. rewrite Zplus_mod, H, H0, <- Zplus_mod. auto. Qed.
Lemma eqm_mul : forall w a b c d, eqm w a b -> eqm w c d -> eqm w (a * c) (b * d).
Proof. unfold eqm. intros. rewrite Zmult_mod, H, H0, <- Zmult_mod. auto. Qed.
Lemma eqm_mod : forall w a, eqm w (a mod p2 w) a.
Proof. unfold eqm. intros. apply Zmod_mod. Qed.

Lemma zev_bvz : forall r w z, zev r (bvz w z) = (z mod p2 w)%Z.
Proof.
  intros. unfold bvz. rewrite zev_bvv, Z2N.id by (apply Z.mod_pos_bound; apply p2_pos). apply Zmod_mod.
Qed.
Lemma zev_shl : forall r a b, eqm (width a) (zev r (BvShl a b)) (zev r a * p2 (ev r b)).
Proof.
  intros r a b. unfold zev at 1. cbn [evalv]. destruct (N.leb_spec (width a) (ev r b)).
  - unfold eqm. cbn [Z.of_N]. rewrite Z.mod_0_l by (pose proof (p2_pos (width a)); lia).
    replace (ev r b) with (ev r b - width a + width a) by lia.
    replace (p2 (ev r b - width a + width a)) with (p2 (ev r b - width a) * p2 (width a))%Z
      by (unfold p2; rewrite <- N2Z.inj_mul, <- N.pow_add_r; reflexivity).
    rewrite Z.mul_assoc. symmetry. apply Z_mod_mult.
  - rewrite zwrap, N2Z.inj_mul. apply eqm_mod.
Qed.

Lemma madd_spec : forall w m1 m2 m r, madd m1 m2 = Ok m -> mw_ok w m = true ->
  mw_ok w m1 = true /\ mw_ok w m2 = true /\ eqm w (mval r m) (mval r m1 + mval r m2).
Proof.
  intros w m1 m2 m r H W. destruct m1 as [a|a], m2 as [b|b]; cbn [madd] in H.
  - injection H as <-. cbn. repeat split; auto. 
  - injection H as <-. cbn in *. apply N.eqb_eq in W. subst w. repeat split; auto using N.eqb_refl.
    rewrite zev_add, zev_bvz. cbn. eapply eqm_trans; [apply eqm_mod|].
    apply eqm_add; [apply eqm_mod|apply eqm_refl].
  - injection H as <-. cbn in *. apply N.eqb_eq in W. subst w. repeat split; auto using N.eqb_refl.
    rewrite zev_add, zev_bvz. cbn. eapply eqm_trans; [apply eqm_mod|].
    apply eqm_add; [apply eqm_refl|apply eqm_mod].
  - destruct (N.eqb_spec (width a) (width b)); [|discriminate]. injection H as <-. cbn in *.
    apply N.eqb_eq in W. subst w. rewrite e, N.eqb_refl. repeat split; auto.
    rewrite zev_add. rewrite <- e. apply eqm_mod.
Qed.
Lemma mmul_int_spec : forall w m z r, mw_ok w (mmul_int m z) = mw_ok w m /\
  (mw_ok w m = true -> eqm w (mval r (mmul_int m z)) (mval r m * z)).
Proof.
  intros w m z r. destruct m as [a|b]; cbn; split; auto; [intros; apply eqm_refl|].
  intros W. apply N.eqb_eq in W. subst w. rewrite zev_mul, zev_bvz.
  eapply eqm_trans; [apply eqm_mod|]. apply eqm_mul; [apply eqm_refl|apply eqm_mod].
Qed.

Lemma sized_cons : forall w e m d, sized w ((e, m) :: d) = true <-> width e = w /\ mw_ok w m = true /\ sized w d = true.
Proof. intros. unfold sized. cbn. rewrite !andb_true_iff, N.eqb_eq. tauto. Qed.
Lemma wsum_cons : forall r e m d, wsum r ((e, m) :: d) = (zev r e * mval r m + wsum r d)%Z.
Proof. reflexivity. Qed.

Lemma dadd_spec : forall w r d e m d', dadd d e m = Ok d' -> sized w d' = true ->
  sized w d = true /\ width e = w /\ mw_ok w m = true /\ eqm w (wsum r d') (wsum r d + zev r e * mval r m).
Proof.
  induction d as [|[e0 m0] d IH]; cbn [dadd]; intros e m d' H S.
  - destruct (madd (MI 0) m) as [m'| |] eqn:M; try discriminate. cbn in H. injection H as <-.
    apply sized_cons in S as [W [Wm _]]. destruct (madd_spec w _ _ _ r M Wm) as [_ [W2 E]].
    repeat split; auto. rewrite wsum_cons. cbn [wsum fold_right]. rewrite Z.add_0_r, Z.add_0_l.
    apply eqm_mul; [apply eqm_refl|exact E].
  - destruct (bv_eqb e0 e) eqn:Q.
    + apply bv_eqb_eq in Q. subst e0. destruct (madd m0 m) as [m'| |] eqn:M; try discriminate. cbn in H. injection H as <-.
      apply sized_cons in S as [W [Wm S]]. destruct (madd_spec w _ _ _ r M Wm) as [W1 [W2 E]].
      repeat split; auto; [apply sized_cons; auto|]. rewrite !wsum_cons.
      eapply eqm_trans; [apply eqm_add; [apply eqm_mul; [apply eqm_refl|exact E]|apply eqm_refl]|].
      replace (zev r e * (mval r m0 + mval r m) + wsum r d)%Z with (zev r e * mval r m0 + wsum r d + zev r e * mval r m)%Z by ring.
      apply eqm_refl.
    + destruct (dadd d e m) as [d''| |] eqn:D; try discriminate. cbn in H. injection H as <-.
      apply sized_cons in S as [W [Wm S]]. destruct (IH e m d'' D S) as [A [B [C E]]].
      repeat split; auto; [apply sized_cons; auto|]. rewrite !wsum_cons.
      replace (zev r e0 * mval r m0 + wsum r d + zev r e * mval r m)%Z
        with (zev r e0 * mval r m0 + (wsum r d + zev r e * mval r m))%Z by ring.
      apply eqm_add; [apply eqm_refl|exact E].
Qed.

Lemma dput_spec : forall w r d e m d', dput d e m = Ok d' -> sized w d' = true ->
  sized w d = true /\ width e = w /\ mw_ok w m = true /\ eqm w (wsum r d') (wsum r d + zev r e * mval r m).
Proof.
  induction d as [|[e0 m0] d IH]; cbn [dput]; intros e m d' H S.
  - injection H as <-. apply sized_cons in S as [W [Wm _]].
    repeat split; auto. rewrite wsum_cons. cbn [wsum fold_right]. rewrite Z.add_0_r, Z.add_0_l. apply eqm_refl.
  - destruct (bv_eqb e0 e) eqn:Q.
    + apply bv_eqb_eq in Q. subst e0. destruct (madd m0 m) as [m'| |] eqn:M; try discriminate. cbn in H. injection H as <-.
      apply sized_cons in S as [W [Wm S]]. destruct (madd_spec w _ _ _ r M Wm) as [W1 [W2 E]].
      repeat split; auto; [apply sized_cons; auto|]. rewrite !wsum_cons.
      eapply eqm_trans; [apply eqm_add; [apply eqm_mul; [apply eqm_refl|exact E]|apply eqm_refl]|].
      replace (zev r e * (mval r m0 + mval r m) + wsum r d)%Z with (zev r e * mval r m0 + wsum r d + zev r e * mval r m)%Z by ring.
      apply eqm_refl.
    + destruct (dput d e m) as [d''| |] eqn:D; try discriminate. cbn in H. injection H as <-.
      apply sized_cons in S as [W [Wm S]]. destruct (IH e m d'' D S) as [A [B [C E]]].
      repeat split; auto; [apply sized_cons; auto|]. rewrite !wsum_cons.
      replace (zev r e0 * mval r m0 + wsum r d + zev r e * mval r m)%Z
        with (zev r e0 * mval r m0 + (wsum r d + zev r e * mval r m))%Z by ring.
      apply eqm_add; [apply eqm_refl|exact E].
Qed.

Lemma dadd_all_spec : forall w r c l d d', dadd_all d c l = Ok d' -> sized w d' = true ->
  sized w d = true /\ sized w l = true /\ eqm w (wsum r d') (wsum r d + c * wsum r l).
Proof.
  induction l as [|[e m] l IH]; cbn [dadd_all]; intros d d' H S.
  - injection H as <-. repeat split; auto. cbn. rewrite Z.mul_0_r, Z.add_0_r. apply eqm_refl.
  - destruct (dadd d e (mmul_int m c)) as [d1| |] eqn:D; try discriminate. cbn [bindr] in H.
    destruct (IH d1 d' H S) as [S1 [S2 E1]]. destruct (dadd_spec w r d e _ d1 D S1) as [S3 [W [Wm E2]]].
    destruct (mmul_int_spec w m c r) as [M1 M2]. rewrite M1 in Wm. specialize (M2 Wm).
    repeat split; auto; [apply sized_cons; auto|].
    eapply eqm_trans; [exact E1|]. rewrite wsum_cons.
    replace (wsum r d + c * (zev r e * mval r m + wsum r l))%Z
      with (wsum r d + zev r e * (mval r m * c) + c * wsum r l)%Z by ring.
    apply eqm_add; [|apply eqm_refl]. eapply eqm_trans; [exact E2|].
    apply eqm_add; [apply eqm_refl|]. apply eqm_mul; [apply eqm_refl|exact M2].
Qed.

Lemma mapm_shl_spec : forall w r sh d d', width sh = w -> mapm (fun m => mshl_bv m sh) d = Ok d' -> sized w d' = true ->
  sized w d = true /\ eqm w (wsum r d') (wsum r d * p2 (ev r sh)).
Proof.
  intros w r sh. induction d as [|[e m] d IH]; cbn [mapm]; intros d' W H S.
  - injection H as <-. split; [auto|]. apply eqm_refl.
  - destruct (mshl_bv m sh) as [m'| |] eqn:M; try discriminate. cbn [bindr] in H.
    destruct (mapm _ d) as [d1| |]; try discriminate. cbn [bindr] in H. injection H as <-.
    apply sized_cons in S as [We [Wm S]]. destruct (IH d1 W eq_refl S) as [A B].
    assert (MM : mw_ok w m = true /\ eqm w (mval r m') (mval r m * p2 (ev r sh))).
    { destruct m as [z|b]; cbn [mshl_bv] in M.
      - injection M as <-. split; [auto|]. cbn [mval]. subst w.
        eapply eqm_trans; [apply (zev_shl r (bvz (width sh) z) sh)|]. rewrite zev_bvz.
        apply eqm_mul; [apply eqm_mod|apply eqm_refl].
      - destruct (N.eqb_spec (width b) (width sh)); [|discriminate]. injection M as <-.
        split; [cbn; apply N.eqb_eq; congruence|]. cbn [mval]. subst w. rewrite <- e0. apply zev_shl. }
    destruct MM as [M1 M2]. split; [apply sized_cons; auto|]. rewrite !wsum_cons, Z.mul_add_distr_r.
    apply eqm_add; [|exact B]. rewrite <- Z.mul_assoc. apply eqm_mul; [apply eqm_refl|exact M2].
Qed.

Lemma map_mul_spec : forall w r z d, sized w (map (fun em => (fst em, mmul_int (snd em) z)) d) = true ->
  sized w d = true /\ eqm w (wsum r (map (fun em => (fst em, mmul_int (snd em) z)) d)) (wsum r d * z).
Proof.
  intros w r z. induction d as [|[e m] d IH]; cbn [map fst snd]; intros S.
  - split; [auto|apply eqm_refl].
  - apply sized_cons in S as [W [Wm S]]. destruct (IH S) as [A B].
    destruct (mmul_int_spec w m z r) as [M1 M2]. rewrite M1 in Wm. specialize (M2 Wm).
    split; [apply sized_cons; auto|]. rewrite !wsum_cons, Z.mul_add_distr_r.
    apply eqm_add; [|exact B]. rewrite <- Z.mul_assoc. apply eqm_mul; [apply eqm_refl|exact M2].
Qed.

(** Expression multipliers are never wider than the expression they belong to. *)
Definition mw_le (w : N) (m : mult) : Prop := match m with MI _ => True | MB b => width b <= w end.
Definition all_le (w : N) (d : dec) : Prop := Forall (fun em => mw_le w (snd em)) d.
Lemma mmul_le : forall w m z, mw_le w m -> mw_le w (mmul_int m z).
Proof. intros w [a|b] z H; cbn in *; auto. Qed.
Lemma madd_le : forall w a b m, mw_le w a -> mw_le w b -> madd a b = Ok m -> mw_le w m.
Proof.
  intros w [a|a] [b|b] m A B H; cbn in *; try (injection H as <-; cbn; auto).
  destruct (width a =? width b); [|discriminate]. injection H as <-. cbn. auto.
Qed.
Lemma dadd_le : forall w d e m d', all_le w d -> mw_le w m -> dadd d e m = Ok d' -> all_le w d'.
Proof.
  induction d as [|[e0 m0] d IH]; cbn [dadd]; intros e m d' A B H.
  - destruct (madd (MI 0) m) as [m'| |] eqn:M; try discriminate. cbn in H. injection H as <-.
    constructor; [|constructor]. eapply madd_le; [| |exact M]; cbn; auto.
  - inversion A; subst. destruct (bv_eqb e0 e).
    + destruct (madd m0 m) as [m'| |] eqn:M; try discriminate. cbn in H. injection H as <-.
      constructor; auto. eapply madd_le; [| |exact M]; auto.
    + destruct (dadd d e m) as [d''| |] eqn:D; try discriminate. cbn in H. injection H as <-.
      constructor; [auto|]. exact (IH e m d'' ltac:(assumption) B D).
Qed.
Lemma dadd_all_le : forall w c l d d', all_le w d -> all_le w l -> dadd_all d c l = Ok d' -> all_le w d'.
Proof.
  induction l as [|[e m] l IH]; cbn [dadd_all]; intros d d' A B H; [congruence|].
  inversion B; subst. destruct (dadd d e (mmul_int m c)) as [d1| |] eqn:D; try discriminate. cbn [bindr] in H.
  eapply IH; [|eauto|exact H]. eapply dadd_le; [exact A| |exact D]. apply mmul_le. auto.
Qed.
Lemma all_le_mono : forall w w' d, w <= w' -> all_le w d -> all_le w' d.
Proof.
  intros w w' d L A. unfold all_le in *. rewrite Forall_forall in *. intros [e m] Hin. specialize (A _ Hin). cbn in *.
  destruct m; cbn in *; [auto|lia].
Qed.

Ltac wt H := cbn [wtv] in H; rewrite ?andb_true_iff, ?N.eqb_eq in H.

Lemma as_mult_add_le : forall e d, wtv e = true -> as_mult_add e = Ok d -> all_le (width e) d.
Proof.
  induction e; intros d T H; try (cbn in H; injection H as <-; constructor; [cbn; auto|constructor]; fail).
  - cbn [as_mult_add] in H. wt T. destruct T as [[T1 T2] W].
    destruct (as_mult_add e1) as [da| |]; try discriminate. destruct (as_mult_add e2) as [db| |]; try discriminate.
    cbn [bindr] in H. destruct (dadd_all [] 1 da) as [d1| |] eqn:D1; try discriminate. cbn [bindr] in H.
    cbn [width]. eapply dadd_all_le; [| |exact H].
    + eapply dadd_all_le; [constructor| |exact D1]. apply IHe1; auto.
    + rewrite W. apply IHe2; auto.
  - cbn [as_mult_add] in H. wt T. destruct T as [[T1 T2] W].
    destruct (as_mult_add e1) as [da| |]; try discriminate. destruct (as_mult_add e2) as [db| |]; try discriminate.
    cbn [bindr] in H. destruct (dadd_all [] 1 da) as [d1| |] eqn:D1; try discriminate. cbn [bindr] in H.
    cbn [width]. eapply dadd_all_le; [| |exact H].
    + eapply dadd_all_le; [constructor| |exact D1]. apply IHe1; auto.
    + rewrite W. apply IHe2; auto.
  - cbn [as_mult_add] in H. wt T. destruct T as [[T1 T2] W]. cbn [width].
    assert (LM : forall w z d0, all_le w d0 -> all_le w (map (fun em => (fst em, mmul_int (snd em) z)) d0)).
    { intros w z d0. induction 1; cbn; constructor; auto. cbn. apply mmul_le. auto. }
    destruct (symbolic e1), (symbolic e2); try discriminate.
    + injection H as <-. constructor; [cbn; auto|constructor].
    + destruct e2; try discriminate. destruct (as_mult_add e1) as [da| |]; try discriminate.
      cbn [bindr] in H. injection H as <-. apply LM. apply IHe1; auto.
    + destruct e1; try discriminate. destruct (as_mult_add e2) as [da| |]; try discriminate.
      cbn [bindr] in H. injection H as <-. rewrite W. apply LM. apply IHe2; auto.
  - cbn [as_mult_add] in H. wt T. destruct T as [[T1 T2] W]. cbn [width].
    destruct (as_mult_add e1) as [da| |]; try discriminate. cbn [bindr] in H.
    clear IHe1. revert d H. induction da as [|[x m] da IH]; cbn [mapm]; intros d H.
    + injection H as <-. constructor.
    + destruct (mshl_bv m e2) as [m'| |] eqn:M; try discriminate. cbn [bindr] in H.
      destruct (mapm _ da) as [d1| |]; try discriminate. cbn [bindr] in H. injection H as <-.
      constructor; [|apply IH; auto]. cbn. destruct m; cbn in M.
      * injection M as <-. cbn. lia.
      * destruct (N.eqb_spec (width b) (width e2)); [|discriminate]. injection M as <-. cbn. lia.
  - assert (LF : Ok [(BvConcat e1 e2, MI 1)] = Ok d -> all_le (width (BvConcat e1 e2)) d).
    { intros E. injection E as <-. constructor; [cbn; auto|constructor]. }
    cbn [as_mult_add] in H. destruct e2; try (apply LF; exact H). destruct v; [|apply LF; exact H].
    wt T. destruct T as [T1 T2]. destruct (as_mult_add e1) as [da| |]; try discriminate. cbn [bindr] in H.
    injection H as <-. cbn [width]. specialize (IHe1 da T1 eq_refl).
    apply all_le_mono with (w := width e1); [lia|].
    clear LF. unfold all_le in *. rewrite Forall_map. eapply Forall_impl; [|exact IHe1].
    intros [x m] Hm. cbn in *. destruct m; cbn in *; auto.
  - cbn [as_mult_add] in H. destruct (as_mult_add e1) as [da| |]; try discriminate.
    destruct (as_mult_add e2) as [db| |]; try discriminate. cbn [bindr] in H.
    assert (LF : Ok [(BvIte c e1 e2, MI 1)] = Ok d -> all_le (width (BvIte c e1 e2)) d).
    { intros E. injection E as <-. constructor; [cbn; auto|constructor]. }
    destruct da as [|[ka ma] [|? ?]]; try (apply LF; exact H).
    destruct db as [|[kb mb] [|? ?]]; try (apply LF; exact H).
    destruct ma, mb; try discriminate. destruct (Z.eqb _ _); [|apply LF; exact H].
    injection H as <-. constructor; [cbn; auto|constructor].
Qed.

Lemma wsum_single : forall r e, wsum r [(e, MI 1)] = zev r e.
Proof. intros. cbn. lia. Qed.

(** The keys of a decomposition are well-sized expressions. *)
Definition keys_wt (d : dec) : Prop := Forall (fun em => wtv (fst em) = true) d.
Lemma dadd_keys : forall d e m d', keys_wt d -> wtv e = true -> dadd d e m = Ok d' -> keys_wt d'.
Proof.
  induction d as [|[e0 m0] d IH]; cbn [dadd]; intros e m d' A B H.
  - destruct (madd (MI 0) m) as [m'| |]; try discriminate. injection H as <-. constructor; auto.
  - inversion A; subst. destruct (bv_eqb e0 e).
    + destruct (madd m0 m) as [m'| |]; try discriminate. injection H as <-. constructor; auto.
    + destruct (dadd d e m) as [d''| |] eqn:D; try discriminate. injection H as <-. constructor; [auto|]. eapply IH; [| |exact D]; auto.
Qed.
Lemma dadd_all_keys : forall c l d d', keys_wt d -> keys_wt l -> dadd_all d c l = Ok d' -> keys_wt d'.
Proof.
  induction l as [|[e m] l IH]; cbn [dadd_all]; intros d d' A B H; [congruence|].
  inversion B; subst. destruct (dadd d e (mmul_int m c)) as [d1| |] eqn:D; try discriminate. cbn [bindr] in H.
  eapply IH; [| |exact H]; [|assumption]. eapply dadd_keys; [| |exact D]; assumption.
Qed.

Lemma as_mult_add_keys : forall e d, wtv e = true -> as_mult_add e = Ok d -> keys_wt d /\ Forall (fun em => width (fst em) = width e) d.
Proof.
  assert (DA : forall w c l d d', Forall (fun em : bv * mult => width (fst em) = w) d ->
     Forall (fun em => width (fst em) = w) l -> dadd_all d c l = Ok d' -> Forall (fun em => width (fst em) = w) d').
  { intros w c. assert (D1 : forall d e m d', Forall (fun em : bv * mult => width (fst em) = w) d -> width e = w ->
       dadd d e m = Ok d' -> Forall (fun em => width (fst em) = w) d').
    { induction d as [|[e0 m0] d IH]; cbn [dadd]; intros e m d' A B H.
      - destruct (madd (MI 0) m) as [m'| |]; try discriminate. injection H as <-. constructor; auto.
      - inversion A; subst. destruct (bv_eqb e0 e).
        + destruct (madd m0 m) as [m'| |]; try discriminate. injection H as <-. constructor; auto.
        + destruct (dadd d e m) as [d''| |] eqn:D; try discriminate. injection H as <-. constructor; auto. eapply IH; [| |exact D]; auto. }
    induction l as [|[e m] l IH]; cbn [dadd_all]; intros d d' A B H; [congruence|].
    inversion B; subst. destruct (dadd d e (mmul_int m c)) as [d2| |] eqn:D; try discriminate. cbn [bindr] in H.
    eapply IH; [| |exact H]; [|assumption]. eapply D1; [| |exact D]; [assumption|reflexivity]. }
  induction e; intros d T H;
    try (cbn in H; injection H as <-; split; (constructor; [exact T || reflexivity|constructor]); fail).
  - cbn [as_mult_add] in H. wt T. destruct T as [[T1 T2] W].
    destruct (as_mult_add e1) as [da| |]; try discriminate. destruct (as_mult_add e2) as [db| |]; try discriminate.
    cbn [bindr] in H. destruct (dadd_all [] 1 da) as [d1| |] eqn:D1; try discriminate. cbn [bindr] in H.
    destruct (IHe1 da T1 eq_refl) as [A1 A2]. destruct (IHe2 db T2 eq_refl) as [B1 B2]. cbn [width]. rewrite <- W in B2. split.
    + eapply dadd_all_keys; [| |exact H]; auto. eapply dadd_all_keys; [| |exact D1]; auto. constructor.
    + eapply DA; [| |exact H]; auto. eapply DA; [| |exact D1]; auto.
  - cbn [as_mult_add] in H. wt T. destruct T as [[T1 T2] W].
    destruct (as_mult_add e1) as [da| |]; try discriminate. destruct (as_mult_add e2) as [db| |]; try discriminate.
    cbn [bindr] in H. destruct (dadd_all [] 1 da) as [d1| |] eqn:D1; try discriminate. cbn [bindr] in H.
    destruct (IHe1 da T1 eq_refl) as [A1 A2]. destruct (IHe2 db T2 eq_refl) as [B1 B2]. cbn [width]. rewrite <- W in B2. split.
    + eapply dadd_all_keys; [| |exact H]; auto. eapply dadd_all_keys; [| |exact D1]; auto. constructor.
    + eapply DA; [| |exact H]; auto. eapply DA; [| |exact D1]; auto.
  - cbn [as_mult_add] in H. pose proof T as T0. wt T. destruct T as [[T1 T2] W]. cbn [width].
    destruct (symbolic e1), (symbolic e2); try discriminate.
    + injection H as <-. split; constructor; auto; constructor.
    + destruct e2; try discriminate. destruct (as_mult_add e1) as [da| |]; try discriminate.
      cbn [bindr] in H. injection H as <-. destruct (IHe1 da T1 eq_refl) as [A1 A2].
      unfold keys_wt. rewrite !Forall_map. auto.
    + destruct e1; try discriminate. destruct (as_mult_add e2) as [da| |]; try discriminate.
      cbn [bindr] in H. injection H as <-. destruct (IHe2 da T2 eq_refl) as [A1 A2]. rewrite <- W in A2.
      unfold keys_wt. rewrite !Forall_map. auto.
  - cbn [as_mult_add] in H. wt T. destruct T as [[T1 T2] W]. cbn [width].
    destruct (as_mult_add e1) as [da| |]; try discriminate. cbn [bindr] in H.
    destruct (IHe1 da T1 eq_refl) as [A1 A2]. clear IHe1 IHe2. revert d H.
    induction da as [|[x m] da IH]; cbn [mapm]; intros d H.
    + injection H as <-. split; constructor.
    + destruct (mshl_bv m e2) as [m'| |] eqn:M; try discriminate. cbn [bindr] in H.
      destruct (mapm _ da) as [d1| |]; try discriminate. cbn [bindr] in H. injection H as <-.
      inversion A1; inversion A2; subst. destruct (IH ltac:(auto) ltac:(auto) d1 eq_refl). split; constructor; auto.
  - assert (LF : Ok [(BvConcat e1 e2, MI 1)] = Ok d -> keys_wt d /\ Forall (fun em => width (fst em) = width (BvConcat e1 e2)) d).
    { intros E. injection E as <-. split; constructor; auto; constructor. }
    cbn [as_mult_add] in H. destruct e2; try (apply LF; exact H). destruct v; [|apply LF; exact H].
    wt T. destruct T as [T1 T2]. destruct (as_mult_add e1) as [da| |]; try discriminate. cbn [bindr] in H.
    injection H as <-. destruct (IHe1 da T1 eq_refl) as [A1 A2]. unfold keys_wt. rewrite !Forall_map. cbn [fst wtv width].
    split; [exact A1|]. eapply Forall_impl; [|exact A2]. intros a Ha. cbn in Ha. rewrite Ha. lia.
  - pose proof T as T0. wt T. destruct T as [[T1 T2] W]. cbn [as_mult_add] in H.
    destruct (as_mult_add e1) as [da| |]; try discriminate.
    destruct (as_mult_add e2) as [db| |]; try discriminate. cbn [bindr] in H.
    destruct (IHe1 da T1 eq_refl) as [A1 A2]. destruct (IHe2 db T2 eq_refl) as [B1 B2].
    assert (LF : Ok [(BvIte c e1 e2, MI 1)] = Ok d -> keys_wt d /\ Forall (fun em => width (fst em) = width (BvIte c e1 e2)) d).
    { intros E. injection E as <-. split; constructor; auto; constructor. }
    destruct da as [|[ka ma] [|? ?]]; try (apply LF; exact H).
    destruct db as [|[kb mb] [|? ?]]; try (apply LF; exact H).
    destruct ma, mb; try discriminate. destruct (Z.eqb _ _); [|apply LF; exact H].
    injection H as <-. inversion A1; inversion A2; inversion B1; inversion B2; subst. cbn in *.
    split; constructor; try constructor; cbn; [|congruence].
    rewrite H1, H9. cbn. apply N.eqb_eq. congruence.
Qed.

Lemma as_mult_add_spec : forall e d r, wtv e = true -> as_mult_add e = Ok d -> sized (width e) d = true ->
  eqm (width e) (wsum r d) (zev r e).
Proof.
  induction e; intros d r T H S;
    try (cbn in H; injection H as <-; rewrite wsum_single; apply eqm_refl).
  - cbn [as_mult_add] in H. wt T. destruct T as [[T1 T2] W]. cbn [width] in *.
    destruct (as_mult_add e1) as [da| |]; try discriminate. destruct (as_mult_add e2) as [db| |]; try discriminate.
    cbn [bindr] in H. destruct (dadd_all [] 1 da) as [d1| |] eqn:D1; try discriminate. cbn [bindr] in H.
    destruct (dadd_all_spec _ r _ _ _ _ H S) as [S1 [S2 E]]. destruct (dadd_all_spec _ r _ _ _ _ D1 S1) as [_ [S3 E']].
    eapply eqm_trans; [exact E|]. rewrite zev_add. apply eqm_sym. eapply eqm_trans; [apply eqm_mod|]. apply eqm_sym.
    apply eqm_add.
    + eapply eqm_trans; [exact E'|]. cbn [wsum fold_right]. rewrite Z.add_0_l, Z.mul_1_l. apply (IHe1 da r); auto.
    + rewrite Z.mul_1_l. rewrite W in *. apply (IHe2 db r); auto.
  - cbn [as_mult_add] in H. wt T. destruct T as [[T1 T2] W]. cbn [width] in *.
    destruct (as_mult_add e1) as [da| |]; try discriminate. destruct (as_mult_add e2) as [db| |]; try discriminate.
    cbn [bindr] in H. destruct (dadd_all [] 1 da) as [d1| |] eqn:D1; try discriminate. cbn [bindr] in H.
    destruct (dadd_all_spec _ r _ _ _ _ H S) as [S1 [S2 E]]. destruct (dadd_all_spec _ r _ _ _ _ D1 S1) as [_ [S3 E']].
    eapply eqm_trans; [exact E|]. rewrite zev_sub by auto. apply eqm_sym. eapply eqm_trans; [apply eqm_mod|]. apply eqm_sym.
    replace (zev r e1 - zev r e2)%Z with (zev r e1 + -1 * zev r e2)%Z by ring.
    apply eqm_add.
    + eapply eqm_trans; [exact E'|]. cbn [wsum fold_right]. rewrite Z.add_0_l, Z.mul_1_l. apply (IHe1 da r); auto.
    + apply eqm_mul; [apply eqm_refl|]. rewrite W in *. apply (IHe2 db r); auto.
  - cbn [as_mult_add] in H. wt T. destruct T as [[T1 T2] W]. cbn [width] in *.
    destruct (symbolic e1), (symbolic e2); try discriminate.
    + injection H as <-. rewrite wsum_single. apply eqm_refl.
    + destruct e2; try discriminate. destruct (as_mult_add e1) as [da| |]; try discriminate.
      cbn [bindr] in H. injection H as <-. destruct (map_mul_spec _ r _ _ S) as [S1 E].
      eapply eqm_trans; [exact E|]. rewrite zev_mul, zev_bvv. apply eqm_sym. eapply eqm_trans; [apply eqm_mod|].
      apply eqm_mul; [apply eqm_sym; apply (IHe1 da r); auto|]. cbn [width] in W. rewrite W. apply eqm_mod.
    + destruct e1; try discriminate. destruct (as_mult_add e2) as [da| |]; try discriminate.
      cbn [bindr] in H. injection H as <-. destruct (map_mul_spec _ r _ _ S) as [S1 E].
      eapply eqm_trans; [exact E|]. rewrite zev_mul, zev_bvv. apply eqm_sym. eapply eqm_trans; [apply eqm_mod|].
      rewrite Z.mul_comm. apply eqm_mul; [apply eqm_sym; rewrite W in *; apply (IHe2 da r); auto|]. cbn [width]. apply eqm_mod.
  - cbn [as_mult_add] in H. wt T. destruct T as [[T1 T2] W]. cbn [width] in *.
    destruct (as_mult_add e1) as [da| |] eqn:A; try discriminate. cbn [bindr] in H.
    destruct (mapm_shl_spec (width e1) r e2 da d (eq_sym W) H S) as [S1 E].
    eapply eqm_trans; [exact E|]. apply eqm_sym. eapply eqm_trans; [apply zev_shl|].
    apply eqm_mul; [|apply eqm_refl]. apply eqm_sym. apply (IHe1 da r); auto.
  - assert (LF : Ok [(BvConcat e1 e2, MI 1)] = Ok d -> eqm (width (BvConcat e1 e2)) (wsum r d) (zev r (BvConcat e1 e2))).
    { intros E. injection E as <-. rewrite wsum_single. apply eqm_refl. }
    cbn [as_mult_add] in H. destruct e2; try (apply LF; exact H). destruct v; [|apply LF; exact H].
    wt T. destruct T as [T1 T2]. apply N.ltb_lt in T2. destruct (as_mult_add e1) as [da| |] eqn:A; try discriminate.
    cbn [bindr] in H. injection H as <-. cbn [width] in *.
    (* every multiplier is an integer *)
    pose proof (as_mult_add_le e1 da T1 A) as LE.
    pose proof (as_mult_add_keys e1 da T1 A) as [_ KW].
    assert (G : sized (width e1) da = true /\
      wsum r (map (fun em => (BvZext w (fst em), mshl_int (snd em) w)) da) = (wsum r da * p2 w)%Z).
    { clear A IHe1 LF. induction da as [|[x m] da IH]; [split; auto|].
      cbn [map fst snd] in *. apply sized_cons in S as [Wx [Wm S]].
      inversion LE as [|? ? L1 L2]; subst. inversion KW as [|? ? K1 K2]; subst. destruct (IH S L2 K2) as [I1 I2]. cbn in L1, K1.
      destruct m as [z|b]; [|cbn in Wm, L1; apply N.eqb_eq in Wm; lia].
      split; [apply sized_cons; auto|]. rewrite !wsum_cons, I2. cbn [mshl_int mval].
      replace (zev r (BvZext w x)) with (zev r x) by reflexivity. ring. }
    destruct G as [G1 G2]. rewrite G2.
    specialize (IHe1 da r T1 eq_refl G1).
    replace (zev r (BvConcat e1 (BVV w 0))) with (zev r e1 * p2 w)%Z.
    2:{ unfold zev. cbn [evalv width]. unfold wrap. rewrite N.mod_0_l by apply pow2_ne. rewrite N.add_0_r, N2Z.inj_mul. reflexivity. }
    unfold eqm in *. unfold p2 in *. rewrite N.pow_add_r, N2Z.inj_mul.
    rewrite !Z.mul_mod_distr_r by (pose proof (pow2_pos w); pose proof (pow2_pos (width e1)); lia).
    rewrite IHe1. reflexivity.
  - pose proof T as T0. wt T. destruct T as [[T1 T2] W]. cbn [as_mult_add] in H.
    destruct (as_mult_add e1) as [da| |] eqn:A; try discriminate.
    destruct (as_mult_add e2) as [db| |] eqn:B; try discriminate. cbn [bindr] in H.
    assert (LF : Ok [(BvIte c e1 e2, MI 1)] = Ok d -> eqm (width (BvIte c e1 e2)) (wsum r d) (zev r (BvIte c e1 e2))).
    { intros E. injection E as <-. rewrite wsum_single. apply eqm_refl. }
    destruct da as [|[ka ma] [|? ?]]; try (apply LF; exact H).
    destruct db as [|[kb mb] [|? ?]]; try (apply LF; exact H).
    destruct ma as [x|], mb as [y|]; try discriminate. destruct (Z.eqb_spec x y); [|apply LF; exact H].
    injection H as <-. subst y. apply sized_cons in S as [Wk _]. cbn [width] in *.
    destruct (as_mult_add_keys e1 _ T1 A) as [_ KA]. destruct (as_mult_add_keys e2 _ T2 B) as [_ KB].
    inversion KA; inversion KB; subst. cbn [fst] in *.
    specialize (IHe1 _ r T1 eq_refl). specialize (IHe2 _ r T2 eq_refl).
    rewrite zev_ite by auto. rewrite wsum_cons. cbn [wsum fold_right mval] in *. rewrite !Z.add_0_r in *.
    rewrite zev_ite by congruence. destruct (eb r c).
    + apply IHe1. apply sized_cons. auto.
    + rewrite W. apply IHe2. apply sized_cons. repeat split; auto.
Qed.

(** ** Grouping *)
Section OuterProofs.
Variable k : claripy.
Variable s : solver.
Hypothesis KOK : claripy_ok k.
Hypothesis SOK : solver_ok s.

Lemma group_key_spec : forall cs e e', wtv e = true -> group_key s cs e = Ok e' ->
  wtv e' = true /\ width e' = width e /\ forall r, holds r cs -> zev r e' = zev r e.
Proof.
  intros cs e e' T H.
  assert (LF : Ok e = Ok e' -> wtv e' = true /\ width e' = width e /\ forall r, holds r cs -> zev r e' = zev r e).
  { intros E. injection E as <-. auto. }
  unfold group_key in H. destruct e; try (apply LF; exact H).
  destruct e; try (apply LF; exact H). destruct lo; try (apply LF; exact H).
  destruct (N.eqb_spec (width e) (width (BvZext n (BvExtract hi 0 e)))) as [W|]; [|discriminate].
  destruct (definitely_true s cs _) eqn:D; [|apply LF; exact H]. injection H as <-.
  split; [|split; auto].
  - cbn [wtv] in T. rewrite !andb_true_iff in T. tauto.
  - intros r Hr. unfold zev. f_equal. apply N.eqb_eq.
    exact (proj1 (definitely_true_spec s SOK cs _) D r Hr).
Qed.

Lemma group_spec : forall w cs r l d d', holds r cs -> keys_wt l -> group s cs d l = Ok d' -> sized w d' = true ->
  sized w d = true /\ sized w l = true /\ eqm w (wsum r d') (wsum r d + wsum r l).
Proof.
  intros w cs r. induction l as [|[e m] l IH]; cbn [group]; intros d d' Hr KW H S.
  - injection H as <-. repeat split; auto. cbn. rewrite Z.add_0_r. apply eqm_refl.
  - destruct (group_key s cs e) as [e'| |] eqn:G; try discriminate. cbn [bindr] in H.
    destruct (dput d e' m) as [d1| |] eqn:D; try discriminate. cbn [bindr] in H.
    inversion KW as [|? ? K1 K2]; subst. cbn in K1.
    destruct (IH d1 d' Hr K2 H S) as [S1 [S2 E]]. destruct (dput_spec w r d e' m d1 D S1) as [S3 [W [Wm E']]].
    destruct (group_key_spec cs e e' K1 G) as [_ [W' V]].
    repeat split; auto; [apply sized_cons; repeat split; auto; congruence|].
    eapply eqm_trans; [exact E|]. rewrite wsum_cons, <- (V r Hr).
    replace (wsum r d + (zev r e' * mval r m + wsum r l))%Z with (wsum r d + zev r e' * mval r m + wsum r l)%Z by ring.
    apply eqm_add; [exact E'|apply eqm_refl].
Qed.

Lemma as_mult_add_outer_spec : forall cs e d r, wtv e = true -> as_mult_add_outer s cs e = Ok d ->
  sized (width e) d = true -> holds r cs -> eqm (width e) (wsum r d) (zev r e).
Proof.
  intros cs e d r T H S Hr. unfold as_mult_add_outer in H.
  destruct (as_mult_add e) as [d0| |] eqn:A; try discriminate. cbn [bindr] in H.
  destruct (group_spec (width e) cs r d0 [] d Hr (proj1 (as_mult_add_keys e d0 T A)) H S) as [_ [S2 E]].
  eapply eqm_trans; [exact E|]. cbn [wsum fold_right]. rewrite Z.add_0_l.
  apply (as_mult_add_spec e d0 r T A S2).
Qed.

(** Keys of the grouped decomposition: well-sized, as wide as the whole. *)
Lemma group_keys : forall w cs l d d', keys_wt d -> Forall (fun em : bv * mult => width (fst em) = w) d ->
  keys_wt l -> Forall (fun em : bv * mult => width (fst em) = w) l -> group s cs d l = Ok d' ->
  keys_wt d' /\ Forall (fun em : bv * mult => width (fst em) = w) d'.
Proof.
  intros w cs.
  assert (P : forall d e m d', keys_wt d -> Forall (fun em : bv * mult => width (fst em) = w) d ->
     wtv e = true -> width e = w -> dput d e m = Ok d' ->
     keys_wt d' /\ Forall (fun em : bv * mult => width (fst em) = w) d').
  { induction d as [|[e0 m0] d IH]; cbn [dput]; intros e m d' A A' B B' H.
    - injection H as <-. split; constructor; auto.
    - inversion A; inversion A'; subst. destruct (bv_eqb e0 e).
      + destruct (madd m0 m) as [m'| |]; try discriminate. injection H as <-. split; constructor; auto.
      + destruct (dput d e m) as [d''| |] eqn:D; try discriminate. injection H as <-.
        destruct (IH e m d'' ltac:(assumption) ltac:(assumption) B eq_refl D). split; constructor; auto. }
  induction l as [|[e m] l IH]; cbn [group]; intros d d' A A' B B' H.
  - injection H as <-. auto.
  - destruct (group_key s cs e) as [e'| |] eqn:G; try discriminate. cbn [bindr] in H.
    destruct (dput d e' m) as [d1| |] eqn:D; try discriminate. cbn [bindr] in H.
    inversion B as [|? ? B1 B2]; inversion B' as [|? ? B3 B4]; subst. cbn in *.
    destruct (group_key_spec cs e e' B1 G) as [T' [W' _]].
    destruct (P d e' m d1 A A' T' W' D). eapply IH; [| | | |exact H]; auto.
Qed.
Lemma outer_keys : forall cs e d, wtv e = true -> as_mult_add_outer s cs e = Ok d ->
  keys_wt d /\ Forall (fun em => width (fst em) = width e) d.
Proof.
  intros cs e d T H. unfold as_mult_add_outer in H.
  destruct (as_mult_add e) as [d0| |] eqn:A; try discriminate. cbn [bindr] in H.
  destruct (as_mult_add_keys e d0 T A). eapply group_keys; [| | | |exact H]; auto; constructor.
Qed.

(** ** Modulo *)
Lemma zev_urem : forall r a b, (0 < zev r b)%Z -> width a = width b -> zev r (BvUrem a b) = (zev r a mod zev r b)%Z.
Proof.
  intros r a b P W. unfold zev in *. cbn [evalv]. destruct (N.eqb_spec (ev r b) 0); [lia|].
  rewrite wrap_small; [apply N2Z.inj_mod|]. pose proof (evalv_lt lk0 r a). pose proof (N.mod_le (ev r a) (ev r b)). lia.
Qed.
Lemma zev_udiv : forall r a b, (0 < zev r b)%Z -> width a = width b -> zev r (BvUdiv a b) = (zev r a / zev r b)%Z.
Proof.
  intros r a b P W. unfold zev in *. cbn [evalv]. destruct (N.eqb_spec (ev r b) 0); [lia|].
  rewrite wrap_small; [apply N2Z.inj_div|]. pose proof (evalv_lt lk0 r a). pose proof (N.div_le_upper_bound (ev r a) (ev r b) (ev r a)). nia.
Qed.

Lemma mexp_zev : forall r w m, mw_ok w m = true -> zev r (mexp w m) = (mval r m mod p2 w)%Z /\ width (mexp w m) = w.
Proof.
  intros r w m W. destruct m as [z|b]; cbn [mexp mval mw_ok] in *.
  - split; [apply zev_bvz|reflexivity].
  - apply N.eqb_eq in W. subst w. rewrite zev_small. auto.
Qed.

Lemma istrue_rem0 : forall r a b w, istrue k (BEq (BvUrem a b) (BVV w 0)) = true -> (0 < zev r b)%Z -> width a = width b ->
  (zev r a mod zev r b = 0)%Z.
Proof.
  intros r a b w H P W. apply (ok_istrue k KOK) with (r := r) in H. cbn [evalb] in H. apply N.eqb_eq in H.
  rewrite <- zev_urem by auto. unfold zev. rewrite H. cbn [evalv]. unfold wrap. rewrite N.mod_0_l by apply pow2_ne. reflexivity.
Qed.

(** Terms whose dropping is harmless: either the divisor divides 2^width (a power of
    two), or no multiplier is negative or too large and the sum of the terms fits. *)
Definition mods_ok (r : env) (w : N) (b : Z) (d : dec) : Prop :=
  (p2 w mod b = 0)%Z \/
  (Forall (fun em => (0 <= mval r (snd em) < p2 w)%Z) d /\ (wsum r d < p2 w)%Z).

Lemma wsum_nonneg : forall r w d, Forall (fun em : bv * mult => (0 <= mval r (snd em) < p2 w)%Z) d -> (0 <= wsum r d)%Z.
Proof.
  induction 1 as [|[e m] d P F IH]; cbn [wsum fold_right]; [lia|]. fold (wsum r d). cbn [fst snd] in *.
  pose proof (zev_range r e). nia.
Qed.

(** What the loop computes, with the dropped terms made explicit. *)
Lemma modulo_terms_spec : forall r w b d acc v,
  keys_wt d -> Forall (fun em : bv * mult => width (fst em) = w) d -> wtv b = true -> width b = w -> width acc = w ->
  (0 < zev r b)%Z -> modulo_terms k w b d acc = Ok v -> sized w d = true ->
  width v = w /\ exists kept,
    (zev r v = (zev r acc + kept) mod p2 w)%Z /\
    ((p2 w mod zev r b = 0)%Z -> ((wsum r d - kept) mod zev r b = 0)%Z) /\
    (Forall (fun em => (0 <= mval r (snd em) < p2 w)%Z) d ->
       (0 <= kept <= wsum r d)%Z /\ ((wsum r d - kept) mod zev r b = 0)%Z).
Proof.
  intros r w b. induction d as [|[e m] d IH]; cbn [modulo_terms]; intros acc v KW WK Tb Wb Wa P H S.
  - injection H as <-. split; [auto|]. exists 0%Z. split; [|split].
    + rewrite Z.add_0_r, <- Wa. symmetry. apply zev_small.
    + intros. change (wsum r []) with 0%Z. rewrite Z.sub_0_r, Z.mod_0_l by lia. lia.
    + intros. change (wsum r []) with 0%Z. rewrite Z.sub_0_r, Z.mod_0_l by lia. lia.
  - inversion KW as [|? ? K1 K2]; inversion WK as [|? ? K3 K4]; subst. cbn [fst] in *.
    apply sized_cons in S as [We [Wm S]].
    destruct (N.eqb_spec (width e) (width b)) as [Web|]; [|discriminate]. cbn [negb] in H.
    destruct (mexp_zev r (width b) m ltac:(congruence)) as [MV MW].
    assert (DIV : istrue k (BEq (BvUrem e b) (BVV (width b) 0)) = true \/
                  istrue k (BEq (BvUrem (mexp (width b) m) b) (BVV (width b) 0)) = true ->
                  modulo_terms k (width b) b d acc = Ok v ->
      width v = width b /\ exists kept,
        (zev r v = (zev r acc + kept) mod p2 (width b))%Z /\
        ((p2 (width b) mod zev r b = 0)%Z -> ((wsum r ((e, m) :: d) - kept) mod zev r b = 0)%Z) /\
        (Forall (fun em => (0 <= mval r (snd em) < p2 (width b))%Z) ((e, m) :: d) ->
           (0 <= kept <= wsum r ((e, m) :: d))%Z /\ ((wsum r ((e, m) :: d) - kept) mod zev r b = 0)%Z)).
    { intros I H'. destruct (IH acc v K2 K4 Tb ltac:(congruence) Wa P H' S) as [Wv [kept [E1 [E2 E3]]]].
      split; [auto|]. exists kept. split; [auto|].
      assert (MODE : (p2 (width b) mod zev r b = 0)%Z \/ (0 <= mval r m < p2 (width b))%Z -> (zev r e * mval r m mod zev r b = 0)%Z).
      { intros C. destruct I as [I|I].
        - apply istrue_rem0 with (r := r) in I; auto. rewrite Zmult_mod, I. rewrite Z.mul_0_l. apply Z.mod_0_l; lia.
        - apply istrue_rem0 with (r := r) in I; [|auto|congruence]. rewrite MV in I.
          assert (M0 : (mval r m mod zev r b = 0)%Z).
          { destruct C as [C|C].
            - rewrite (Z.div_mod (mval r m) (p2 (width b))) by (pose proof (p2_pos (width b)); lia).
              rewrite Zplus_mod, I, Z.add_0_r, Zmult_mod, C. rewrite Z.mul_0_l, Z.mod_0_l by lia. reflexivity.
            - rewrite (Z.mod_small (mval r m)) in I by lia. exact I. }
          rewrite Zmult_mod, M0, Z.mul_0_r. apply Z.mod_0_l. lia. }
      split.
      - intros C. rewrite wsum_cons. replace (zev r e * mval r m + wsum r d - kept)%Z with (zev r e * mval r m + (wsum r d - kept))%Z by ring.
        rewrite Zplus_mod, (MODE (or_introl C)), (E2 C). apply Z.mod_0_l. lia.
      - intros F. inversion F as [|? ? F1 F2]; subst. cbn [snd] in F1. destruct (E3 F2) as [E4 E5].
        rewrite wsum_cons. pose proof (zev_range r e). split; [nia|].
        replace (zev r e * mval r m + wsum r d - kept)%Z with (zev r e * mval r m + (wsum r d - kept))%Z by ring.
        rewrite Zplus_mod, (MODE (or_intror F1)), E5. apply Z.mod_0_l. lia. }
    destruct (istrue k (BEq (BvUrem e b) (BVV (width b) 0))) eqn:I1; [apply DIV; auto|].
    destruct (mw_ok (width b) m) eqn:MO; cbn [negb] in H; [|discriminate].
    destruct (istrue k (BEq (BvUrem (mexp (width b) m) b) (BVV (width b) 0))) eqn:I2; [apply DIV; auto|].
    clear DIV. rewrite Web in H. set (t := BvMul e (mexp (width b) m)) in *.
    pose proof (ok_add k KOK acc t) as EQ.
    assert (Wacc : width (mkadd k acc t) = width b) by (rewrite (bveq_w _ _ EQ); cbn; exact Wa).
    destruct (IH (mkadd k acc t) v K2 K4 Tb ltac:(congruence) Wacc P H S) as [Wv [kept [E1 [E2 E3]]]].
    split; [auto|]. exists (zev r e * mval r m + kept)%Z. rewrite wsum_cons. split; [|split].
    + rewrite E1, <- (bveq_zev _ _ r EQ). unfold t. rewrite zev_add, zev_mul, Wa, Web.
      destruct (mexp_zev r (width b) m MO) as [MV' _]. rewrite MV'.
      rewrite Zplus_mod_idemp_l, <- Z.add_assoc. apply eqm_add; [apply eqm_refl|]. apply eqm_add; [|apply eqm_refl].
      eapply eqm_trans; [apply eqm_mod|]. apply eqm_mul; [apply eqm_refl|apply eqm_mod].
    + intros C. specialize (E2 C).
      replace (zev r e * mval r m + wsum r d - (zev r e * mval r m + kept))%Z with (wsum r d - kept)%Z by ring. exact E2.
    + intros F. inversion F as [|? ? F1 F2]; subst. cbn [snd] in F1. destruct (E3 F2) as [E4 E5].
      replace (zev r e * mval r m + wsum r d - (zev r e * mval r m + kept))%Z with (wsum r d - kept)%Z by ring.
      pose proof (zev_range r e). split; [nia|exact E5].
Qed.

Lemma modulo_simplify_spec : forall cs a b v d r, wtv a = true -> wtv b = true -> width b = width a ->
  as_mult_add_outer s cs a = Ok d -> sized (width a) d = true ->
  modulo_simplify k s cs a b = Ok v -> holds r cs -> (0 < zev r b)%Z -> mods_ok r (width a) (zev r b) d ->
  zev r v = (zev r a mod zev r b)%Z.
Proof.
  intros cs a b v d r Ta Tb W A S H Hr P M. unfold modulo_simplify in H. rewrite A in H. cbn [bindr] in H.
  destruct (modulo_terms k (width a) b d (zero (width a))) as [sum| |] eqn:MT; try discriminate. injection H as <-.
  destruct (outer_keys cs a d Ta A) as [K1 K2].
  destruct (modulo_terms_spec r (width a) b d (zero (width a)) sum K1 K2 Tb W eq_refl P MT S)
    as [Wv [kept [E1 [E2 E3]]]].
  pose proof (as_mult_add_outer_spec cs a d r Ta A S Hr) as E. unfold eqm in E. rewrite zev_small in E.
  rewrite zev_urem by (auto; congruence). rewrite E1, zero_ev, Z.add_0_l, <- E.
  assert (B : zev r b <> 0%Z) by lia.
  destruct M as [M|[M1 M2]].
  - specialize (E2 M).
    assert (G : forall x, (x mod p2 (width a) mod zev r b = x mod zev r b)%Z).
    { intros x. rewrite (Z.div_mod x (p2 (width a))) at 2 by (pose proof (p2_pos (width a)); lia).
      rewrite Zplus_mod, Zmult_mod, M. rewrite Z.mul_0_l, Z.mod_0_l, Z.add_0_l, Zmod_mod by auto. reflexivity. }
    rewrite !G. replace (wsum r d) with (kept + (wsum r d - kept))%Z by ring.
    rewrite Zplus_mod, E2, Z.add_0_r, Zmod_mod. reflexivity.
  - destruct (E3 M1) as [E4 E5]. rewrite !Z.mod_small with (b := p2 (width a)) by lia.
    replace (wsum r d) with (kept + (wsum r d - kept))%Z by ring.
    rewrite Zplus_mod with (b := (wsum r d - kept)%Z), E5, Z.add_0_r, Zmod_mod. reflexivity.
Qed.

(** ** Division *)
(** All the terms carry the divisor as multiplier. *)
Definition all_mults (r : env) (w : N) (b : Z) (d : dec) : Prop :=
  Forall (fun em => mval r (snd em) mod p2 w = b /\ exists z, snd em = MI z)%Z d.

Definition ksum (r : env) (d : dec) : Z := fold_right (fun em acc => (zev r (fst em) + acc)%Z) 0%Z d.

Lemma div_terms_spec : forall r w b d acc v, symbolic b = false ->
  (forall x y, symbolic x = false -> symbolic y = false -> ev r x = ev r y -> istrue k (BEq x y) = true) ->
  keys_wt d -> Forall (fun em : bv * mult => width (fst em) = w) d -> width b = w -> width acc = w ->
  (0 < zev r b)%Z -> all_mults r w (zev r b) d -> div_terms k b d acc = Ok v ->
  width v = w /\ eqm w (zev r v * zev r b) (zev r acc * zev r b + wsum r d) /\
  eqm w (zev r v) (zev r acc + ksum r d).
Proof.
  intros r w b. induction d as [|[e m] d IH]; cbn [div_terms]; intros acc v Sb IT KW WK Wb Wa P AM H.
  - injection H as <-. split; [auto|]. cbn [wsum ksum fold_right]. rewrite !Z.add_0_r. split; apply eqm_refl.
  - inversion KW as [|? ? K1 K2]; inversion WK as [|? ? K3 K4]; inversion AM as [|? ? A1 A2]; subst. cbn [fst snd] in *.
    destruct A1 as [A1 [z ->]]. cbn [mval] in A1.
    unfold make_term in H. cbn [mw_ok negb] in H.
    assert (I : istrue k (BEq (BvUrem (mexp (width b) (MI z)) b) (zero (width b))) = true).
    { apply IT.
      - cbn [mexp]. unfold bvz, symbolic. cbn [vvars vbools app]. unfold symbolic in Sb. exact Sb.
      - reflexivity.
      - apply N2Z.inj. fold (zev r (BvUrem (mexp (width b) (MI z)) b)). fold (zev r (zero (width b))).
        rewrite zero_ev, zev_urem by auto. cbn [mexp]. rewrite zev_bvz, A1. apply Z_mod_same_full. }
    rewrite I in H. cbn [bindr] in H.
    pose proof (ok_add k KOK acc e) as EQ.
    destruct (IH (mkadd k acc e) v Sb IT K2 K4 eq_refl) as [Wv [E E']]; auto.
    { rewrite (bveq_w _ _ EQ). cbn. auto. }
    split; [auto|]. split.
    2:{ eapply eqm_trans; [exact E'|]. rewrite <- (bveq_zev _ _ r EQ), zev_add, Wa. cbn [ksum fold_right fst].
        fold (ksum r d). rewrite Z.add_assoc. apply eqm_add; [apply eqm_mod|apply eqm_refl]. }
    eapply eqm_trans; [exact E|]. rewrite wsum_cons, <- (bveq_zev _ _ r EQ), zev_add, Wa.
    cbn [mval]. replace (zev r acc * zev r b + (zev r e * z + wsum r d))%Z
      with (zev r acc * zev r b + zev r e * z + wsum r d)%Z by ring.
    apply eqm_add; [|apply eqm_refl].
    eapply eqm_trans; [apply eqm_mul; [apply eqm_mod|apply eqm_refl]|].
    rewrite Z.mul_add_distr_r. apply eqm_add; [apply eqm_refl|]. apply eqm_mul; [apply eqm_refl|].
    rewrite <- A1. apply eqm_mod.
Qed.

(** [is_true] decides equalities between constants (all that klint relies on). *)
Definition istrue_consts : Prop :=
  forall x y, symbolic x = false -> symbolic y = false -> (forall r, ev r x = ev r y) -> istrue k (BEq x y) = true.

Lemma div_simplify_spec : forall cs a b v d r, istrue_consts -> wtv a = true -> wtv b = true -> width b = width a ->
  symbolic b = false -> as_mult_add_outer s cs a = Ok d -> holds r cs -> (0 < zev r b)%Z ->
  all_mults r (width a) (zev r b) d -> div_simplify k s cs a b = Ok v ->
  width v = width a /\ eqm (width a) (zev r v * zev r b) (zev r a) /\
  ((ksum r d * zev r b < p2 (width a))%Z -> zev r v = (zev r a / zev r b)%Z).
Proof.
  intros cs a b v d r IC Ta Tb W Sb A Hr P AM H. unfold div_simplify in H.
  destruct (istrue k (BEq a (zero (width a)))) eqn:I0.
  { injection H as <-. split; [auto|]. apply (ok_istrue k KOK) with (r := r) in I0. cbn [evalb] in I0. apply N.eqb_eq in I0.
    assert (Z0 : zev r a = 0%Z) by (rewrite <- (zero_ev (width a) r); unfold zev; f_equal; exact I0).
    rewrite Z0. split; [apply eqm_refl|]. intros _. rewrite Z.div_0_l; lia. }
  destruct (istrue k (BEq b (bvz (width b) 1))) eqn:I1.
  { injection H as <-. split; [auto|]. apply (ok_istrue k KOK) with (r := r) in I1. cbn [evalb] in I1. apply N.eqb_eq in I1.
    assert (Z1 : zev r b = 1%Z).
    { assert (E : zev r b = zev r (bvz (width b) 1)) by (unfold zev; f_equal; exact I1).
      rewrite E, zev_bvz in P. rewrite E, zev_bvz. pose proof (wtv_pos b Tb) as WP.
      apply Z.mod_small. unfold p2. assert (2 ^ 1 <= 2 ^ width b) by (apply N.pow_le_mono_r; lia). change (2 ^ 1) with 2 in *. lia. }
    rewrite Z1, Z.mul_1_r. split; [apply eqm_refl|]. intros _. rewrite Z.div_1_r. reflexivity. }
  rewrite A in H. cbn [bindr] in H. destruct (outer_keys cs a d Ta A) as [K1 K2].
  destruct (div_terms_spec r (width a) b d (zero (width a)) v Sb) as [Wv [E E']]; auto.
  { intros x y Sx Sy E. apply IC; auto. intros r'. rewrite (nonsym_const x r' r), (nonsym_const y r' r) by auto. exact E. }
  rewrite zero_ev, Z.mul_0_l, Z.add_0_l in E. rewrite zero_ev, Z.add_0_l in E'.
  assert (EA : eqm (width a) (wsum r d) (zev r a)).
  { apply (as_mult_add_outer_spec cs a d r); auto.
    unfold sized. apply forallb_forall. intros [e m] Hin.
    unfold all_mults in AM. rewrite Forall_forall in AM, K2. destruct (AM _ Hin) as [_ [z ->]]. specialize (K2 _ Hin).
    cbn in *. rewrite K2, N.eqb_refl. reflexivity. }
  split; [auto|]. split; [eapply eqm_trans; [exact E|exact EA]|].
  intros NW. assert (KN : (0 <= ksum r d)%Z).
  { clear. induction d as [|[e m] d IH]; cbn [ksum fold_right]; [lia|]. fold (ksum r d). pose proof (zev_range r e). cbn. lia. }
  assert (VK : zev r v = ksum r d).
  { unfold eqm in E'. rewrite <- Wv, zev_small, Wv in E'. rewrite E'. apply Z.mod_small. nia. }
  assert (AK : zev r a = (ksum r d * zev r b)%Z).
  { assert (eqm (width a) (zev r a) (ksum r d * zev r b)).
    { rewrite <- VK. apply eqm_sym. eapply eqm_trans; [exact E|exact EA]. }
    unfold eqm in H0. rewrite zev_small in H0. rewrite H0. apply Z.mod_small. nia. }
  rewrite AK, VK. symmetry. apply Z.div_mul. lia.
Qed.

End OuterProofs.
