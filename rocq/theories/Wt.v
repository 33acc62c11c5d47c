(** * Well-sized expressions and claripy's own rewriting

    claripy refuses to build a binary node whose operands differ in size. *)

From Coq Require Import NArith ZArith List Bool Lia.
From Verif Require Import Expr Solver.
Import ListNotations.
Open Scope N_scope.

Fixpoint wtv (e : bv) : bool :=
  match e with
  | BVV w _ | BVS w _ => 0 <? w
  | BvAdd a b | BvSub a b | BvMul a b | BvUdiv a b | BvUrem a b
  | BvAnd a b | BvOr a b | BvXor a b | BvShl a b | BvLshr a b
  | BvIte _ a b => wtv a && wtv b && (width a =? width b)
  | BvConcat a b => wtv a && wtv b
  | BvExtract hi lo a => wtv a && (lo <=? hi) && (hi <? width a)
  | BvZext n a => wtv a
  | MapGet _ _ vs _ => 0 <? vs
  end.

Lemma wtv_pos : forall e, wtv e = true -> 0 < width e.
Proof.
  induction e; cbn [wtv width]; intros H;
    rewrite ?andb_true_iff, ?N.ltb_lt, ?N.leb_le, ?N.eqb_eq in H; try tauto.
  - destruct H as [H1 H2]. specialize (IHe1 H1). lia.
  - lia.
  - specialize (IHe H). lia.
Qed.

(** Same size, same value under every assignment, still well-sized. *)
Definition bveq (a b : bv) : Prop :=
  width a = width b /\ (wtv a = true -> wtv b = true) /\ forall r, ev r a = ev r b.
Lemma bveq_refl : forall a, bveq a a.
Proof. repeat split; auto. Qed.
Lemma bveq_trans : forall a b c, bveq a b -> bveq b c -> bveq a c.
Proof. intros a b c [A1 [A2 A3]] [B1 [B2 B3]]. repeat split; [congruence|auto|intros; congruence]. Qed.

(** What klint calls in claripy to rewrite or build expressions, as parameters:
    [.ite_excavated], [.ite_burrowed], [solver.simplify], claripy.If, [+], [-] and
    [.is_true()]. claripy simplifies while it builds nodes, so the constructors are
    parameters too. *)
Record claripy := mkClaripy {
  excavate : bv -> bv;
  burrow : bv -> bv;
  simp : list bexp -> bv -> bv;
  mkif : bexp -> bv -> bv -> bv;
  mkadd : bv -> bv -> bv;
  mksub : bv -> bv -> bv;
  istrue : bexp -> bool }.

(** All of them preserve meaning; [is_true] never claims too much. *)
Record claripy_ok (k : claripy) : Prop := {
  ok_excavate : forall e, bveq e (excavate k e);
  ok_burrow : forall e, bveq e (burrow k e);
  ok_simp : forall cs e, bveq e (simp k cs e);
  ok_if : forall c a b, bveq (BvIte c a b) (mkif k c a b);
  ok_add : forall a b, bveq (BvAdd a b) (mkadd k a b);
  ok_sub : forall a b, bveq (BvSub a b) (mksub k a b);
  ok_istrue : forall c, istrue k c = true -> forall r, eb r c = true }.

(** A claripy that never rewrites, and whose [is_true] compares constants. *)
Definition cl_id : claripy :=
  mkClaripy (fun e => e) (fun e => e) (fun _ e => e) BvIte BvAdd BvSub
    (fun c => match c with
              | BEq a b => negb (symbolic a) && negb (symbolic b) && (ev env0 a =? ev env0 b)
              | _ => false end).

Lemma nonsym_const : forall e r1 r2, symbolic e = false -> ev r1 e = ev r2 e.
Proof.
  intros e r1 r2 H. apply evalv_agree. unfold symbolic in H. unfold agree_on.
  destruct (vvars e); [|discriminate]. destruct (vbools e); [|discriminate].
  split; intros ? ?; contradiction.
Qed.

Lemma cl_id_ok : claripy_ok cl_id.
Proof.
  constructor; intros; try apply bveq_refl.
  cbn in H. destruct c; try discriminate.
  apply andb_true_iff in H as [H E]. apply andb_true_iff in H as [H1 H2].
  apply negb_true_iff in H1, H2. cbn [evalb].
  rewrite (nonsym_const a r env0), (nonsym_const b r env0) by auto. auto.
Qed.

(** ** n-ary sums *)
(** [.args] of an [__add__] node: claripy keeps sums flat. *)
Fixpoint add_args (e : bv) : list bv :=
  match e with
  | BvAdd a b => add_args a ++ [b]
  | _ => [e]
  end.
(** Python's sum over a list with a start value. *)
Definition sum_from (k : claripy) (start : bv) (l : list bv) : bv := fold_left (mkadd k) l start.

Definition zev (r : env) (e : bv) : Z := Z.of_N (ev r e).
Definition zsum (r : env) (l : list bv) : Z := fold_right (fun e s => (zev r e + s)%Z) 0%Z l.
Definition p2 (w : N) : Z := Z.of_N (2 ^ w).
Lemma p2_pos : forall w, (0 < p2 w)%Z.
Proof. intros. unfold p2. pose proof (pow2_pos w). lia. Qed.
Lemma zev_range : forall r e, (0 <= zev r e < p2 (width e))%Z.
Proof. intros. unfold zev, p2. pose proof (evalv_lt lk0 r e). lia. Qed.
Lemma zwrap : forall w n, Z.of_N (wrap w n) = (Z.of_N n mod p2 w)%Z.
Proof. intros. unfold wrap, p2. apply N2Z.inj_mod. Qed.
Lemma zev_small : forall r e, (zev r e mod p2 (width e) = zev r e)%Z.
Proof. intros. apply Z.mod_small. apply zev_range. Qed.

Lemma zev_add : forall r a b, zev r (BvAdd a b) = ((zev r a + zev r b) mod p2 (width a))%Z.
Proof. intros. unfold zev. cbn [evalv]. rewrite zwrap, N2Z.inj_add. reflexivity. Qed.
Lemma zev_mul : forall r a b, zev r (BvMul a b) = ((zev r a * zev r b) mod p2 (width a))%Z.
Proof. intros. unfold zev. cbn [evalv]. rewrite zwrap, N2Z.inj_mul. reflexivity. Qed.
Lemma zev_sub : forall r a b, width a = width b -> zev r (BvSub a b) = ((zev r a - zev r b) mod p2 (width a))%Z.
Proof.
  intros r a b W. unfold zev. cbn [evalv].
  rewrite (wrap_small (width a) (ev r b)) by (rewrite W; apply evalv_lt).
  rewrite zwrap. assert (ev r b < 2 ^ width a) by (rewrite W; apply evalv_lt).
  rewrite N2Z.inj_add, N2Z.inj_sub by lia.
  replace (Z.of_N (ev r a) + (Z.of_N (2 ^ width a) - Z.of_N (ev r b)))%Z
    with (Z.of_N (ev r a) - Z.of_N (ev r b) + 1 * p2 (width a))%Z by (unfold p2; lia).
  apply Z.mod_add. pose proof (p2_pos (width a)). lia.
Qed.
Lemma zev_bvv : forall r w v, zev r (BVV w v) = (Z.of_N v mod p2 w)%Z.
Proof. intros. unfold zev. cbn [evalv]. apply zwrap. Qed.
Lemma zev_ite : forall r c a b, width a = width b ->
  zev r (BvIte c a b) = if eb r c then zev r a else zev r b.
Proof.
  intros r c a b W. unfold zev. cbn [evalv]. destruct (eb r c).
  - rewrite wrap_small by apply evalv_lt. reflexivity.
  - rewrite W, wrap_small by apply evalv_lt. reflexivity.
Qed.
Lemma bveq_zev : forall a b r, bveq a b -> zev r a = zev r b.
Proof. intros a b r [_ [_ H]]. unfold zev. rewrite H. reflexivity. Qed.
Lemma bveq_w : forall a b, bveq a b -> width b = width a.
Proof. intros a b [H _]. auto. Qed.
Lemma bveq_wt : forall a b, bveq a b -> wtv a = true -> wtv b = true.
Proof. intros a b [_ [H _]]. auto. Qed.

Definition allw (w : N) (l : list bv) : Prop := Forall (fun e => wtv e = true /\ width e = w) l.

Lemma zsum_app : forall r a b, zsum r (a ++ b) = (zsum r a + zsum r b)%Z.
Proof. induction a as [|x a IH]; cbn [app zsum fold_right]; intros; [auto|]. fold (zsum r (a ++ b)) (zsum r a). rewrite IH. lia. Qed.

Lemma add_args_spec : forall e, wtv e = true ->
  allw (width e) (add_args e) /\ forall r, zev r e = (zsum r (add_args e) mod p2 (width e))%Z.
Proof.
  assert (L : forall e, wtv e = true -> allw (width e) [e] /\ forall r, zev r e = (zsum r [e] mod p2 (width e))%Z).
  { intros e H. split; [constructor; auto; constructor|]. intros r. cbn. rewrite Z.add_0_r, zev_small. auto. }
  induction e; intros H; try (apply L; exact H).
  cbn [add_args width]. cbn [wtv] in H. rewrite !andb_true_iff, N.eqb_eq in H. destruct H as [[H1 H2] W].
  destruct (IHe1 H1) as [A B]. split.
  - apply Forall_app. split; [auto|]. constructor; auto.
  - intros r. rewrite zev_add, B, zsum_app. cbn. rewrite Z.add_0_r.
    rewrite Zplus_mod_idemp_l. reflexivity.
Qed.

Lemma sum_from_spec : forall k, claripy_ok k -> forall l start w,
  wtv start = true -> width start = w -> allw w l ->
  wtv (sum_from k start l) = true /\ width (sum_from k start l) = w /\
  forall r, zev r (sum_from k start l) = ((zev r start + zsum r l) mod p2 w)%Z.
Proof.
  intros k K. induction l as [|x l IH]; intros start w WS Ws WL.
  - cbn. repeat split; auto. intros r. rewrite Z.add_0_r, <- Ws, zev_small. auto.
  - inversion WL as [|? ? [Wx Wx'] WL']; subst. unfold sum_from. cbn [fold_left].
    fold (sum_from k (mkadd k start x) l).
    pose proof (ok_add k K start x) as E.
    assert (T : wtv (BvAdd start x) = true).
    { cbn [wtv]. rewrite WS, Wx, Wx', N.eqb_refl. auto. }
    destruct (IH (mkadd k start x) (width start)) as [A [B C]]; auto.
    + eapply bveq_wt; eauto.
    + rewrite (bveq_w _ _ E). reflexivity.
    + repeat split; auto. intros r. rewrite C, <- (bveq_zev _ _ r E), zev_add.
      rewrite Zplus_mod_idemp_l. cbn [zsum fold_right]. fold (zsum r l). f_equal. lia.
Qed.
