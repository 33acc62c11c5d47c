(** * Path constraints and the solver

    Models tool/kalm/utils.py 35-53 (definite answers), 72-100 (exact match and
    guarded forks). The SMT solver is a parameter: any pair of functions that is
    right about satisfiability and returns feasible values ([solver_ok]). A
    brute-force solver at the end of the file meets that premise. *)

From Coq Require Import NArith List Bool Lia Arith.
From Verif Require Import Expr.
Import ListNotations.
Open Scope N_scope.

(** Errors: Python exceptions, failed asserts, and running out of the model's fuel. *)
Inductive res (A : Type) : Type :=
| Ok (a : A)
| Err                 (* the Python code raises *)
| NoFuel.             (* bound of the model, not a behaviour of the code *)
Arguments Ok {A} a.
Arguments Err {A}.
Arguments NoFuel {A}.

Definition bindr {A B} (m : res A) (f : A -> res B) : res B :=
  match m with Ok a => f a | Err => Err | NoFuel => NoFuel end.
Notation "'do' x <- m ; f" := (bindr m (fun x => f))
  (at level 200, x pattern, m at level 100, f at level 200).
Lemma bindr_ok : forall {A B} (m : res A) (f : A -> res B) y, bindr m f = Ok y -> exists a, m = Ok a /\ f a = Ok y.
Proof. intros A B [a| |] f y H; try discriminate. eauto. Qed.

(** An assignment satisfies a list of path constraints. *)
Definition holds (r : env) (cs : list bexp) : Prop := forall c, In c cs -> eb r c = true.

(** [sat] is [solver.satisfiable()]; [pick] is one element of [solver.eval_upto]. *)
Record solver := mkSolver { sat : list bexp -> bool; pick : list bexp -> bv -> N }.

Definition solver_ok (s : solver) : Prop :=
  (forall cs, sat s cs = true <-> exists r, holds r cs) /\
  (forall cs e, (exists r, holds r cs) -> exists r, holds r cs /\ ev r e = pick s cs e).

Section Utils.
Variable s : solver.

(** tool/kalm/utils.py 35-45. [extra_constraints] are conjoined to the path constraints. *)
Definition can_be_true (cs : list bexp) (c : bexp) : bool := sat s (c :: cs).
Definition can_be_false (cs : list bexp) (c : bexp) : bool := sat s (BNot c :: cs).
Definition definitely_true (cs : list bexp) (c : bexp) : bool := negb (can_be_false cs c).
Definition definitely_false (cs : list bexp) (c : bexp) : bool := negb (can_be_true cs c).

(** tool/kalm/utils.py 47-53 on bit-vectors: [eval_upto(expr, 2)] yields no value
    (raise), one value, or two different ones. *)
Definition get_if_constant (cs : list bexp) (e : bv) : res (option N) :=
  if negb (sat s cs) then Err
  else let v := pick s cs e in
       if sat s (BNe e (BVV (width e) v) :: cs) then Ok None else Ok (Some v).

(** Same function on boolean expressions (the values are True/False). *)
Definition get_if_constant_b (cs : list bexp) (c : bexp) : res (option bool) :=
  match sat s (c :: cs), sat s (BNot c :: cs) with
  | true, true => Ok None
  | true, false => Ok (Some true)
  | false, true => Ok (Some false)
  | false, false => Err
  end.

(** tool/kalm/utils.py 72-85. *)
Definition get_exact_match {T : Type} (cs : list bexp) (item : bv) (cands : list T)
    (assumption : bexp) (sel : T -> bv) : option T :=
  match find (fun c => bv_eqb item (sel c)) cands with
  | Some c => Some c
  | None =>
      if negb (symbolic item) then None
      else find (fun c => definitely_true cs (BOr (BNot assumption) (BEq item (sel c)))) cands
  end.

(** tool/kalm/utils.py 87-100. A state is its path constraints plus everything
    else ([X]); the callbacks take a state and give the state after the call and a
    return value. The result lists, per successor: the guard value it stands for,
    the state its callback ran in, and what the callback produced. The false
    successor is registered first, as in the code. Path recording and the calling
    convention teardown are left out. *)
Definition fstate (X : Type) : Type := (list bexp * X)%type.
Definition fork_guarded {X R : Type} (st : fstate X) (guard : bexp)
    (case_true case_false : fstate X -> fstate X * R)
    : res (list (bool * fstate X * (fstate X * R))) :=
  do gv <- get_if_constant_b (fst st) guard;
  match gv with
  | Some true => Ok [(true, st, case_true st)]
  | Some false => Ok [(false, st, case_false st)]
  | None =>
      let st_f := (fst st ++ [BNot guard], snd st) in
      let st_t := (fst st ++ [guard], snd st) in
      Ok [(false, st_f, case_false st_f); (true, st_t, case_true st_t)]
  end.

End Utils.

(** ** Facts about any right solver *)

Lemma holds_nil : forall r, holds r [].
Proof. intros r c []. Qed.
Lemma holds_cons : forall r c cs, holds r (c :: cs) <-> eb r c = true /\ holds r cs.
Proof.
  intros. unfold holds. split.
  - intros H. split; [apply H; left; reflexivity|intros; apply H; right; assumption].
  - intros [H1 H2] c' [<-|?]; auto.
Qed.
Lemma holds_app : forall r a b, holds r (a ++ b) <-> holds r a /\ holds r b.
Proof.
  intros. unfold holds. split.
  - intros H. split; intros; apply H; apply in_or_app; auto.
  - intros [H1 H2] c Hc. apply in_app_or in Hc as [?|?]; auto.
Qed.

Section UtilsFacts.
Variable s : solver.
Hypothesis SOK : solver_ok s.

Lemma sat_iff : forall cs, sat s cs = true <-> exists r, holds r cs.
Proof. apply SOK. Qed.
Lemma sat_false_iff : forall cs, sat s cs = false <-> forall r, ~ holds r cs.
Proof.
  intros. split.
  - intros H r Hr. assert (sat s cs = true) by (apply sat_iff; eauto). congruence.
  - intros H. destruct (sat s cs) eqn:E; [|reflexivity].
    apply sat_iff in E as [r Hr]. destruct (H r Hr).
Qed.

Lemma can_be_true_spec : forall cs c,
  can_be_true s cs c = true <-> exists r, holds r cs /\ eb r c = true.
Proof.
  intros. unfold can_be_true. rewrite sat_iff. split; intros [r H]; exists r;
  rewrite holds_cons in *; tauto.
Qed.
Lemma can_be_false_spec : forall cs c,
  can_be_false s cs c = true <-> exists r, holds r cs /\ eb r c = false.
Proof.
  intros. unfold can_be_false. rewrite sat_iff. split; intros [r H]; exists r;
  rewrite holds_cons in *; cbn [evalb] in *; rewrite negb_true_iff in *; tauto.
Qed.
Lemma definitely_true_spec : forall cs c,
  definitely_true s cs c = true <-> forall r, holds r cs -> eb r c = true.
Proof.
  intros. unfold definitely_true. rewrite negb_true_iff. split.
  - intros H r Hr. destruct (eb r c) eqn:E; [reflexivity|].
    assert (can_be_false s cs c = true) by (apply can_be_false_spec; eauto). congruence.
  - intros H. destruct (can_be_false s cs c) eqn:E; [|reflexivity].
    apply can_be_false_spec in E as [r [Hr E]]. specialize (H r Hr). congruence.
Qed.
Lemma definitely_false_spec : forall cs c,
  definitely_false s cs c = true <-> forall r, holds r cs -> eb r c = false.
Proof.
  intros. unfold definitely_false. rewrite negb_true_iff. split.
  - intros H r Hr. destruct (eb r c) eqn:E; [|reflexivity].
    assert (can_be_true s cs c = true) by (apply can_be_true_spec; eauto). congruence.
  - intros H. destruct (can_be_true s cs c) eqn:E; [|reflexivity].
    apply can_be_true_spec in E as [r [Hr E]]. specialize (H r Hr). congruence.
Qed.

Lemma pick_lt : forall cs e, (exists r, holds r cs) -> pick s cs e < 2 ^ width e.
Proof.
  intros cs e H. destruct (proj2 SOK cs e H) as [r [_ <-]]. apply evalv_lt.
Qed.

Lemma get_if_constant_spec : forall cs e,
  match get_if_constant s cs e with
  | Ok (Some v) => (exists r, holds r cs) /\ forall r, holds r cs -> ev r e = v
  | Ok None => exists r1 r2, holds r1 cs /\ holds r2 cs /\ ev r1 e <> ev r2 e
  | Err => forall r, ~ holds r cs
  | NoFuel => False
  end.
Proof.
  intros. unfold get_if_constant.
  destruct (sat s cs) eqn:E; cbn.
  2:{ apply sat_false_iff; auto. }
  apply sat_iff in E.
  pose proof (pick_lt cs e E) as L.
  destruct (proj2 SOK cs e E) as [r [Hr Hp]].
  destruct (sat s (BNe e (BVV (width e) (pick s cs e)) :: cs)) eqn:E2.
  - apply sat_iff in E2 as [r2 H2]. apply holds_cons in H2 as [H2 H2'].
    apply BNe_true in H2. cbn [evalv] in H2. rewrite wrap_small in H2 by auto.
    exists r, r2. rewrite Hp. auto.
  - split; [auto|]. intros r2 H2. rewrite sat_false_iff in E2.
    destruct (N.eq_dec (ev r2 e) (pick s cs e)) as [|N]; [auto|].
    exfalso. apply (E2 r2). apply holds_cons. split; [|auto].
    apply BNe_true. cbn [evalv]. rewrite wrap_small by auto. auto.
Qed.

Lemma get_if_constant_b_spec : forall cs c,
  match get_if_constant_b s cs c with
  | Ok (Some v) => (exists r, holds r cs) /\ forall r, holds r cs -> eb r c = v
  | Ok None => (exists r, holds r cs /\ eb r c = true) /\ (exists r, holds r cs /\ eb r c = false)
  | Err => forall r, ~ holds r cs
  | NoFuel => False
  end.
Proof.
  intros. unfold get_if_constant_b.
  fold (can_be_true s cs c). fold (can_be_false s cs c).
  destruct (can_be_true s cs c) eqn:ET; destruct (can_be_false s cs c) eqn:EF.
  - apply can_be_true_spec in ET. apply can_be_false_spec in EF. auto.
  - apply can_be_true_spec in ET as [r [Hr ?]]. split; [eauto|].
    apply definitely_true_spec. unfold definitely_true. rewrite EF. reflexivity.
  - apply can_be_false_spec in EF as [r [Hr ?]]. split; [eauto|].
    apply definitely_false_spec. unfold definitely_false. rewrite ET. reflexivity.
  - intros r Hr.
    assert (eb r c = true) by (apply (definitely_true_spec cs c); unfold definitely_true; rewrite ?EF; auto).
    assert (eb r c = false) by (apply (definitely_false_spec cs c); unfold definitely_false; rewrite ?ET; auto).
    congruence.
Qed.

Lemma get_exact_match_sound : forall T cs item (cands : list T) assumption sel c,
  get_exact_match s cs item cands assumption sel = Some c ->
  In c cands /\
  forall r, holds r cs -> eb r assumption = true -> ev r item = ev r (sel c).
Proof.
  intros * H. unfold get_exact_match in H.
  destruct (find (fun c => bv_eqb item (sel c)) cands) eqn:F.
  - injection H as ->. apply find_some in F as [Hin E]. split; [auto|].
    apply bv_eqb_eq in E. intros. rewrite E. reflexivity.
  - destruct (negb (symbolic item)); [discriminate|].
    apply find_some in H as [Hin E]. split; [auto|].
    rewrite definitely_true_spec in E. intros r Hr Ha. specialize (E r Hr).
    cbn [evalb] in E. rewrite Ha in E. cbn in E. apply N.eqb_eq in E. auto.
Qed.

Lemma get_exact_match_complete : forall T cs item (cands : list T) assumption sel,
  symbolic item = true ->
  (exists c, In c cands /\
     forall r, holds r cs -> eb r assumption = true -> ev r item = ev r (sel c)) ->
  get_exact_match s cs item cands assumption sel <> None.
Proof.
  intros * Hs [c [Hin Hc]] H. unfold get_exact_match in H.
  destruct (find (fun c => bv_eqb item (sel c)) cands) eqn:F; [discriminate|].
  rewrite Hs in H. cbn in H.
  eapply find_none in H; [|exact Hin]. cbn in H.
  assert (definitely_true s cs (BOr (BNot assumption) (BEq item (sel c))) = true); [|congruence].
  apply definitely_true_spec. intros r Hr. cbn [evalb].
  destruct (eb r assumption) eqn:E; cbn; [|reflexivity].
  apply N.eqb_eq. auto.
Qed.

End UtilsFacts.

(** ** A brute-force solver meeting the premise *)

Definition updv (r : env) (x v : N) : env :=
  mkEnv (fun y => if y =? x then v else ebv r y) (ebool r).
Definition updb (r : env) (x : N) (b : bool) : env :=
  mkEnv (ebv r) (fun y => if y =? x then b else ebool r y).

Fixpoint try_upto (n : nat) (f : N -> option env) : option env :=
  match n with
  | O => None
  | S n' => match f (N.of_nat n') with Some r => Some r | None => try_upto n' f end
  end.

Fixpoint search_v (l : list (N * N)) (k : env -> option env) (r : env) : option env :=
  match l with
  | [] => k r
  | (x, w) :: l' => try_upto (N.to_nat (2 ^ w)) (fun v => search_v l' k (updv r x v))
  end.
Fixpoint search_b (l : list N) (k : env -> option env) (r : env) : option env :=
  match l with
  | [] => k r
  | x :: l' => match search_b l' k (updb r x false) with
               | Some r => Some r
               | None => search_b l' k (updb r x true)
               end
  end.

Definition wid (vs : list (N * N)) (x : N) : N :=
  fold_right (fun p a => if fst p =? x then N.max (snd p) a else a) 0 vs.
Definition var_list (vs : list (N * N)) : list (N * N) :=
  map (fun x => (x, wid vs x)) (nodup N.eq_dec (map fst vs)).

Definition env0 : env := mkEnv (fun _ => 0) (fun _ => false).

Definition bf_find (cs : list bexp) : option env :=
  let vs := flat_map bvvars cs in
  let bs := nodup N.eq_dec (flat_map bbools cs) in
  search_b bs
    (search_v (var_list vs) (fun r => if forallb (eb r) cs then Some r else None)) env0.

Definition bf : solver :=
  mkSolver (fun cs => match bf_find cs with Some _ => true | None => false end)
           (fun cs e => match bf_find cs with Some r => ev r e | None => 0 end).

Lemma try_upto_some : forall n f r, try_upto n f = Some r -> exists v, f v = Some r.
Proof.
  induction n; cbn; intros; [discriminate|].
  destruct (f (N.of_nat n)) eqn:E; eauto. injection H as <-. eauto.
Qed.
Lemma try_upto_none : forall n f v, try_upto n f = None -> v < N.of_nat n -> f v = None.
Proof.
  induction n; intros f v H L; [lia|].
  cbn in H. destruct (f (N.of_nat n)) eqn:E; [discriminate|].
  destruct (N.eq_dec v (N.of_nat n)) as [->|]; auto. apply IHn; auto; lia.
Qed.
Lemma search_v_some : forall l k r r', search_v l k r = Some r' -> exists r0, k r0 = Some r'.
Proof.
  induction l as [|[x w] l IH]; cbn; intros; eauto.
  apply try_upto_some in H as [v H]. eauto.
Qed.
Lemma search_b_some : forall l k r r', search_b l k r = Some r' -> exists r0, k r0 = Some r'.
Proof.
  induction l as [|x l IH]; cbn; intros; eauto.
  destruct (search_b l k (updb r x false)) eqn:E; eauto. injection H as <-. eauto.
Qed.

Fixpoint upd_all_v (l : list (N * N)) (t r : env) : env :=
  match l with
  | [] => r
  | (x, w) :: l' => upd_all_v l' t (updv r x (wrap w (ebv t x)))
  end.
Fixpoint upd_all_b (l : list N) (t r : env) : env :=
  match l with
  | [] => r
  | x :: l' => upd_all_b l' t (updb r x (ebool t x))
  end.

Lemma search_v_none : forall l k r t, search_v l k r = None -> k (upd_all_v l t r) = None.
Proof.
  induction l as [|[x w] l IH]; cbn [search_v upd_all_v]; intros; auto.
  apply IH.
  apply (try_upto_none _ (fun v => search_v l k (updv r x v)) (wrap w (ebv t x)) H).
  rewrite N2Nat.id. apply wrap_lt.
Qed.
Lemma search_b_none : forall l k r t, search_b l k r = None -> k (upd_all_b l t r) = None.
Proof.
  induction l as [|x l IH]; cbn [search_b upd_all_b]; intros; auto.
  destruct (search_b l k (updb r x false)) eqn:E; [discriminate|].
  apply IH. destruct (ebool t x); auto.
Qed.

Lemma upd_all_v_bool : forall l t r x, ebool (upd_all_v l t r) x = ebool r x.
Proof. induction l as [|[y w] l IH]; cbn; intros; auto. rewrite IH. reflexivity. Qed.
Lemma upd_all_v_notin : forall l t r x, ~ In x (map fst l) -> ebv (upd_all_v l t r) x = ebv r x.
Proof.
  induction l as [|[y w] l IH]; cbn; intros; auto.
  rewrite IH by tauto. cbn. destruct (N.eqb_spec x y); [subst; tauto|reflexivity].
Qed.
Lemma upd_all_v_in : forall l t r x w,
  NoDup (map fst l) -> In (x, w) l -> ebv (upd_all_v l t r) x = wrap w (ebv t x).
Proof.
  induction l as [|[y w'] l IH]; cbn; intros * ND H; [destruct H|].
  inversion ND; subst. destruct H as [E|H].
  - injection E as -> ->. rewrite upd_all_v_notin by auto. cbn. rewrite N.eqb_refl. reflexivity.
  - apply IH; auto.
Qed.
Lemma upd_all_b_in : forall l t r x, In x l -> ebool (upd_all_b l t r) x = ebool t x.
Proof.
  induction l as [|y l IH]; cbn; intros * H; [destruct H|].
  destruct (in_dec N.eq_dec x l); [auto|].
  destruct H as [<-|]; [|tauto].
  clear IH.
  assert (G : forall l r, ~ In y l -> ebool (upd_all_b l t r) y = ebool r y).
  { induction l0 as [|z l0 IH]; cbn; intros; auto. rewrite IH by tauto. cbn.
    destruct (N.eqb_spec y z); [subst; tauto|reflexivity]. }
  rewrite G by auto. cbn. rewrite N.eqb_refl. reflexivity.
Qed.

Lemma wid_ge : forall vs x w, In (x, w) vs -> w <= wid vs x.
Proof.
  induction vs as [|[y w'] vs IH]; intros * H; [destruct H|].
  unfold wid in *. cbn [fold_right fst snd]. destruct H as [E|H].
  - injection E as -> ->. rewrite N.eqb_refl. lia.
  - apply IH in H. destruct (y =? x); lia.
Qed.

Lemma wrap_wrap_le : forall w w' v, w <= w' -> wrap w (wrap w' v) = wrap w v.
Proof.
  intros. unfold wrap. replace w' with (w + (w' - w)) by lia.
  rewrite N.pow_add_r. rewrite N.mod_mul_r by auto.
  rewrite N.add_mod by auto. rewrite (N.mul_comm (2 ^ w)), N.mod_mul by auto.
  rewrite N.add_0_r, !N.mod_mod by auto. reflexivity.
Qed.

Lemma bf_find_sound : forall cs r, bf_find cs = Some r -> holds r cs.
Proof.
  intros cs r H. unfold bf_find in H.
  apply search_b_some in H as [r0 H]. apply search_v_some in H as [r1 H].
  destruct (forallb (eb r1) cs) eqn:E; [|discriminate]. injection H as ->.
  rewrite forallb_forall in E. exact E.
Qed.

Lemma bf_find_complete : forall cs t, holds t cs -> bf_find cs <> None.
Proof.
  intros cs t Ht H. unfold bf_find in H.
  set (vs := flat_map bvvars cs) in *.
  set (bs := nodup N.eq_dec (flat_map bbools cs)) in *.
  apply search_b_none with (t := t) in H.
  apply search_v_none with (t := t) in H.
  set (r := upd_all_v (var_list vs) t (upd_all_b bs t env0)) in *.
  assert (forallb (eb r) cs = true); [|rewrite H0 in H; discriminate].
  apply forallb_forall. intros c Hc. rewrite <- (Ht c Hc).
  apply evalb_agree. split.
  - intros x w Hx.
    assert (HV : In (x, w) vs) by (apply in_flat_map; eauto).
    unfold r. rewrite upd_all_v_in with (w := wid vs x).
    + apply wrap_wrap_le. apply wid_ge. auto.
    + unfold var_list. rewrite map_map. cbn. rewrite map_id. apply NoDup_nodup.
    + unfold var_list. apply in_map_iff. exists x. split; [reflexivity|].
      apply nodup_In. apply in_map_iff. exists (x, w). auto.
  - intros x Hx. unfold r. rewrite upd_all_v_bool. apply upd_all_b_in.
    apply nodup_In. apply in_flat_map. eauto.
Qed.

Theorem bf_ok : solver_ok bf.
Proof.
  split.
  - intros cs. cbn. split.
    + destruct (bf_find cs) eqn:E; [|discriminate]. intros _. exists e. apply bf_find_sound. auto.
    + intros [t Ht]. destruct (bf_find cs) eqn:E; [reflexivity|].
      destruct (bf_find_complete cs t Ht E).
  - intros cs e [t Ht]. cbn. destruct (bf_find cs) eqn:E.
    + exists e0. split; [apply bf_find_sound; auto|reflexivity].
    + destruct (bf_find_complete cs t Ht E).
Qed.
