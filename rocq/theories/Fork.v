(** * Facts about guarded forks (tool/kalm/utils.py 87-100, modelled in Solver.v) *)

From Coq Require Import NArith List Bool Lia.
From Verif Require Import Expr Solver.
Import ListNotations.
Open Scope N_scope.

Section Fork.
Variable s : solver.
Hypothesis SOK : solver_ok s.
Context {X R : Type}.
Variables case_true case_false : fstate X -> fstate X * R.

Lemma fork_guarded_spec : forall st guard succs,
  fork_guarded s st guard case_true case_false = Ok succs ->
  NoDup (map (fun e => fst (fst e)) succs) /\
  (forall r, holds r (fst st) -> exists e, In e succs /\ fst (fst e) = eb r guard) /\
  (forall b st' out, In (b, st', out) succs ->
     (forall r, holds r (fst st') <-> holds r (fst st) /\ eb r guard = b) /\
     (exists r, holds r (fst st')) /\
     snd st' = snd st /\
     out = (if b then case_true else case_false) st').
Proof.
  intros st guard succs. unfold fork_guarded.
  pose proof (get_if_constant_b_spec s SOK (fst st) guard) as G.
  destruct (get_if_constant_b s (fst st) guard) as [[[|]|]| |] eqn:E; cbn; intros Heq;
    try discriminate; injection Heq as <-.
  - (* constantly true *)
    assert (T : (exists r, holds r (fst st)) /\ forall r, holds r (fst st) -> eb r guard = true) by exact G.
    destruct T as [F T]. split; [repeat constructor; cbn; tauto|]. split.
    + intros r Hr. exists (true, st, case_true st). split; [left; auto|]. cbn. symmetry; auto.
    + intros b st' out [Hin|[]]. injection Hin as <- <- <-. repeat split; auto; firstorder.
  - assert (T : (exists r, holds r (fst st)) /\ forall r, holds r (fst st) -> eb r guard = false) by exact G.
    destruct T as [F T]. split; [repeat constructor; cbn; tauto|]. split.
    + intros r Hr. exists (false, st, case_false st). split; [left; auto|]. cbn. symmetry; auto.
    + intros b st' out [Hin|[]]. injection Hin as <- <- <-. repeat split; auto; firstorder.
  - assert (T : (exists r, holds r (fst st) /\ eb r guard = true) /\
                (exists r, holds r (fst st) /\ eb r guard = false)) by exact G.
    destruct T as [[rt [Ht Gt]] [rf [Hf Gf]]]. split.
    { constructor; [cbn; intros [?|[]]; discriminate|repeat constructor; cbn; tauto]. }
    split.
    + intros r Hr. destruct (eb r guard) eqn:Eg.
      * eexists. split; [right; left; reflexivity|reflexivity].
      * eexists. split; [left; reflexivity|reflexivity].
    + intros b st' out [Hin|[Hin|[]]]; injection Hin as <- <- <-; cbn [fst snd].
      * repeat split; auto.
        -- rewrite holds_app in H; tauto.
        -- rewrite holds_app, holds_cons in H. cbn [evalb] in H. rewrite negb_true_iff in H. tauto.
        -- rewrite holds_app, holds_cons. cbn [evalb]. rewrite negb_true_iff.
           intros [? ?]. repeat split; auto. apply holds_nil.
        -- exists rf. rewrite holds_app, holds_cons. cbn [evalb]. rewrite negb_true_iff.
           repeat split; auto. apply holds_nil.
      * repeat split; auto.
        -- rewrite holds_app in H; tauto.
        -- rewrite holds_app, holds_cons in H. tauto.
        -- rewrite holds_app, holds_cons. intros [? ?]. repeat split; auto. apply holds_nil.
        -- exists rt. rewrite holds_app, holds_cons. repeat split; auto. apply holds_nil.
Qed.

Lemma fork_guarded_err : forall st guard,
  fork_guarded s st guard case_true case_false = Err <-> forall r, ~ holds r (fst st).
Proof.
  intros st guard. unfold fork_guarded.
  pose proof (get_if_constant_b_spec s SOK (fst st) guard) as G.
  destruct (get_if_constant_b s (fst st) guard) as [[[|]|]| |] eqn:E; cbn.
  - split; [discriminate|]. intros H. destruct G as [[r Hr] _]. destruct (H r Hr).
  - split; [discriminate|]. intros H. destruct G as [[r Hr] _]. destruct (H r Hr).
  - split; [discriminate|]. intros H. destruct G as [[r [Hr _]] _]. destruct (H r Hr).
  - split; [intros _; exact G|auto].
  - destruct G.
Qed.
End Fork.
