(** Property theorems C03, C04, C05. *)

From Coq Require Import NArith List Bool.
From Verif Require Import Expr Solver Fork.
Import ListNotations.
Open Scope N_scope.

(** C03: definite answers are right, "can be" answers are witnessed. *)
Theorem C03_definitely_true : forall s, solver_ok s -> forall cs c,
  definitely_true s cs c = true <-> (forall r, holds r cs -> eb r c = true).
Proof. exact definitely_true_spec. Qed.
Print Assumptions C03_definitely_true.

Theorem C03_definitely_false : forall s, solver_ok s -> forall cs c,
  definitely_false s cs c = true <-> (forall r, holds r cs -> eb r c = false).
Proof. exact definitely_false_spec. Qed.
Print Assumptions C03_definitely_false.

Theorem C03_can_be_true : forall s, solver_ok s -> forall cs c,
  can_be_true s cs c = true <-> (exists r, holds r cs /\ eb r c = true).
Proof. exact can_be_true_spec. Qed.
Print Assumptions C03_can_be_true.

Theorem C03_can_be_false : forall s, solver_ok s -> forall cs c,
  can_be_false s cs c = true <-> (exists r, holds r cs /\ eb r c = false).
Proof. exact can_be_false_spec. Qed.
Print Assumptions C03_can_be_false.

Theorem C03_constant : forall s, solver_ok s -> forall cs e,
  match get_if_constant s cs e with
  | Ok (Some v) => (exists r, holds r cs) /\ forall r, holds r cs -> ev r e = v
  | Ok None => exists r1 r2, holds r1 cs /\ holds r2 cs /\ ev r1 e <> ev r2 e
  | Err => forall r, ~ holds r cs
  | NoFuel => False
  end.
Proof. exact get_if_constant_spec. Qed.
Print Assumptions C03_constant.

Theorem C03_constant_bool : forall s, solver_ok s -> forall cs c,
  match get_if_constant_b s cs c with
  | Ok (Some v) => (exists r, holds r cs) /\ forall r, holds r cs -> eb r c = v
  | Ok None => (exists r, holds r cs /\ eb r c = true) /\ (exists r, holds r cs /\ eb r c = false)
  | Err => forall r, ~ holds r cs
  | NoFuel => False
  end.
Proof. exact get_if_constant_b_spec. Qed.
Print Assumptions C03_constant_bool.

(** The premise [solver_ok] is met by a real decision procedure. *)
Example C03_premise : solver_ok bf.
Proof. exact bf_ok. Qed.
Example C03_example :
  definitely_true bf [BUlt (BVS 3 1) (BVV 3 2)] (BUle (BVS 3 1) (BVV 3 1)) = true /\
  definitely_true bf [BUlt (BVS 3 1) (BVV 3 2)] (BUle (BVS 3 1) (BVV 3 0)) = false /\
  get_if_constant bf [BUlt (BVS 3 1) (BVV 3 1)] (BvAdd (BVS 3 1) (BVV 3 2)) = Ok (Some 2).
Proof. vm_compute. auto. Qed.

(** C04: a guarded fork partitions the executions by the guard. *)
Theorem C04_fork_guarded : forall s, solver_ok s -> forall X R
    (case_true case_false : fstate X -> fstate X * R) st guard succs,
  fork_guarded s st guard case_true case_false = Ok succs ->
  NoDup (map (fun e => fst (fst e)) succs) /\
  (forall r, holds r (fst st) -> exists e, In e succs /\ fst (fst e) = eb r guard) /\
  (forall b st' out, In (b, st', out) succs ->
     (forall r, holds r (fst st') <-> holds r (fst st) /\ eb r guard = b) /\
     (exists r, holds r (fst st')) /\
     snd st' = snd st /\
     out = (if b then case_true else case_false) st').
Proof. intros s SOK X R ct cf. exact (fork_guarded_spec s SOK ct cf). Qed.
Print Assumptions C04_fork_guarded.

Theorem C04_fork_fails_only_when_infeasible : forall s, solver_ok s -> forall X R
    (case_true case_false : fstate X -> fstate X * R) st guard,
  fork_guarded s st guard case_true case_false = Err <-> (forall r, ~ holds r (fst st)).
Proof. intros s SOK X R ct cf. exact (fork_guarded_err s SOK ct cf). Qed.
Print Assumptions C04_fork_fails_only_when_infeasible.

Example C04_example :
  let st := ([BUlt (BVS 3 1) (BVV 3 4)], 7) in
  fork_guarded bf st (BEq (BVS 3 1) (BVV 3 0)) (fun st => (st, 1)) (fun st => (st, 0)) =
  let t := ([BUlt (BVS 3 1) (BVV 3 4); BEq (BVS 3 1) (BVV 3 0)], 7) in
  let f := ([BUlt (BVS 3 1) (BVV 3 4); BNot (BEq (BVS 3 1) (BVV 3 0))], 7) in
  Ok [(false, f, (f, 0)); (true, t, (t, 1))].
Proof. vm_compute. reflexivity. Qed.

(** C05: exact-match lookup. *)
Theorem C05_match_sound : forall s, solver_ok s ->
  forall T cs item (cands : list T) assumption sel c,
  get_exact_match s cs item cands assumption sel = Some c ->
  In c cands /\
  forall r, holds r cs -> eb r assumption = true -> ev r item = ev r (sel c).
Proof. exact get_exact_match_sound. Qed.
Print Assumptions C05_match_sound.

Theorem C05_match_complete : forall s, solver_ok s ->
  forall T cs item (cands : list T) assumption sel,
  symbolic item = true ->
  (exists c, In c cands /\
     forall r, holds r cs -> eb r assumption = true -> ev r item = ev r (sel c)) ->
  get_exact_match s cs item cands assumption sel <> None.
Proof. exact get_exact_match_complete. Qed.
Print Assumptions C05_match_complete.

Example C05_example :
  get_exact_match bf [BEq (BVS 3 1) (BvAdd (BVS 3 2) (BVV 3 1))]
    (BvSub (BVS 3 1) (BVV 3 1)) [BVS 3 1; BVS 3 2] BTrue (fun e => e) = Some (BVS 3 2).
Proof. vm_compute. reflexivity. Qed.
