(** Property theorems C52, C53, C54, C55, C83. *)

From Coq Require Import NArith List Bool Lia Arith.
From Verif Require Import Expr Solver Symbex SymbexFacts SymbexSearch.
Import ListNotations.
Open Scope nat_scope.

(** C52: a success covers every assignment allowed by the state's constraints. *)
Theorem C52_success_covers : forall s, solver_ok s -> forall fuel pfuel sd v rs,
  symbex s fuel pfuel sd [] = Verified v rs ->
  forall cs sp, In (cs, sp) sd -> choice_free sp ->
  forall r w, holds r cs -> crun r w sp 0 <> CFail.
Proof.
  intros s SOK fuel pfuel sd v rs H cs sp Hin Hcf r w Hr.
  apply symbex_ok in H; [|exact SOK].
  assert (K : forall sd rs, Forall2 (covered v) sd rs -> In (cs, sp) sd -> crun r v sp 0 <> CFail).
  { clear sd rs H Hin. intros sd rs H. induction H as [|st ps sd rs Hc _ IH]; intros Hin; [destruct Hin|].
    destruct Hin as [->|Hin]; [|auto]. apply Hc. exact Hr. }
  rewrite (choice_free_crun r w v sp 0 0 Hcf). exact (K sd rs H Hin).
Qed.
Print Assumptions C52_success_covers.

(** x is below 3; the specification tests x < 2 (both ways) and x < 7 (always). *)
Definition ex_x := BVS 3 1.
Definition ex_spec (last : spec) : spec :=
  SIf (BUlt ex_x (BVV 3 2)) (SIf (BUlt ex_x (BVV 3 7)) SDone (SFail true))
      (SMust (BEq ex_x (BVV 3 2)) last).
Example C52_example :
  exists paths, symbex bf 9 9 [([BUlt ex_x (BVV 3 3)], ex_spec SDone)] [] = Verified [] [paths] /\ length paths = 2.
Proof. eexists. split; [vm_compute; reflexivity|reflexivity]. Qed.
Example C52_failure_found :
  symbex bf 9 9 [([BUlt ex_x (BVV 3 3)], ex_spec (SFail true))] [] = Failed /\
  symbex bf 9 9 [([BUlt ex_x (BVV 3 4)], ex_spec SDone)] [] = Failed.
Proof. vm_compute. auto. Qed.

(** C53: the recorded path conditions are satisfiable, exclude each other, and cover
    every run of the specification. *)
Theorem C53_paths_exact : forall s, solver_ok s -> forall fuel pfuel sd v rs,
  symbex s fuel pfuel sd [] = Verified v rs ->
  Forall2 (fun st paths =>
    (forall p q i j, nth_error paths i = Some p -> nth_error paths j = Some q -> i <> j ->
       forall r, ~ (holds r p /\ holds r q)) /\
    ((exists r, holds r (fst st)) -> forall p, In p paths -> exists r, holds r (fst st) /\ holds r p) /\
    (forall r, holds r (fst st) -> crun r v (snd st) 0 = CDone -> exists p, In p paths /\ holds r p))
    sd rs.
Proof.
  intros s SOK fuel pfuel sd v rs H. apply symbex_ok in H; [|exact SOK].
  induction H as [|st paths sd rs (_ & _ & Hcov & Hex & Hfeas) _ IH]; constructor; [|exact IH]. clear IH.
  split; [|split; assumption].
  assert (W : forall p q i j, i < j -> nth_error paths i = Some p -> nth_error paths j = Some q ->
     forall r, ~ (holds r p /\ holds r q)).
  { clear Hcov Hfeas. induction Hex as [|p0 ps Hp Hps IH]; intros p q i j Hij Hi Hj r [H1 H2].
    - destruct i; discriminate.
    - destruct j as [|j]; [lia|]. destruct i as [|i]; cbn [nth_error] in *.
      + injection Hi as ->. rewrite Forall_forall in Hp. apply nth_error_In in Hj. exact (Hp q Hj r H1 H2).
      + eapply (IH p q i j); eauto; lia. }
  intros p q i j Hi Hj Hne r [H1 H2]. destruct (Nat.lt_trichotomy i j) as [Hl|[Hl|Hl]]; [|contradiction|].
  - eapply (W p q i j); eauto.
  - eapply (W q p j i); eauto.
Qed.
Print Assumptions C53_paths_exact.
Example C53_example :
  symbex bf 9 9 [([BUlt ex_x (BVV 3 3)], ex_spec SDone)] [] =
    Verified [] [[[BUlt ex_x (BVV 3 2)]; [BNot (BUlt ex_x (BVV 3 2))]]].
Proof. vm_compute. reflexivity. Qed.

(** The search always comes to an end: for every specification and states there are
    bounds within which it answers. *)
Theorem C53_exploration_terminates : forall s sd ch, exists m, forall pfuel, m <= pfuel ->
  all_states s pfuel sd ch <> AFuel.
Proof.
  intros s sd ch. destruct (dall_spec s sd ch) as [m Hm]. exists m. intros pfuel Hp.
  destruct (Hm pfuel) as [Ha _]. rewrite Ha by exact Hp.
  clear. revert ch. induction sd as [|[cs sp] sd IH]; intros ch; cbn [dall]; [discriminate|].
  destruct (dfs s sp cs [] 0 ch) as [ps ch'|b ch']; [|discriminate].
  specialize (IH ch'). destruct (dall s sd ch'); congruence.
Qed.
Print Assumptions C53_exploration_terminates.

(** C54, what holds: when failures are not Python's own exceptions, every path asks the
    same questions, and no list ends with a candidate of an earlier list, a working
    combination is found. *)
Theorem C54_choices_found_partial : forall s L v sd, solver_ok s -> safe L -> combination L v ->
  (forall cs sp, In (cs, sp) sd -> offers L 0 sp /\ soft sp /\ assumes_nothing sp /\ exists r, holds r cs) ->
  (forall cs sp r, In (cs, sp) sd -> holds r cs -> crun r v sp 0 <> CFail) ->
  (forall fuel pfuel, symbex s fuel pfuel sd [] <> Failed) /\
  exists n m, forall fuel pfuel, n <= fuel -> m <= pfuel ->
    exists chosen rs, symbex s fuel pfuel sd [] = Verified chosen rs.
Proof. exact search_complete. Qed.
Print Assumptions C54_choices_found_partial.

(** Two maps to find among two overlapping lists; only the last combination works. *)
Definition ex_two (builtin : bool) (l1 l2 : list N) : spec :=
  SChoose l1 (fun x => SIf (BUlt ex_x (BVV 3 2)) SDone
    (SChoose l2 (fun y => if (x =? 2)%N && (y =? 3)%N then SDone else SFail builtin))).
Example C54_example :
  safe [[1; 2]%N; [1; 3]%N] /\ combination [[1; 2]%N; [1; 3]%N] [2; 3]%N /\
  offers [[1; 2]%N; [1; 3]%N] 0 (ex_two false [1; 2]%N [1; 3]%N) /\ soft (ex_two false [1; 2]%N [1; 3]%N) /\
  (forall r, crun r [2; 3]%N (ex_two false [1; 2]%N [1; 3]%N) 0 <> CFail) /\
  symbex bf 9 9 [([], ex_two false [1; 2]%N [1; 3]%N)] [] =
    Verified [2; 3]%N [[[BUlt ex_x (BVV 3 2)]; [BNot (BUlt ex_x (BVV 3 2))]]].
Proof.
  split.
  { split; [intros l [<-|[<-|[]]]; discriminate|]. intros i j [Hij Hj].
    destruct i as [|[|i]], j as [|[|j]]; cbn in *; try lia; intros [H|[H|H]]; try discriminate; exact H. }
  split.
  { split; [reflexivity|]. split; [repeat constructor; cbn; intuition discriminate|].
    intros [|[|i]] Hi; cbn in *; auto; lia. }
  split.
  { cbn [offers ex_two]. split; [reflexivity|]. intros x. split; [exact I|]. split; [reflexivity|].
    intros y. destruct ((x =? 2)%N && (y =? 3)%N); exact I. }
  split.
  { cbn [soft ex_two]. intros x. split; [exact I|]. intros y. destruct ((x =? 2)%N && (y =? 3)%N); reflexivity. }
  split.
  { intros r. cbn [ex_two crun nth]. destruct (eb r _); [discriminate|]. cbn. discriminate. }
  vm_compute. reflexivity.
Qed.

(** C54 fails for assertions: they are Python's own exceptions, so the first wrong
    choice ends the search. *)
Theorem C54_assertions_refuted : forall s, exists L v sp,
  safe L /\ combination L v /\ offers L 0 sp /\
  (forall r, crun r v sp 0 = CDone) /\
  forall fuel pfuel, symbex s (S fuel) (S pfuel) [([], sp)] [] = Failed.
Proof.
  intros s. exists [[1; 2]%N], [2%N], (SChoose [1; 2]%N (fun x => if (x =? 2)%N then SDone else SFail true)).
  split.
  { split; [intros l [<-|[]]; discriminate|]. intros i j [Hij Hj]. cbn in Hj. lia. }
  split.
  { split; [reflexivity|]. split; [repeat constructor; cbn; tauto|]. intros [|i] Hi; cbn in *; auto; lia. }
  split; [split; [reflexivity|]; intros x; cbn; destruct (x =? 2)%N; exact I|]. split; reflexivity.
Qed.
Print Assumptions C54_assertions_refuted.

(** C54 also fails without assertions: dropping the candidates an earlier choice uses
    may leave none, which is an IndexError. *)
Theorem C54_duplicates_refuted : forall s, exists L v sp,
  combination L v /\ offers L 0 sp /\ soft sp /\
  (forall r, crun r v sp 0 = CDone) /\
  forall fuel pfuel, symbex s (S fuel) (S pfuel) [([], sp)] [] = Failed.
Proof.
  intros s. exists [[1; 2]%N; [1]%N], [2; 1]%N, (SChoose [1; 2]%N (fun x => SChoose [1]%N (fun y => SDone))).
  split.
  { split; [reflexivity|]. split; [repeat constructor; cbn; intuition discriminate|].
    intros [|[|i]] Hi; cbn in *; auto; lia. }
  split; [cbn; auto|]. split; [cbn; auto|]. split; reflexivity.
Qed.
Print Assumptions C54_duplicates_refuted.

(** C55: one list of choices, the reported one, makes every path of every state pass,
    and the choices made along any run are all different. *)
Theorem C55_one_choice_vector : forall s, solver_ok s -> forall fuel pfuel sd v rs,
  symbex s fuel pfuel sd [] = Verified v rs ->
  forall cs sp r, In (cs, sp) sd -> holds r cs ->
    crun r v sp 0 <> CFail /\ NoDup (firstn (calls r v sp 0) v).
Proof.
  intros s SOK fuel pfuel sd v rs H cs sp r Hin Hr. apply symbex_ok in H; [|exact SOK].
  induction H as [|st ps sd rs (H1 & H2 & _) _ IH]; [destruct Hin|].
  destruct Hin as [->|Hin]; [|auto]. split; [apply H1; exact Hr|apply (H2 r Hr)].
Qed.
Print Assumptions C55_one_choice_vector.
Example C55_example : exists rs,
  symbex bf 9 9 [([], ex_two false [1; 2]%N [1; 3]%N); ([], SChoose [1; 2]%N (fun x => if (x =? 2)%N then SDone else SFail false))] [] =
    Verified [2; 3]%N rs.
Proof. eexists. vm_compute. reflexivity. Qed.

(** C83: a choice returns one of the candidates offered. It does when every path offers
    the same list at the same position... *)
Theorem C83_choice_offered_partial : forall s, solver_ok s -> forall L sd,
  (forall cs sp, In (cs, sp) sd -> offers L 0 sp) ->
  forall fuel pfuel v rs, symbex s fuel pfuel sd [] = Verified v rs ->
  forall cs sp r, In (cs, sp) sd -> holds r cs -> honest r v sp 0.
Proof. exact success_honest. Qed.
Print Assumptions C83_choice_offered_partial.
Example C83_example : forall r, honest r [2; 3]%N (ex_two false [1; 2]%N [1; 3]%N) 0.
Proof. intros r. cbn [ex_two honest nth]. split; [cbn; auto|]. destruct (eb r _); cbn; auto. Qed.

(** ... but nothing checks that they do: a path that offers only 2 is given 1. *)
Theorem C83_unoffered_refuted : exists sp v rs r,
  symbex bf 9 9 [([], sp)] [] = Verified v rs /\ crun r v sp 0 = CDone /\ ~ honest r v sp 0.
Proof.
  exists (SIf (BUlt ex_x (BVV 3 2)) (SChoose [1]%N (fun _ => SDone)) (SChoose [2]%N (fun _ => SDone))).
  do 2 eexists. exists (mkEnv (fun _ => 7%N) (fun _ => false)). split; [vm_compute; reflexivity|].
  split; [vm_compute; reflexivity|]. cbn. intros [[H|[]] _]. discriminate.
Qed.
Print Assumptions C83_unoffered_refuted.
