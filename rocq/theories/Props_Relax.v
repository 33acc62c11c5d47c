(** Property theorems C144 (the last exploration covers every packet). *)

From Coq Require Import NArith List Bool Lia Arith.
From Verif Require Import Expr Solver Bt Wt GhostMap GhostSpec GhostFacts GhostSim GhostHist Infer InferFacts GhostExt Relax Props_Infer.
Import ListNotations.
Open Scope N_scope.

(** ** C144 *)

(** C144, part. The program starts up ([init]) and leaves the state [x] to symbolic execution, the contents [cm0] to a real
    execution. The search relaxes it and reaches [a], then [b], and stops: exploring packets from [b] gives nothing new.
    Then after any number of real packets, whatever they held, as long as each follows a path that was explored, the contents of the
    maps are such that the next packet is covered: some assignment of the symbols, with the program's real inputs,
    satisfies all the constraints of the explored path and gives each operation the result, and each map the length, it really has.
    [handled] and [after] (Relax.v) are the real packets; [well_started] is what is asked of the search's starting states.
    Missing: invariants with lookups in other maps, guessed invariants, several starting states, keys and values that are neither
    symbols nor constants, maps written at start-up, and searches whose last two explorations write different maps. *)
Theorem C144_every_packet_was_explored_partial : forall s k fuel, solver_ok s -> claripy_ok k ->
  forall nin inp sz uk init x rs0 cm0 cr0, 2 <= nin ->
  srun s k fuel nin (ginit nin sz, []) init = Ok (x, rs0) -> stays_unfolded s k fuel nin (ginit nin sz, []) init ->
  crun inp nin sz uk (fun _ => None, []) init (cm0, cr0) ->
  forall objs f a ends prev b lens out,
  iterates (infer_invariants s k fuel no_guesses objs) [(x, f)] [] [(a, f)] prev ->
  f a = Ok ends -> infer_invariants s k fuel no_guesses objs [a] ends prev = Ok (Next [b] lens) ->
  f b = Ok out -> infer_invariants s k fuel no_guesses objs [b] out lens = Ok Fixpoint_ ->
  (forall y q, iterates (infer_invariants s k fuel no_guesses objs) [(x, f)] [] [(y, f)] q -> well_started s k fuel objs f y q) ->
  (forall m, In m (changed objs a ends) <-> In m (changed objs b out)) ->
  (forall m c, cm0 m = Some c -> In m objs) ->
  forall cm, after s k fuel nin inp sz b rs0 cr0 uk (changed objs a ends) out cm0 cm ->
  forall st rs cm' cr', handled s k fuel nin inp sz b rs0 cr0 uk (changed objs a ends) out cm st rs cm' cr' ->
  exists r, eqbelow nin inp r /\ holds r (gcs st) /\
    Forall2 (fun a b => (ev r (fst a), eb r (snd a)) = b) rs cr' /\
    (forall m c, cm' m = Some c -> ev r (len_of st m) = csize c).
Proof.
  intros s k fuel SOK KOK nin inp sz uk init x rs0 cm0 cr0 NIN H U C objs f a ends prev b lens out IT FA NX FB FX WS SAME DOM cm AF st rs cm' cr' HD.
  destruct (hsim_run s k fuel nin inp sz uk SOK KOK NIN init inp (ginit nin sz) [] (fun _ => None) [] x rs0 cm0 cr0) as [r0 HS]; auto.
  { constructor; [constructor; cbn; auto; intros z []|apply eqbelow_refl|cbn; lia|constructor|reflexivity]. }
  destruct (after_covered s k fuel nin inp sz SOK KOK NIN objs f x a ends prev b lens out uk r0 rs0 cm0 cr0
    IT FA NX FB FX WS SAME DOM HS cm AF st rs cm' cr' HD) as [r [ukb [S I LN R Z]]].
  exists r. split; [exact I|]. split; [apply (sim_cs _ _ _ _ S)|]. split.
  - clear -R. induction R as [|p q rs cr [E _] R IH]; constructor; auto.
  - intros m c Hc. destruct (sim_get _ _ _ _ _ _ S Hc) as [g [G M]]. unfold len_of. rewrite G. apply (ms_size _ _ _ _ _ M).
Qed.
Print Assumptions C144_every_packet_was_explored_partial.

(** A map of one-bit keys and values, empty at first; a packet has a one-bit field, symbol 3 (symbol 2 is the result of start-up), which must
    be 1, and is looked up, then set to 1. *)
Definition m_rs0 : list (bv * bexp) := [sdone].
Definition m0 : gst := get_st (map_new bt cl_fold 5 (ginit 2 2) 0 1 1 None).
Definition m_os : list op := [OAssume (BEq (BVS 1 3) (BVV 1 1)); OGet 0 (BVS 1 3); OSet 0 (BVS 1 3) (BVV 1 1)].
Notation m_path x := (srun bt cl_fold 5 2 (packet_state x m_rs0 [1]) m_os).
Definition m_pkt : handler := fun x => do (st, _) <- m_path x; Ok [st].
Definition m_ends := ok_list (m_pkt m0).
Notation m_next := (infer_invariants bt cl_fold 5 no_guesses [0] [m0] m_ends []).
Definition m1 := next_start m_next.
Definition m_lens := next_prev m_next.
Definition m_out := ok_list (m_pkt m1).
Definition m_last : sst := match m_path m1 with Ok z => z | _ => (m1, []) end.
Definition c_of (C : N -> N * bool) (n : N) (seen : list N) (m : N) : option cmap := if m =? 0 then Some (mkC 1 1 2 C n seen) else None.

Ltac see_cs := intros c Hc; vm_compute in Hc; repeat destruct Hc as [<-|Hc]; try destruct Hc.
Ltac see_names := repeat match goal with H : _ \/ _ |- _ => destruct H | H : False |- _ => destruct H end; subst; try reflexivity.

Lemma m_start0 : start [0] m0.
Proof.
  split.
  - see_cs. split; intros z Hz; vm_compute in Hz; see_names.
  - intros m g [<-|[]] G. vm_compute in G. injection G as <-. split; [reflexivity|]. intros e [<-|[]].
    split; [reflexivity|]. split; [reflexivity|]. split; [split; intros z Hz; vm_compute in Hz; see_names|]. intros r q v. reflexivity.
Qed.
Lemma m_start1 : start [0] m1.
Proof.
  split.
  - see_cs; split; intros z Hz; vm_compute in Hz; see_names.
  - intros m g [<-|[]] G. vm_compute in G. injection G as <-. split; [reflexivity|]. intros e [<-|[]].
    split; [reflexivity|]. split; [reflexivity|]. split; [split; intros z Hz; vm_compute in Hz; see_names|].
    intros r q v. cbn. destruct (negb _); reflexivity.
Qed.
Lemma one_width_of : forall (wd : N -> N) cs, forallb (fun c => forallb (fun p => snd p =? wd (fst p)) (bvvars c)) cs = true -> one_width cs.
Proof.
  intros wd cs H c c' z w w' Hc Hc' Hz Hz'. rewrite forallb_forall in H.
  pose proof (H c Hc) as A. pose proof (H c' Hc') as B. rewrite forallb_forall in A, B.
  pose proof (A _ Hz) as A1. pose proof (B _ Hz') as B1. cbn in A1, B1. apply N.eqb_eq in A1, B1. congruence.
Qed.
Definition m_end (x : gst) : gst := match m_path x with Ok (st, _) => st | _ => x end.
Lemma m_ends_are : m_ends = [m_end m0] /\ m_out = [m_end m1].
Proof.
  assert (OK : forall x, is_ok (m_pkt x) = true -> ok_list (m_pkt x) = [m_end x]).
  { intros x H. unfold m_end, m_pkt in *. destruct (m_path x) as [[st rs]| |]; cbn in *; congruence. }
  split; apply OK; vm_compute; reflexivity.
Qed.
Lemma m_ends0 : ends_ok [0] m0 m_ends.
Proof.
  rewrite (proj1 m_ends_are). intros m st ga [<-|[]] [<-|[]] G. vm_compute in G. injection G as <-. cbn [gks gvs]. split.
  { eexists. split; [vm_compute; reflexivity|]. cbn. repeat constructor. }
  split.
  { see_cs; unfold cleanb; cbn; repeat split; intros; repeat match goal with H : _ \/ _ |- _ => destruct H end; try contradiction;
    try match goal with H : (_, _) = (_, _) |- _ => injection H as <- <- end; subst; discriminate. }
  split; [apply (one_width_of (fun z => if z =? 4 then 1 else 1)); vm_compute; reflexivity|].
  intros g i G Hi. vm_compute in G. injection G as <-. vm_compute in Hi. destruct Hi as [<-|[]].
  split; [right; cbn; eauto|left; reflexivity].
Qed.
Lemma m_ends1 : ends_ok [0] m1 m_out.
Proof.
  rewrite (proj2 m_ends_are). intros m st ga [<-|[]] [<-|[]] G. vm_compute in G. injection G as <-. cbn [gks gvs]. split.
  { eexists. split; [vm_compute; reflexivity|]. cbn. repeat constructor. }
  split.
  { see_cs; unfold cleanb; cbn; repeat split; intros; repeat match goal with H : _ \/ _ |- _ => destruct H end; try contradiction;
    try match goal with H : (_, _) = (_, _) |- _ => injection H as <- <- end; subst; discriminate. }
  split; [apply (one_width_of (fun z => if z =? 4 then 2 else 1)); vm_compute; reflexivity|].
  intros g i G Hi. vm_compute in G. injection G as <-. vm_compute in Hi. destruct Hi as [<-|[]].
  split; [right; cbn; eauto|left; reflexivity].
Qed.
Lemma m_runs : m_pkt m0 = Ok m_ends /\ m_pkt m1 = Ok m_out.
Proof. split; apply is_ok_list; vm_compute; reflexivity. Qed.
Lemma m_infer : m_next = Ok (Next [m1] m_lens) /\ infer_invariants bt cl_fold 5 no_guesses [0] [m1] m_out m_lens = Ok Fixpoint_.
Proof. split; [apply is_next1_next|apply is_fix_fix]; vm_compute; reflexivity. Qed.
Lemma m_lens_are : m_lens = [(0, [])]. Proof. vm_compute. reflexivity. Qed.
Lemma m_path1 : m_path m1 = Ok m_last.
Proof.
  assert (OK : forall x (d : sst), is_ok x = true -> x = Ok (match x with Ok z => z | _ => d end)) by (intros [z| |] d; cbn; congruence).
  apply OK. vm_compute. reflexivity.
Qed.
Lemma iterates_inv : forall infer d p d1 p1, iterates infer d p d1 p1 -> (d1 = d /\ p1 = p) \/
  exists results states p', runs d = Ok results /\ infer (map fst d) results p = Ok (Next states p') /\
    iterates infer (combine states (map snd d)) p' d1 p1.
Proof. intros infer d p d1 p1 H. destruct H as [d p|d p results states p' d2 p2 R I IT]; [left; auto|right; eauto 7]. Qed.
(** A search that relaxes once has two starting states. *)
Lemma well_started_two : forall s k fuel objs f x ends b lens out,
  f x = Ok ends -> infer_invariants s k fuel no_guesses objs [x] ends [] = Ok (Next [b] lens) ->
  f b = Ok out -> infer_invariants s k fuel no_guesses objs [b] out lens = Ok Fixpoint_ ->
  start objs x -> ends_ok objs x ends -> start objs b -> ends_ok objs b out -> (forall m o, ~ In o (bounds_of lens m)) ->
  forall y q, iterates (infer_invariants s k fuel no_guesses objs) [(x, f)] [] [(y, f)] q -> well_started s k fuel objs f y q.
Proof.
  intros s k fuel objs f x ends b lens out R0 I0 R1 I1 S0 E0 S1 E1 NB y q IT.
  destruct (iterates_inv _ _ _ _ _ IT) as [[E ->]|[results [states [p' [RR [II IT2]]]]]].
  - injection E as ->. intros l Hl. rewrite R0 in Hl. injection Hl as <-.
    split; [exact S0|]. split; [exact E0|]. intros z lens' Hy m o r Ho _. rewrite I0 in Hy. injection Hy as _ <-. destruct (NB m o Ho).
  - apply runs_one in RR. rewrite R0 in RR. injection RR as <-. cbn [map fst snd] in *. rewrite I0 in II. injection II as <- <-.
    cbn [combine] in IT2. destruct (iterates_inv _ _ _ _ _ IT2) as [[E ->]|[results [states [p' [RR [II IT3]]]]]].
    + injection E as ->. intros l Hl. rewrite R1 in Hl. injection Hl as <-.
      split; [exact S1|]. split; [exact E1|]. intros z lens' Hy. rewrite I1 in Hy. discriminate Hy.
    + exfalso. apply runs_one in RR. rewrite R1 in RR. injection RR as <-. cbn [map fst snd] in *. rewrite I1 in II. discriminate II.
Qed.
Lemma m_well_started : forall y q, iterates (infer_invariants bt cl_fold 5 no_guesses [0]) [(m0, m_pkt)] [] [(y, m_pkt)] q ->
  well_started bt cl_fold 5 [0] m_pkt y q.
Proof.
  destruct m_runs as [R0 R1]. destruct m_infer as [I0 I1].
  apply (well_started_two _ _ _ _ _ _ _ _ _ _ R0 I0 R1 I1 m_start0 m_ends0 m_start1 m_ends1).
  intros m o H. rewrite m_lens_are in H. destruct m; exact H.
Qed.

Lemma pair_ok : forall (x : res sst) z, x = Ok z -> x = Ok (fst z, snd z).
Proof. intros x [a b] H. exact H. Qed.
Lemma m_path2 : srun bt cl_fold 5 2 (packet_state m1 m_rs0 [1]) m_os = Ok (fst m_last, snd m_last).
Proof. exact (pair_ok _ _ m_path1). Qed.
Lemma last_end : forall (x : res sst) a, match x with Ok (st, _) => st | _ => a end = fst (match x with Ok z => z | _ => (a, []) end).
Proof. intros [[st rs]| |] a; reflexivity. Qed.
Lemma m_unf : stays_unfolded bt cl_fold 5 2 (packet_state m1 m_rs0 [1]) m_os.
Proof. vm_compute. repeat split; intros m g H; destruct m; try discriminate H; injection H as <-; repeat constructor. Qed.

(** The theorem's hypotheses hold, and two packets with field 1 can follow each other: the first does not find its key, the second does. *)
Example C144_example :
  srun bt cl_fold 5 2 (ginit 2 2, []) [OEmpty 0 1 1] = Ok (m0, m_rs0) /\ stays_unfolded bt cl_fold 5 2 (ginit 2 2, []) [OEmpty 0 1 1] /\
  iterates (infer_invariants bt cl_fold 5 no_guesses [0]) [(m0, m_pkt)] [] [(m0, m_pkt)] [] /\
  m_pkt m0 = Ok m_ends /\ infer_invariants bt cl_fold 5 no_guesses [0] [m0] m_ends [] = Ok (Next [m1] m_lens) /\
  m_pkt m1 = Ok m_out /\ infer_invariants bt cl_fold 5 no_guesses [0] [m1] m_out m_lens = Ok Fixpoint_ /\
  (forall y q, iterates (infer_invariants bt cl_fold 5 no_guesses [0]) [(m0, m_pkt)] [] [(y, m_pkt)] q -> well_started bt cl_fold 5 [0] m_pkt y q) /\
  (forall m, In m (changed [0] m0 m_ends) <-> In m (changed [0] m1 m_out)) /\
  exists cm0 cm1 cm2, crun env0 2 2 (fun _ => 0) (fun _ => None, []) [OEmpty 0 1 1] (cm0, [done]) /\
    (forall m c, cm0 m = Some c -> In m [0]) /\
    handled bt cl_fold 5 2 env0 2 m1 m_rs0 [done] (fun _ => 0) (changed [0] m0 m_ends) m_out (unreads cm0) (fst m_last) (snd m_last) cm1
      [done; (1, true); done; (0, false); done] /\
    handled bt cl_fold 5 2 env0 2 m1 m_rs0 [done] (fun _ => 0) (changed [0] m0 m_ends) m_out (unreads cm1) (fst m_last) (snd m_last) cm2
      [done; (1, true); done; (1, true); done].
Proof.
  destruct m_runs as [R0 R1]. destruct m_infer as [I0 I1].
  assert (CH : changed [0] m0 m_ends = [0] /\ changed [0] m1 m_out = [0]) by (split; vm_compute; reflexivity). destruct CH as [CH1 CH2].
  rewrite CH1, CH2.
  split; [vm_compute; reflexivity|].
  split. { vm_compute. repeat split; intros m g H; destruct m; try discriminate H; injection H as <-; repeat constructor. }
  split; [apply it_here|]. split; [exact R0|]. split; [exact I0|].
  split; [exact R1|]. split; [exact I1|]. split; [exact m_well_started|]. split; [tauto|].
  assert (OUT : In (fst m_last) m_out).
  { rewrite (proj2 m_ends_are). left. exact (last_end (m_path m1) m1). }
  do 3 eexists. split.
  { eapply crun_cons; [vm_compute; reflexivity| |apply crun_nil].
    apply (c_empty _ _ _ _ [] 0 1 1 (fun _ => (0, false))); intros; reflexivity. }
  split.
  { intros m c Hc. unfold upd in Hc. destruct (N.eqb_spec m 0) as [->|NE]; [left; reflexivity|discriminate]. }
  split.
  - exists [1], [(1, true)], m_os, (fun _ => 0). split; [repeat constructor|]. split; [reflexivity|].
    split; [exact m_path2|]. split; [exact m_unf|]. split; [exact OUT|]. split; [intros; reflexivity|].
    split. { intros m c [<-|[]] Hc. injection Hc as <-. reflexivity. }
    eapply crun_cons; [exact I|apply c_assume; reflexivity|].
    eapply crun_cons; [exact I|eapply c_get; reflexivity|].
    eapply crun_cons; [vm_compute; discriminate|eapply c_set; try reflexivity|]. apply crun_nil.
  - exists [1], [(1, true)], m_os, (fun _ => 0). split; [repeat constructor|]. split; [reflexivity|].
    split; [exact m_path2|]. split; [exact m_unf|]. split; [exact OUT|]. split; [intros; reflexivity|].
    split. { intros m c [<-|[]] Hc. injection Hc as <-. reflexivity. }
    eapply crun_cons; [exact I|apply c_assume; reflexivity|].
    eapply crun_cons; [exact I|eapply c_get; reflexivity|].
    eapply crun_cons; [vm_compute; discriminate|eapply c_set; try reflexivity|]. apply crun_nil.
Qed.

(** Missing, and false in general: a cell written at start-up. The program allocates one cell (an array of length 1), and sets it to 0;
    each packet adds 1 to it. Values so written satisfy the array's invariant (its keys are below its length), so the search
    stops at once, with the state start-up left, in which the cell is 0: the only value packets are explored with. A real second
    packet finds 1. *)
Definition cell_key := BVV 2 0.
Definition cell0 : gst := get_st
  (do a <- new_array bt cl_fold 5 (ginit 2 2) 0 2 2 (LBv (BVV 2 1)); set_ bt cl_fold 5 a 0 cell_key (BVV 2 0)).
Definition cell_pkt : handler := fun st =>
  do (a, r) <- get bt cl_fold 5 st 0 cell_key None BTrue None;
  do b <- set_ bt cl_fold 5 a 0 cell_key (BvAdd (fst r) (BVV 2 1)); Ok [b].
Definition cell_out := ok_list (cell_pkt cell0).
Definition cell_read := get bt cl_fold 5 cell0 0 cell_key None BTrue None.
Theorem C144_start_up_writes_refuted :
  exists out,
    find_fixedpoint bt cl_fold 5 no_guess 3 [0] [(cell0, cell_pkt)] [] = Ok out /\
    infer_invariants bt cl_fold 5 no_guess [0] [cell0] out [] = Ok Fixpoint_ /\
    (exists st1 v1 p1, get bt cl_fold 5 cell0 0 cell_key None BTrue None = Ok (st1, (v1, p1)) /\
       forall r, holds r (gcs st1) -> eb r (BEq v1 (BVV 2 0)) = true) /\
    (exists cm, crun env0 2 2 (fun _ => 1) (fun _ => None, [])
       ([OArray 0 2 2 (LBv (BVV 2 1)); OSet 0 cell_key (BVV 2 0)] ++
        [OGet 0 cell_key; OSet 0 cell_key (BvAdd (BVS 2 4) (BVV 2 1))] ++ [OGet 0 cell_key])
       (cm, [done; done; (0, true); done; (1, true)])).
Proof.
  assert (R : runs [(cell0, cell_pkt)] = Ok cell_out) by (apply runs1; apply is_ok_list; vm_compute; reflexivity).
  assert (S : infer_invariants bt cl_fold 5 no_guess [0] [cell0] cell_out [] = Ok Fixpoint_) by (apply is_fix_fix; vm_compute; reflexivity).
  exists cell_out. split; [exact (find_last _ _ _ _ _ _ _ _ _ _ R S)|]. split; [exact S|]. split.
  - exists (rd_st cell_read), (rd_v cell_read), (rd_p cell_read).
    split; [exact (rd_ok cell_read ltac:(vm_compute; reflexivity))|].
    apply (definitely_true_spec bt bt_ok). vm_compute. reflexivity.
  - eexists. cbn [app].
    eapply crun_cons; [vm_compute; reflexivity|apply (c_array_bv _ _ _ _ _ 0 2 2 (BVV 2 1) (fun q => (0, q <? 1))); intros; reflexivity|].
    eapply crun_cons; [vm_compute; discriminate|eapply c_set; reflexivity|].
    eapply crun_cons; [exact I|eapply c_get; reflexivity|].
    eapply crun_cons; [vm_compute; discriminate|eapply c_set; reflexivity|].
    eapply crun_cons; [exact I|eapply c_get; reflexivity|]. apply crun_nil.
Qed.
Print Assumptions C144_start_up_writes_refuted.

(** Missing, and false in general: bounds on lengths. Whether one map is at most as long as another is only tried on the states packets
    leave, not on the state they start from. Here start-up leaves an array of one element and an empty map; a packet
    that finds the element, and room in the map, moves it. The array is then never longer than the map, so the search assumes it of the
    states packets start from, and stops: the packets in its result all start with an array no longer than the map, which is not what
    start-up leaves. *)
Definition mv_key := BVV 1 0.
Definition mv0 : gst := get_st (do a <- new_array bt cl_fold 5 (ginit 2 2) 0 1 1 (LInt 1); map_new bt cl_fold 5 a 1 1 1 None).
Definition mv_pkt : handler := fun st =>
  do (st1, r) <- get bt cl_fold 5 st 0 mv_key None BTrue None;
  do a <- remove bt cl_fold 5 (add_cs st1 [snd r; BUlt (len_of st1 1) (BVV 2 2)]) 0 mv_key;
  do b <- set_ bt cl_fold 5 a 1 mv_key (BVV 1 0); Ok [b].
Definition mv_ends := ok_list (mv_pkt mv0).
Notation mv_next := (infer_invariants bt cl_fold 5 no_guess [0; 1] [mv0] mv_ends []).
Definition mv1 := next_start mv_next.
Definition mv_lens := next_prev mv_next.
Definition mv_out := ok_list (mv_pkt mv1).
Lemma ule_le : forall cs a b, definitely_true bt cs (BUle a b) = true -> forall r, holds r cs -> ev r a <= ev r b.
Proof. intros cs a b H r Hr. pose proof (proj1 (definitely_true_spec bt bt_ok cs _) H r Hr) as L. cbn in L. apply N.leb_le in L. exact L. Qed.
Theorem C144_first_packet_refuted :
  exists b lens out,
    find_fixedpoint bt cl_fold 5 no_guess 3 [0; 1] [(mv0, mv_pkt)] [] = Ok out /\
    iterates (infer_invariants bt cl_fold 5 no_guess [0; 1]) [(mv0, mv_pkt)] [] [(b, mv_pkt)] lens /\ mv_pkt b = Ok out /\
    (forall st r, In st out -> holds r (gcs st) -> ev r (len_of b 0) <= ev r (len_of b 1)) /\
    srun bt cl_fold 5 2 (ginit 2 2, []) [OArray 0 1 1 (LInt 1); OEmpty 1 1 1] = Ok (mv0, [sdone; sdone]) /\
    (exists cm c d, crun env0 2 2 (fun _ => 1) (fun _ => None, []) [OArray 0 1 1 (LInt 1); OEmpty 1 1 1] (cm, [done; done]) /\
       cm 0 = Some c /\ csize c = 1 /\ cm 1 = Some d /\ csize d = 0).
Proof.
  assert (R0 : mv_pkt mv0 = Ok mv_ends) by (apply is_ok_list; vm_compute; reflexivity).
  assert (R1 : mv_pkt mv1 = Ok mv_out) by (apply is_ok_list; vm_compute; reflexivity).
  assert (S0 : mv_next = Ok (Next [mv1] mv_lens)) by (apply is_next1_next; vm_compute; reflexivity).
  assert (S1 : infer_invariants bt cl_fold 5 no_guess [0; 1] [mv1] mv_out mv_lens = Ok Fixpoint_) by (apply is_fix_fix; vm_compute; reflexivity).
  destruct (search1 _ _ _ _ _ _ _ _ _ _ _ _ (runs1 _ _ _ R0) (runs1 _ _ _ R1) S0 S1) as [F IT].
  exists mv1, mv_lens, mv_out. split; [exact F|]. split; [exact IT|]. split; [exact R1|]. split.
  { intros st r Hst Hr.
    assert (A : forallb (fun st => definitely_true bt (gcs st) (BUle (len_of mv1 0) (len_of mv1 1))) mv_out = true) by (vm_compute; reflexivity).
    rewrite forallb_forall in A. exact (ule_le _ _ _ (A st Hst) r Hr). }
  split; [vm_compute; reflexivity|].
  do 3 eexists. split.
  - eapply crun_cons; [vm_compute; reflexivity|apply (c_array_int _ _ _ _ _ 0 1 1 1 (fun q => (0, q <? 1))); intros; reflexivity|].
    eapply crun_cons; [vm_compute; reflexivity|apply (c_empty _ _ _ _ _ 1 1 1 (fun _ => (0, false))); intros; reflexivity|]. apply crun_nil.
  - repeat split; reflexivity.
Qed.
Print Assumptions C144_first_packet_refuted.

(** ** C74: guessed invariants *)

(** C74, part: an invariant that was guessed and kept holds of what a packet that wrote the map left in it, for every real execution of that
    path. Missing: guesses that look up other maps. [witnessed]: as in C16, a predicate that is false of the contents is false of a
    key that was accessed, or of the arbitrary key [uk m] that was not. *)
Theorem C74_kept_guesses_hold_partial : forall s k fuel guesses, solver_ok s -> claripy_ok k ->
  forall m relevant anc states l states', get_items_invariants s k fuel guesses m relevant states anc = Ok (l, states') ->
  forall nin inp sz uk os st rs cm cr c, 2 <= nin -> In st states -> changed_in m anc st = true ->
  srun s k fuel nin (ginit nin sz, []) os = Ok (st, rs) -> stays_unfolded s k fuel nin (ginit nin sz, []) os ->
  crun inp nin sz uk (fun _ => None, []) os (cm, cr) -> cm m = Some c ->
  (forall p, In p (guesses m relevant (filter (changed_in m anc) states)) ->
     nolkb p = true /\ kv_sized (cks c) (cvs c) p = true /\ below nin p /\ witnessed inp c (uk m) p) ->
  forall p, In p l -> forall q, q < 2 ^ cks c -> snd (ccont c q) = true -> holds_at inp (ccont c) p q.
Proof.
  intros s k fuel guesses SOK KOK m relevant anc states l states' GI nin inp sz uk os st rs cm cr c NIN Hst CH H U C Hc G p Hp q Q1 Q2.
  destruct (hsim_run s k fuel nin inp sz uk SOK KOK NIN os inp (ginit nin sz) [] (fun _ => None) [] st rs cm cr) as [r [S I LN R Z]]; auto.
  { constructor; [constructor; cbn; auto; intros z []|apply eqbelow_refl|cbn; lia|constructor|reflexivity]. }
  destruct (In_nth_error _ _ Hst) as [j NE]. unfold get_items_invariants in GI.
  assert (IV : forall p, In p (guesses m relevant (filter (changed_in m anc) states)) -> invok (cks c) (cvs c) nin p).
  { intros p' Hp'. destruct (G p' Hp') as [G1 [G2 [G3 _]]]. split; [exact G1|]. split; [exact G2|apply below_depb; exact G3]. }
  assert (HR : holds_at r (ccont c) p q).
  { eapply keep_true_holds; eauto. intros p' Hp'. destruct (IV p' Hp') as [I1 [I2 I3]]. split.
    - split; [exact I1|]. split; [exact I2|]. eapply depb_le; eauto.
    - eapply witnessed_eq; [exact I|exact (IV p' Hp')|apply G; exact Hp']. }
  destruct (IV p (keep_true_incl _ _ _ _ _ _ _ _ _ GI p Hp)) as [_ [_ D]]. unfold holds_at in *.
  rewrite (D _ _ (setKVP_eqbelow nin inp r q (ccont c q) I)). exact HR.
Qed.
Print Assumptions C74_kept_guesses_hold_partial.
(** Two guesses, of which one is kept: values are 1, keys are 0. *)
Definition g_os : list op := [OEmpty 0 1 1; OSet 0 (BVV 1 1) (BVV 1 1)].
Definition g_val := BEq (VALUE 1) (BVV 1 1).
Definition g_key := BEq (KEY 1) (BVV 1 0).
Definition g_guess (_ : N) (_ : list N) (_ : list gst) : list bexp := [g_val; g_key].
Definition g_run := srun bt cl_fold 5 2 (ginit 2 2, []) g_os.
Definition g_end : sst := match g_run with Ok z => z | _ => (ginit 2 2, []) end.
Example C74_guess_example : exists states' cm c,
  get_items_invariants bt cl_fold 5 g_guess 0 [0] [fst g_end] m0 = Ok ([g_val], states') /\
  changed_in 0 m0 (fst g_end) = true /\ g_run = Ok g_end /\ stays_unfolded bt cl_fold 5 2 (ginit 2 2, []) g_os /\
  crun env0 2 2 (fun _ => 0) (fun _ => None, []) g_os (cm, [done; done]) /\ cm 0 = Some c /\
  (forall p, In p [g_val; g_key] -> nolkb p = true /\ kv_sized (cks c) (cvs c) p = true /\ below 2 p /\ witnessed env0 c 0 p) /\
  ~ (forall q, q < 2 ^ cks c -> snd (ccont c q) = true -> holds_at env0 (ccont c) g_key q).
Proof.
  assert (OK : forall x : res (list bexp * list gst), match x with Ok (l, _) => l = [g_val] | _ => False end -> exists y, x = Ok ([g_val], y))
    by (intros [[l y]| |] H; [subst l; eauto|destruct H|destruct H]).
  destruct (OK (get_items_invariants bt cl_fold 5 g_guess 0 [0] [fst g_end] m0)) as [states' HG]; [vm_compute; reflexivity|].
  exists states'. do 2 eexists. split; [exact HG|]. split; [vm_compute; reflexivity|]. split; [vm_compute; reflexivity|].
  split. { vm_compute. repeat split; intros m g H; destruct m; try discriminate H; injection H as <-; repeat constructor. }
  split.
  { eapply crun_cons; [vm_compute; reflexivity|apply (c_empty _ _ _ _ [] 0 1 1 (fun _ => (0, false))); intros; reflexivity|].
    eapply crun_cons; [vm_compute; discriminate|eapply c_set; reflexivity|]. apply crun_nil. }
  split; [reflexivity|]. split.
  - intros p [<-|[<-|[]]]; (split; [reflexivity|]; split; [reflexivity|]; split; [split; intros z Hz; vm_compute in Hz; see_names|]).
    + left. intros q Q1 Q2. clear HG OK. unfold holds_at. cbn [ccont] in Q2 |- *. unfold upd in Q2 |- *. destruct (q =? _); [reflexivity|discriminate Q2].
    + right. exists 1. split; [reflexivity|]. split; [left; left; reflexivity|]. split; [reflexivity|]. vm_compute. discriminate.
  - intros H. specialize (H 1 eq_refl eq_refl). vm_compute in H. discriminate H.
Qed.
