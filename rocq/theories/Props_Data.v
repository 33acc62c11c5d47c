(** Property theorems C149: comparing the transmitted packet's contents with the received packet's. *)

From Coq Require Import NArith List Bool Lia Arith.
From Verif Require Import Expr Solver KMerge Wt GhostMap GhostSpec GhostFacts GhostReal GhostFold GhostOld GhostDemo DataEq.
Import ListNotations.
Open Scope N_scope.

(** For all runs that write the packet at constant offsets only (whatever else they do, on this map or others), all solvers, and all constant
    offsets: wherever the comparison is true, a byte that the packet has now was in the received packet, with the same value.  (The length of
    the received packet is not the constant 0.)  Missing: writes at computed offsets; and the converse, which is false (below). *)
Theorem C149_only_unchanged_partial : forall s k, solver_ok s ->
  forall fuel nin sz os st m g st1 t key st2 v p st3 v0 p0 r,
  steps s k fuel (ginit nin sz) os st -> const_writes m os -> gmaps st m = Some g -> glen g <> BVV (width (glen g)) 0 ->
  data_eq s k fuel st m = Ok (st1, t) -> literal key ->
  get s k fuel st1 m key None BTrue None = Ok (st2, (v, p)) -> get s k fuel st2 m key None BTrue (Some O) = Ok (st3, (v0, p0)) ->
  holds r (gcs st3) -> eb r t = true -> eb r p = true -> eb r p0 = true /\ ev r v0 = ev r v.
Proof.
  intros s k SOK fuel nin sz os st m g st1 t key st2 v p st3 v0 p0 r H1 H2 H3 H4 H5 H6 H7 H8 H9 H10 H11.
  eapply (only_unchanged s k SOK fuel nin sz os st m g st1 t key st2 v p st3 v0 p0 r); eauto.
  unfold is_definitely_empty, len_at, version. rewrite skipn_all. apply bv_eqb_neq. exact H4.
Qed.
Print Assumptions C149_only_unchanged_partial.
(** And the lengths are the same. *)
Theorem C149_same_length : forall s k fuel st m g st1 t r,
  gmaps st m = Some g -> data_eq s k fuel st m = Ok (st1, t) -> eb r t = true -> ev r (len_at g 0) = ev r (glen g).
Proof.
  intros s k fuel st m g st1 t r E D T. unfold data_eq in D. rewrite E in D.
  assert (Q : exists b, t = BAnd (BEq (len_at g 0) (glen g)) b).
  { destruct (is_definitely_empty g 0); [injection D as _ <-; eauto|]. destruct (known_items g 0) as [kn g1].
    destruct (inv_items _ _ _ _ _ _ _ _) as [[sa rs]| |]; try discriminate D. cbn [bindr] in D. destruct (is_not_overfull s k sa m 0) as [sb fits].
    destruct (inv_call _ _ _ _ _ _ _ _ _) as [[sc u]| |]; try discriminate D. cbn [bindr] in D. destruct (add_inv _ _ _ _ _ _) as [sd| |]; try discriminate D.
    injection D as _ <-. eauto. }
  destruct Q as [b ->]. cbn in T. apply andb_prop in T as [T _]. apply N.eqb_eq in T. exact T.
Qed.
Print Assumptions C149_same_length.

(** A packet of 4 bytes (of one bit each); its first byte is read and replaced by the input [x].  The comparison is true for the inputs in which
    that changes nothing, and only for these. *)
Definition q0 := BVV 2 0. Definition q1 := BVV 2 1. Definition q2 := BVV 2 2. Definition q3 := BVV 2 3.
Definition ex_packet : res gst := map_new bf cl_fold 3 (ginit 4 3) 0 2 1 (Some (BVV 3 4, [PRESENT])).
Definition ex_written : res (gst * bv) :=
  do a <- ex_packet; do (b, r0) <- get bf cl_fold 3 a 0 q0 None BTrue None; do c <- set_ bf cl_fold 3 b 0 q0 x; Ok (c, fst r0).
Definition acts := [ANew 0; AGet 0 q0; ASet 0 q0 x].
Lemma q0_literal : literal q0. Proof. exists 2, 0. split; reflexivity. Qed.
Lemma q1_literal : literal q1. Proof. exists 2, 1. split; reflexivity. Qed.
Lemma q2_literal : literal q2. Proof. exists 2, 2. split; reflexivity. Qed.
Example C149_example : exists st orig st1 t st2 v p st3 v0 p0,
  ex_written = Ok (st, orig) /\ steps bf cl_fold 3 (ginit 4 3) acts st /\ const_writes 0 acts /\
  data_eq bf cl_fold 3 st 0 = Ok (st1, t) /\
  get bf cl_fold 3 st1 0 q0 None BTrue None = Ok (st2, (v, p)) /\ get bf cl_fold 3 st2 0 q0 None BTrue (Some O) = Ok (st3, (v0, p0)) /\
  v = x /\ v0 = orig /\
  can_be_true bf (gcs st3) t = true /\ can_be_false bf (gcs st3) t = true /\
  definitely_true bf (gcs st3) (BIff t (BEq x orig)) = true.
Proof.
  do 10 eexists. split; [vm_compute; reflexivity|]. split.
  { eapply steps_cons; [eapply s_new with (ks := 2) (vs := 1) (spec := Some (BVV 3 4, [PRESENT])); vm_compute; reflexivity|].
    eapply steps_cons; [eapply s_get with (cval := None) (cond := BTrue) (ver := None); vm_compute; reflexivity|].
    eapply steps_cons; [eapply s_set; try (vm_compute; reflexivity); intros _; exact q0_literal|]. apply steps_nil. }
  split; [intros o [<-|[<-|[<-|[]]]]; auto using q0_literal|].
  split; [vm_compute; reflexivity|]. split; [vm_compute; reflexivity|]. split; [vm_compute; reflexivity|]. repeat split; vm_compute; reflexivity.
Qed.

(** For all runs that did not write the packet: the comparison is true, and assumes nothing (the constraints it adds are satisfied by making its
    own fresh symbol true). *)
Theorem C149_unwritten_partial : forall s k, solver_ok s ->
  forall fuel nin sz os st m g st1 t,
  steps s k fuel (ginit nin sz) os st -> gmaps st m = Some g -> glayers g = [] -> data_eq s k fuel st m = Ok (st1, t) ->
  (forall r, holds r (gcs st1) -> eb r t = true) /\
  exists cs, gcs st1 = gcs st ++ cs /\ forall r, holds r (gcs st) -> ebool r (gnext st) = true -> holds r cs.
Proof. exact unwritten_equal. Qed.
Print Assumptions C149_unwritten_partial.
Example C149_unwritten_example : exists os st g st1 t,
  steps bf cl_fold 3 (ginit 4 3) os st /\ gmaps st 0 = Some g /\ glayers g = [] /\ length (gitems g) = 2%nat /\
  data_eq bf cl_fold 3 st 0 = Ok (st1, t) /\ can_be_true bf (gcs st1) t = true.
Proof.
  exists [ANew 0; AGet 0 q0; AGet 0 q1].
  assert (H : match ex_packet with Ok a => match get bf cl_fold 3 a 0 q0 None BTrue None with Ok (b, _) => match get bf cl_fold 3 b 0 q1 None BTrue None with Ok (c, _) =>
    match gmaps c 0 with Some g => match data_eq bf cl_fold 3 c 0 with Ok (i, t) =>
      (length (glayers g) =? 0)%nat && (length (gitems g) =? 2)%nat && can_be_true bf (gcs i) t | _ => false end | None => false end
    | _ => false end | _ => false end | _ => false end = true) by (vm_compute; reflexivity).
  destruct ex_packet as [a| |] eqn:A; try discriminate H. destruct (get _ _ _ a 0 q0 None BTrue None) as [[b vb]| |] eqn:B; try discriminate H.
  destruct (get _ _ _ b 0 q1 None BTrue None) as [[c vc]| |] eqn:C; try discriminate H. destruct (gmaps c 0) as [g|] eqn:G; try discriminate H.
  destruct (data_eq bf cl_fold 3 c 0) as [[i t]| |] eqn:D; try discriminate H. apply andb_prop in H as [H H3]. apply andb_prop in H as [H1 H2].
  apply Nat.eqb_eq in H1, H2. exists c, g, i, t. split.
  { eapply steps_cons; [eapply s_new; [reflexivity|exact A]|]. eapply steps_cons; [eapply s_get; exact B|]. eapply steps_cons; [eapply s_get; exact C|]. apply steps_nil. }
  repeat split; auto. destruct (glayers g); [reflexivity|discriminate].
Qed.

(** The converse is false: bytes 0 and 1 are changed, then byte 1 is put back, byte 2 is read, and byte 0 is put back.  Every byte is what it
    was, in all executions, and the comparison is false in all of them: the layer of the last two writes still remembers the changed byte 0. *)
Definition inc (v : bv) := BvAdd v (BVV 1 1).
Definition ex_restored : res gst :=
  do a <- ex_packet;
  do (b, r0) <- get bf cl_fold 3 a 0 q0 None BTrue None;
  do (c, r1) <- get bf cl_fold 3 b 0 q1 None BTrue None;
  do d <- set_ bf cl_fold 3 c 0 q0 (inc (fst r0));
  do e <- set_ bf cl_fold 3 d 0 q1 (inc (fst r1));
  do f <- set_ bf cl_fold 3 e 0 q1 (fst r1);
  do (g, r2) <- get bf cl_fold 3 f 0 q2 None BTrue None;
  set_ bf cl_fold 3 g 0 q0 (fst r0).
Theorem C149_restored_refuted : exists os st st1 t,
  ex_restored = Ok st /\ steps bf cl_fold 3 (ginit 4 3) os st /\ const_writes 0 os /\ data_eq bf cl_fold 3 st 0 = Ok (st1, t) /\
  (forall key, In key [q0; q1; q2; q3] -> exists st2 v p st3 v0 p0,
     get bf cl_fold 3 st1 0 key None BTrue None = Ok (st2, (v, p)) /\ get bf cl_fold 3 st2 0 key None BTrue (Some O) = Ok (st3, (v0, p0)) /\
     (exists r, holds r (gcs st3)) /\ forall r, holds r (gcs st3) -> eb r p = true /\ eb r p0 = true /\ ev r v = ev r v0) /\
  forall r, holds r (gcs st1) -> eb r t = false.
Proof.
  exists [ANew 0; AGet 0 q0; AGet 0 q1; ASet 0 q0 (inc (BVS 1 6)); ASet 0 q1 (inc (BVS 1 7)); ASet 0 q1 (BVS 1 7); AGet 0 q2; ASet 0 q0 (BVS 1 6)].
  do 3 eexists. split; [vm_compute; reflexivity|]. split.
  { eapply steps_cons; [eapply s_new with (ks := 2) (vs := 1) (spec := Some (BVV 3 4, [PRESENT])); vm_compute; reflexivity|].
    eapply steps_cons; [eapply s_get with (cval := None) (cond := BTrue) (ver := None); vm_compute; reflexivity|].
    eapply steps_cons; [eapply s_get with (cval := None) (cond := BTrue) (ver := None); vm_compute; reflexivity|].
    eapply steps_cons; [eapply s_set; try (vm_compute; reflexivity); intros _; exact q0_literal|].
    eapply steps_cons; [eapply s_set; try (vm_compute; reflexivity); intros _; exact q1_literal|].
    eapply steps_cons; [eapply s_set; try (vm_compute; reflexivity); intros _; exact q1_literal|].
    eapply steps_cons; [eapply s_get with (cval := None) (cond := BTrue) (ver := None); vm_compute; reflexivity|].
    eapply steps_cons; [eapply s_set; try (vm_compute; reflexivity); intros _; exact q0_literal|]. apply steps_nil. }
  split.
  { intros o O. repeat (destruct O as [<-|O]; [auto using q0_literal, q1_literal|]). destruct O. }
  split; [vm_compute; reflexivity|]. split.
  - intros key KI.
    assert (Q : forall st3 v p v0 p0, sat bf (gcs st3) = true -> definitely_true bf (gcs st3) (BAnd p (BAnd p0 (BEq v v0))) = true ->
      (exists r, holds r (gcs st3)) /\ forall r, holds r (gcs st3) -> eb r p = true /\ eb r p0 = true /\ ev r v = ev r v0).
    { intros st3 v p v0 p0 S D. split; [apply (proj1 bf_ok); exact S|]. intros r Hr. pose proof (proj1 (definitely_true_spec bf bf_ok _ _) D r Hr) as X. cbn in X.
      apply andb_prop in X as [X1 X]. apply andb_prop in X as [X2 X]. apply N.eqb_eq in X. auto. }
    destruct KI as [<-|[<-|[<-|[<-|[]]]]]; do 6 eexists; (split; [vm_compute; reflexivity|]); (split; [vm_compute; reflexivity|]); apply Q; vm_compute; reflexivity.
  - assert (Q : forall cs t, definitely_true bf cs (BNot t) = true -> forall r, holds r cs -> eb r t = false).
    { intros cs t D r Hr. pose proof (proj1 (definitely_true_spec bf bf_ok _ _) D r Hr) as X. cbn in X. apply negb_true_iff in X. exact X. }
    apply Q. vm_compute. reflexivity.
Qed.
Print Assumptions C149_restored_refuted.
