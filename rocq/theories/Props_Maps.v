(** Property theorems C16-C30 (ghost maps). The specification of real maps and
    histories is in GhostSpec.v, that of runs and their consistent assignments in
    GhostTrace.v. *)

From Coq Require Import NArith List Bool Lia.
From Verif Require Import Expr Solver KMerge Wt GhostMap GhostSpec GhostFacts GhostSim GhostHist GhostTrace GhostUse GhostMerge GhostMergeSim GhostFold GhostOld GhostArr GhostPres Bt GhostDemo.
Import ListNotations.
Open Scope N_scope.

(** C16: every concrete execution of a history on real maps is described by an
    assignment that satisfies all the constraints the engine added and gives every
    result, and every length, the concrete value. Missing: histories in which writes of
    constants are folded into one layer (see C27), lookups nested in predicates, and
    executions in which a predicate is refuted only by an unread key other than the
    generic one (see C22). *)
Theorem C16_history_described_partial : forall s k fuel nin inp sz uk,
  solver_ok s -> claripy_ok k -> 2 <= nin ->
  forall os st rs cm cr,
  srun s k fuel nin (ginit nin sz, []) os = Ok (st, rs) ->
  stays_unfolded s k fuel nin (ginit nin sz, []) os ->
  crun inp nin sz uk (fun _ => None, []) os (cm, cr) ->
  exists r, (forall v, v < nin -> ebv r v = ebv inp v /\ ebool r v = ebool inp v) /\
    holds r (gcs st) /\
    Forall2 (fun a b => (ev r (fst a), eb r (snd a)) = b) rs cr /\
    (forall m c, cm m = Some c -> exists g, gmaps st m = Some g /\ ev r (len_at g 0) = csize c).
Proof.
  intros s k fuel nin inp sz uk SOK KOK NX os st rs cm cr HS HU HC.
  destruct (history _ _ _ _ _ _ _ SOK KOK NX _ _ _ _ _ HS HU HC) as [r [EB H]]. exists r. split; [|exact H].
  intros v Hv. destruct (EB v Hv). auto.
Qed.
Print Assumptions C16_history_described_partial.

(** Hence what the engine calls definitely true is true of every concrete execution. *)
Theorem C16_definitely_true_is_true_partial : forall s k fuel nin inp sz uk,
  solver_ok s -> claripy_ok k -> 2 <= nin ->
  forall os st rs cm cr n t,
  srun s k fuel nin (ginit nin sz, []) os = Ok (st, rs) ->
  stays_unfolded s k fuel nin (ginit nin sz, []) os ->
  crun inp nin sz uk (fun _ => None, []) os (cm, cr) ->
  nth_error rs n = Some t ->
  (definitely_true s (gcs st) (snd t) = true -> exists v, nth_error cr n = Some (v, true)) /\
  (definitely_true s (gcs st) (BNot (snd t)) = true -> exists v, nth_error cr n = Some (v, false)) /\
  (forall w c, definitely_true s (gcs st) (BEq (fst t) (BVV w c)) = true -> exists p, nth_error cr n = Some (wrap w c, p)).
Proof.
  intros s k fuel nin inp sz uk SOK KOK NX os st rs cm cr n t HS HU HC HN.
  destruct (history _ _ _ _ _ _ _ SOK KOK NX _ _ _ _ _ HS HU HC) as [r [_ [HR [F _]]]].
  assert (X : nth_error cr n = Some (ev r (fst t), eb r (snd t))).
  { clear -F HN. revert n HN. induction F as [|a b la lb E F IH]; intros [|n] HN; try discriminate HN; cbn in *.
    - injection HN as ->. congruence.
    - auto. }
  rewrite X. split; [|split].
  - intros D. rewrite (definitely_true_spec s SOK) in D. rewrite (D r HR). eauto.
  - intros D. rewrite (definitely_true_spec s SOK) in D. specialize (D r HR). cbn [evalb] in D.
    destruct (eb r (snd t)); [discriminate|eauto].
  - intros w c D. rewrite (definitely_true_spec s SOK) in D. specialize (D r HR). cbn [evalb] in D.
    apply N.eqb_eq in D. rewrite D. eauto.
Qed.
Print Assumptions C16_definitely_true_is_true_partial.

Example C16_example : exists st rs, srun bf cl_fold 3 4 (ginit 4 3, []) hist = Ok (st, rs) /\
  stays_unfolded bf cl_fold 3 4 (ginit 4 3, []) hist /\
  exists cm, crun hist_in 4 3 (fun _ => 0) (fun _ => None, []) hist (cm, [done; (1, true); done; (0, true); (0, false)]).
Proof. exact hist_runs. Qed.

(** An execution the constraints exclude: the map {1 -> 1} refutes "no key is 1", the
    key [x] = 1 is read, written, and then read again as [y]. The generic item that the
    false predicate pins to the key 1 keeps the old value, which no later read of the
    key 1 can differ from. *)
Theorem C16_refuting_key_written_refuted :
  let not1 := BNot (BEq (KEY 1) (BVV 1 1)) in
  let os := [ONew 0 1 1 (BVV 3 1) []; OForall 0 not1; OGet 0 x; OSet 0 x (BVV 1 0); OGet 0 y] in
  let inp := mkEnv (fun _ => 1) (fun _ => false) in
  exists st rs c1 c2 c3 c4,
  srun bt cl_fold 3 4 (ginit 4 3, []) os = Ok (st, rs) /\
  stays_unfolded bt cl_fold 3 4 (ginit 4 3, []) os /\
  (* a concrete execution *)
  cstep inp 4 3 (fun _ => None, []) (ONew 0 1 1 (BVV 3 1) []) (c1, [done]) /\
  cstep inp 4 3 (c1, [done]) (OForall 0 not1) (c1, [done; (0, false)]) /\
  cstep inp 4 3 (c1, [done; (0, false)]) (OGet 0 x) (c2, [done; (0, false); (1, true)]) /\
  cstep inp 4 3 (c2, [done; (0, false); (1, true)]) (OSet 0 x (BVV 1 0)) (c3, [done; (0, false); (1, true); done]) /\
  cstep inp 4 3 (c3, [done; (0, false); (1, true); done]) (OGet 0 y) (c4, [done; (0, false); (1, true); done; (0, true)]) /\
  (* that no assignment describes *)
  ~ exists r, (forall v, v < 4 -> ebv r v = ebv inp v) /\ holds r (gcs st) /\
      Forall2 (fun a b => (ev r (fst a), eb r (snd a)) = b) rs [done; (0, false); (1, true); done; (0, true)].
Proof.
  intros not1 os inp. do 2 eexists.
  pose (C := fun q => if q =? 1 then (1, true) else (0, false)).
  pose (m1 := mkC 1 1 3 C 1 []). pose (m2 := mkC 1 1 3 C 1 [1]).
  pose (m3 := mkC 1 1 3 (upd C 1 (0, true)) 1 [1; 1]). pose (m4 := mkC 1 1 3 (upd C 1 (0, true)) 1 [1; 1; 1]).
  exists (upd (fun _ => None) 0 (Some m1)), (upd (upd (fun _ => None) 0 (Some m1)) 0 (Some m2)).
  exists (upd (upd (upd (fun _ => None) 0 (Some m1)) 0 (Some m2)) 0 (Some m3)).
  exists (upd (upd (upd (upd (fun _ => None) 0 (Some m1)) 0 (Some m2)) 0 (Some m3)) 0 (Some m4)).
  split; [vm_compute; reflexivity|]. split.
  { vm_compute. repeat split; intros m g H; destruct m; try discriminate H; injection H as <-; repeat constructor. }
  split.
  { apply (c_new inp 4 3 (fun _ => None) [] 0 1 1 (BVV 3 1) [] C).
    - intros q. unfold C. destruct (q =? 1); reflexivity.
    - exists [1]. split; [repeat constructor; intros []|]. split; [|reflexivity]. intros q. split.
      + intros [<-|[]]. split; reflexivity.
      + unfold C. intros [_ H]. destruct (N.eqb_spec q 1) as [E|NE]; [left; symmetry; exact E|discriminate H].
    - intros p [].
    - intros p []. }
  split.
  { eapply (c_forall inp 4 3 _ [done] _ _ _ false); [reflexivity|reflexivity|]. split; [discriminate|].
    intros H. specialize (H 1 eq_refl eq_refl). vm_compute in H. discriminate H. }
  split; [exact (c_get inp 4 3 _ [done; (0, false)] 0 x m1 eq_refl eq_refl)|].
  split; [exact (c_set inp 4 3 _ [done; (0, false); (1, true)] 0 x (BVV 1 0) m2 eq_refl eq_refl eq_refl eq_refl)|].
  split; [exact (c_get inp 4 3 _ [done; (0, false); (1, true); done] 0 y m3 eq_refl eq_refl)|].
  intros [r [Hi [Hr F]]].
  pose proof (Hi 2 eq_refl) as X. pose proof (Hi 3 eq_refl) as Y.
  repeat match goal with H : Forall2 _ (_ :: _) (_ :: _) |- _ => inversion H; clear H; subst end.
  repeat match goal with H : (_, _) = (_, _) |- _ => injection H; clear H; intros end.
  match type of Hr with holds r ?cs =>
    assert (Z : definitely_true bt cs (BNot (BAnd (BEq x (BVV 1 1)) (BAnd (BEq y (BVV 1 1)) (BAnd (BNot (BoolS 6)) (BEq (BVS 1 7) (BVV 1 1)))))) = true) by (vm_compute; reflexivity) end.
  rewrite (definitely_true_spec bt bt_ok) in Z. specialize (Z r Hr).
  assert (W : eb r (BAnd (BEq x (BVV 1 1)) (BAnd (BEq y (BVV 1 1)) (BAnd (BNot (BoolS 6)) (BEq (BVS 1 7) (BVV 1 1))))) = true).
  { cbn [evalb evalv x y fst snd] in *. rewrite X, Y.
    repeat match goal with H : ?a = _ |- context [?a] => rewrite H end. reflexivity. }
  cbn [evalb] in Z. change (negb (eb r (BAnd (BEq x (BVV 1 1)) (BAnd (BEq y (BVV 1 1)) (BAnd (BNot (BoolS 6)) (BEq (BVS 1 7) (BVV 1 1)))))) = true) in Z.
  rewrite W in Z. discriminate Z.
Qed.
Print Assumptions C16_refuting_key_written_refuted.

(** C17: read your writes. [consistent s k fuel es r]: [r] satisfies all constraints
    after the run with the events [es], in which every write has its own layer, no
    map comes near its length's range and no key is provably the generic unknown key.
    Without the first condition the property is false (C27). *)
Theorem C17_read_your_writes_partial : forall s k, solver_ok s -> claripy_ok k ->
  forall fuel es r before m key value l between key' v p after,
  consistent s k fuel es r ->
  es = before ++ ESet m key value l :: between ++ EGet m key' v p :: after ->
  ev r key' = ev r key -> untouched r m (ev r key) between ->
  eb r p = true /\ ev r v = ev r value.
Proof. exact read_your_writes. Qed.
Print Assumptions C17_read_your_writes_partial.
Theorem C17_read_your_removals_partial : forall s k, solver_ok s -> claripy_ok k ->
  forall fuel es r before m key between key' v p after,
  consistent s k fuel es r ->
  es = before ++ ERemove m key :: between ++ EGet m key' v p :: after ->
  ev r key' = ev r key -> untouched r m (ev r key) between -> eb r p = false.
Proof. exact read_your_removals. Qed.
Print Assumptions C17_read_your_removals_partial.

(** C18 and C20: two reads whose keys are equal agree, whatever other keys are
    written or removed in between. *)
Theorem C18_other_keys_undisturbed_partial : forall s k, solver_ok s -> claripy_ok k ->
  forall fuel es r before m key v p between key' v' p' after,
  consistent s k fuel es r ->
  es = before ++ EGet m key v p :: between ++ EGet m key' v' p' :: after ->
  ev r key' = ev r key -> untouched r m (ev r key) between ->
  eb r p' = eb r p /\ (eb r p = true -> ev r v' = ev r v).
Proof. exact reads_agree. Qed.
Print Assumptions C18_other_keys_undisturbed_partial.
Theorem C20_equal_keys_agree_partial : forall s k, solver_ok s -> claripy_ok k ->
  forall fuel es r before m key v p between key' v' p' after,
  consistent s k fuel es r ->
  es = before ++ EGet m key v p :: between ++ EGet m key' v' p' :: after ->
  unwritten m between -> ev r key' = ev r key ->
  eb r p' = eb r p /\ (eb r p = true -> ev r v' = ev r v).
Proof.
  intros s k SOK KOK fuel es r before m key v p between key' v' p' after H E U EK.
  eapply (reads_agree s k SOK KOK); eauto. intros e Hin W. specialize (U e Hin).
  destruct e; cbn [writes] in W; try contradiction; apply U; apply W.
Qed.
Print Assumptions C20_equal_keys_agree_partial.

(** C19: the length before and after a write, a removal, or anything else. *)
Theorem C19_length_partial : forall s k, solver_ok s -> claripy_ok k ->
  forall fuel es r a m l1 b1 key v p e b2 l2 c,
  consistent s k fuel es r ->
  es = a ++ ELen m l1 :: b1 ++ EGet m key v p :: e :: b2 ++ ELen m l2 :: c ->
  unwritten m b1 -> unwritten m b2 ->
  (forall value l key', e = ESet m key' value l -> ev r key' = ev r key ->
     ev r l2 = if eb r p then ev r l1 else ev r l1 + 1) /\
  (forall key', e = ERemove m key' -> ev r key' = ev r key ->
     if eb r p then 1 <= ev r l1 /\ ev r l2 = ev r l1 - 1 else ev r l2 = ev r l1) /\
  (unwritten m [e] -> ev r l2 = ev r l1).
Proof. exact length_step. Qed.
Print Assumptions C19_length_partial.

(** C21: a forall that is true covers what is read as present, later or before. *)
Theorem C21_forall_covers_later_reads_partial : forall s k, solver_ok s -> claripy_ok k ->
  forall fuel es r before m pred t between key v p after,
  consistent s k fuel es r ->
  es = before ++ EForall m pred t :: between ++ EGet m key v p :: after ->
  untouched r m (ev r key) between -> eb r t = true -> eb r p = true ->
  eb (setKVP r (ev r key) (ev r v, true)) pred = true.
Proof. exact forall_covers_after. Qed.
Print Assumptions C21_forall_covers_later_reads_partial.
Theorem C21_forall_covers_earlier_reads_partial : forall s k, solver_ok s -> claripy_ok k ->
  forall fuel es r before m pred t between key v p after,
  consistent s k fuel es r ->
  es = before ++ EGet m key v p :: between ++ EForall m pred t :: after ->
  untouched r m (ev r key) between -> eb r t = true -> eb r p = true ->
  eb (setKVP r (ev r key) (ev r v, true)) pred = true.
Proof. exact forall_covers_before. Qed.
Print Assumptions C21_forall_covers_earlier_reads_partial.

(** C30: the distinct keys known to be present when the length is taken, from what was
    written or read before or is read after. *)
Theorem C30_not_overfull_partial : forall s k, solver_ok s -> claripy_ok k ->
  forall fuel es r before m l after,
  consistent s k fuel es r -> es = before ++ ELen m l :: after ->
  forall keys, NoDup keys -> (forall q, In q keys -> seen_present r m q before after) ->
  N.of_nat (length keys) <= ev r l.
Proof. exact never_overfull. Qed.
Print Assumptions C30_not_overfull_partial.
(** In the run below, when the length is taken after the write of [x] = 1, the key 1 was
    written and the key 0 is read as present later. *)
Example C30_example : demo = firstn 7 demo ++ ELen 0 x_or_new :: skipn 8 demo /\
  seen_present demo_env 0 0 (firstn 7 demo) (skipn 8 demo) /\ seen_present demo_env 0 1 (firstn 7 demo) (skipn 8 demo) /\
  ev demo_env x_or_new = 3.
Proof.
  assert (U : forall l, (forall e, In e l -> match e with ESet _ _ _ _ | ERemove _ _ => False | _ => True end) ->
    forall q, untouched demo_env 0 q l).
  { intros l H q e He W. specialize (H e He). destruct e; cbn in *; auto. }
  split; [reflexivity|]. split; [right; right|split; [right; left|reflexivity]].
  - exists [EGet 0 x (BVV 1 1) BTrue], y, y_val, y_in, (skipn 10 demo). split; [reflexivity|]. split; [reflexivity|]. split; [reflexivity|].
    apply U. intros e [<-|[]]. exact I.
  - exists (firstn 6 demo), x, (BVV 1 1), (BVV 3 2), []. split; [reflexivity|]. split; [reflexivity|]. apply U. intros e [].
Qed.

(** A predicate refuted by the key [x] alone makes [x] provably the generic key; a read
    of [x] then answers with the generic item, which is not counted: both keys of a map
    of length 1 are read as present. *)
Theorem C30_generic_key_refuted : exists a b c d t v1 p1 v2 p2 g r,
  map_new bt cl_fold 3 (ginit 4 3) 0 1 1 (Some (BVV 3 1, [])) = Ok a /\
  forall_ bt cl_fold 3 a 0 (BNot (BEq (KEY 1) x)) = Ok (b, t) /\
  get bt cl_fold 3 (add_cs b [BNot t]) 0 x None BTrue None = Ok (c, (v1, p1)) /\
  get bt cl_fold 3 c 0 y None BTrue None = Ok (d, (v2, p2)) /\
  holds r (gcs d) /\ gmaps d 0 = Some g /\ ev r (len_at g 0) = 1 /\ 
  ev r x <> ev r y /\ eb r p1 = true /\ eb r p2 = true.
Proof.
  do 10 eexists. exists (mkEnv (fun v => if v =? 3 then 0 else 1) (fun v => negb (v =? 6))).
  split; [vm_compute; reflexivity|]. split; [vm_compute; reflexivity|]. split; [vm_compute; reflexivity|]. split; [vm_compute; reflexivity|].
  split; [intros c' Hc; vm_compute in Hc; repeat (destruct Hc as [<-|Hc]; [vm_compute; reflexivity|]); destruct Hc|].
  split; [vm_compute; reflexivity|]. split; [reflexivity|]. split; [vm_compute; discriminate|]. split; reflexivity.
Qed.
Print Assumptions C30_generic_key_refuted.

(** Beyond those runs the properties are false. Without the restriction on constants:
    [y] is read; the constant keys 0 and 1 are written and share a layer (map version 1).
    In an assignment where y = 1, the key just written is read as absent... *)
Theorem C17_flattening_refuted : exists a b c d e v1 p1 v2 p2 r,
  map_new bf cl_fold 3 (ginit 4 3) 0 1 1 (Some (BVV 3 1, [])) = Ok a /\
  get bf cl_fold 3 a 0 y None BTrue None = Ok (b, (v1, p1)) /\
  set_ bf cl_fold 3 b 0 (BVV 1 0) (BVV 1 1) = Ok c /\
  set_ bf cl_fold 3 c 0 (BVV 1 1) (BVV 1 1) = Ok d /\
  get bf cl_fold 3 d 0 y None BTrue None = Ok (e, (v2, p2)) /\
  holds r (gcs e) /\ ev r y = ev r (BVV 1 1) /\ eb r p2 = false.
Proof.
  do 9 eexists. exists (mkEnv (fun v => nth (N.to_nat v) [0; 0; 0; 1; 1; 1; 1; 1; 1] 0) (fun v => (v =? 7))).
  split; [vm_compute; reflexivity|]. split; [vm_compute; reflexivity|]. split; [vm_compute; reflexivity|]. split; [vm_compute; reflexivity|]. split; [vm_compute; reflexivity|].
  split; [intros c' Hc; vm_compute in Hc; repeat (destruct Hc as [<-|Hc]; [vm_compute; reflexivity|]); destruct Hc|]. split; reflexivity.
Qed.
Print Assumptions C17_flattening_refuted.
(** ... reading [y] and reading 1 disagree... *)
Theorem C20_flattening_refuted : exists a b c d e f v1 p1 v2 p2 v3 p3 r,
  map_new bf cl_fold 3 (ginit 4 3) 0 1 1 (Some (BVV 3 1, [])) = Ok a /\
  get bf cl_fold 3 a 0 y None BTrue None = Ok (b, (v1, p1)) /\
  set_ bf cl_fold 3 b 0 (BVV 1 0) (BVV 1 1) = Ok c /\
  set_ bf cl_fold 3 c 0 (BVV 1 1) (BVV 1 1) = Ok d /\
  get bf cl_fold 3 d 0 y None BTrue None = Ok (e, (v2, p2)) /\
  get bf cl_fold 3 e 0 (BVV 1 1) None BTrue None = Ok (f, (v3, p3)) /\
  holds r (gcs f) /\ ev r y = ev r (BVV 1 1) /\ eb r p2 = false /\ eb r p3 = true.
Proof.
  do 12 eexists. exists (mkEnv (fun v => nth (N.to_nat v) [0; 0; 0; 1; 1; 1; 1; 1; 1] 0) (fun v => (v =? 7))).
  split; [vm_compute; reflexivity|]. split; [vm_compute; reflexivity|]. split; [vm_compute; reflexivity|]. split; [vm_compute; reflexivity|]. split; [vm_compute; reflexivity|]. split; [vm_compute; reflexivity|].
  split; [intros c' Hc; vm_compute in Hc; repeat (destruct Hc as [<-|Hc]; [vm_compute; reflexivity|]); destruct Hc|]. split; [reflexivity|]. split; reflexivity.
Qed.
Print Assumptions C20_flattening_refuted.
(** ... and writing [y], which is present since 1 was written, increases the length from
    2 to 3, of a map whose keys have one bit. *)
Theorem C19_flattening_refuted : exists a b c d e v1 p1 g g' r,
  map_new bf cl_fold 3 (ginit 4 3) 0 1 1 (Some (BVV 3 1, [])) = Ok a /\
  get bf cl_fold 3 a 0 y None BTrue None = Ok (b, (v1, p1)) /\
  set_ bf cl_fold 3 b 0 (BVV 1 0) (BVV 1 1) = Ok c /\
  set_ bf cl_fold 3 c 0 (BVV 1 1) (BVV 1 1) = Ok d /\ gmaps d 0 = Some g /\
  set_ bf cl_fold 3 d 0 y (BVV 1 1) = Ok e /\ gmaps e 0 = Some g' /\
  holds r (gcs e) /\ ev r y = ev r (BVV 1 1) /\ ev r (len_at g 0) = 2 /\ ev r (len_at g' 0) = 3.
Proof.
  do 9 eexists. exists (mkEnv (fun v => nth (N.to_nat v) [0; 0; 0; 1; 1; 1; 1; 1; 1] 0) (fun v => (v =? 7))).
  split; [vm_compute; reflexivity|]. split; [vm_compute; reflexivity|]. split; [vm_compute; reflexivity|]. split; [vm_compute; reflexivity|]. split; [vm_compute; reflexivity|]. split; [vm_compute; reflexivity|]. split; [vm_compute; reflexivity|].
  split; [intros c' Hc; vm_compute in Hc; repeat (destruct Hc as [<-|Hc]; [vm_compute; reflexivity|]); destruct Hc|]. split; [reflexivity|]. split; reflexivity.
Qed.
Print Assumptions C19_flattening_refuted.
(** A length that wraps to a literal 0 makes the map read as empty: [y] is present in a map
    with the largest possible length, a different key that is absent is written, and [y] is
    read as absent. *)
Theorem C18_length_wraps_refuted : exists a b c d e v1 p1 v2 p2 v3 p3 r,
  map_new bf cl_fold 3 (ginit 4 1) 0 1 1 (Some (BVV 1 1, [])) = Ok a /\
  get bf cl_fold 3 a 0 y None BTrue None = Ok (b, (v1, p1)) /\
  get bf cl_fold 3 b 0 x None BTrue None = Ok (c, (v2, p2)) /\
  set_ bf cl_fold 3 (add_cs c [BNot p2]) 0 x (BVV 1 1) = Ok d /\
  get bf cl_fold 3 d 0 y None BTrue None = Ok (e, (v3, p3)) /\
  holds r (gcs e) /\ ev r x <> ev r y /\ eb r p1 = true /\ eb r p3 = false.
Proof.
  do 11 eexists. exists (mkEnv (fun v => nth (N.to_nat v) [0; 0; 1; 0; 1; 1; 1; 1; 0] 0) (fun v => (v =? 6))).
  split; [vm_compute; reflexivity|]. split; [vm_compute; reflexivity|]. split; [vm_compute; reflexivity|]. split; [vm_compute; reflexivity|]. split; [vm_compute; reflexivity|].
  split; [intros c' Hc; vm_compute in Hc; repeat (destruct Hc as [<-|Hc]; [vm_compute; reflexivity|]); destruct Hc|]. split; [vm_compute; discriminate|]. split; reflexivity.
Qed.
Print Assumptions C18_length_wraps_refuted.
(** Without the restriction to the current version: a forall is true of version 0, which
    says that all values are 0; [x] is written with 1; [y], read from the current version, is
    then found in version 0, present and with the value 1. *)
Theorem C21_old_version_refuted : exists a b c d e t v1 p1 v2 p2 r,
  map_new bf cl_fold 3 (ginit 4 3) 0 1 1 (Some (BVV 3 2, [])) = Ok a /\
  map_version a 0 = 0%nat /\
  forall_ bf cl_fold 3 a 0 (BEq (VALUE 1) (BVV 1 0)) = Ok (b, t) /\
  set_ bf cl_fold 3 b 0 x (BVV 1 1) = Ok c /\
  get bf cl_fold 3 c 0 y None BTrue None = Ok (d, (v1, p1)) /\
  get bf cl_fold 3 d 0 y None BTrue (Some 0%nat) = Ok (e, (v2, p2)) /\
  holds r (gcs e) /\ eb r t = true /\ eb r p2 = true /\ ev r v2 = 1.
Proof.
  do 10 eexists. exists (mkEnv (fun v => nth (N.to_nat v) [0; 0; 0; 0; 1; 1; 0; 1; 1] 0) (fun v => (v =? 6) || (v =? 8))).
  split; [vm_compute; reflexivity|]. split; [vm_compute; reflexivity|]. split; [vm_compute; reflexivity|]. split; [vm_compute; reflexivity|]. split; [vm_compute; reflexivity|]. split; [vm_compute; reflexivity|].
  split; [intros c' Hc; vm_compute in Hc; repeat (destruct Hc as [<-|Hc]; [vm_compute; reflexivity|]); destruct Hc|]. split; [reflexivity|]. split; reflexivity.
Qed.
Print Assumptions C21_old_version_refuted.

(** One run for C17-C21 and C30: [x] and [y] are read, a forall over the values is
    true, [x] is written and read back, [y] is read and removed; in [demo_env] x = 1
    was absent and y = 0 was present, so the lengths are 2, 3 and 2. *)
Example C17_to_C21_C30_example : consistent bf cl_fold 3 demo demo_env /\
  ev demo_env x = 1 /\ ev demo_env y = 0 /\
  (exists a b c l, demo = a ++ ESet 0 x (BVV 1 1) l :: b ++ EGet 0 x (BVV 1 1) BTrue :: c) /\
  (exists a b c, demo = a ++ EGet 0 y (BVS 1 6) (BoolS 6) :: b ++ EGet 0 y y_val y_in :: c /\ untouched demo_env 0 0 b) /\
  (exists a b c v p, demo = a ++ EForall 0 (BEq (VALUE 1) (BVV 1 1)) (BoolS 7) :: b ++ EGet 0 y v p :: c /\ eb demo_env (BoolS 7) = true) /\
  (exists a b1 b2 c l1 l2 v p value l, demo = a ++ ELen 0 l1 :: b1 ++ EGet 0 x v p :: ESet 0 x value l :: b2 ++ ELen 0 l2 :: c /\
     ev demo_env l1 = 2 /\ ev demo_env l2 = 3) /\
  (exists a b1 b2 c l1 l2 v p, demo = a ++ ELen 0 l1 :: b1 ++ EGet 0 y v p :: ERemove 0 y :: b2 ++ ELen 0 l2 :: c /\
     ev demo_env l1 = 3 /\ ev demo_env l2 = 2).
Proof.
  split; [exact demo_consistent|]. split; [reflexivity|]. split; [reflexivity|]. split.
  { exists (firstn 6 demo), [nth 7 demo (EAssume BTrue)], (skipn 9 demo), (BVV 3 2). reflexivity. }
  split.
  { exists (firstn 1 demo), (firstn 7 (skipn 2 demo)), (skipn 10 demo). split; [reflexivity|].
    intros e H. vm_compute in H. repeat (destruct H as [<-|H]; [intros W; vm_compute in W; try destruct W as [_ W]; try discriminate W; try contradiction|]). destruct H. }
  split.
  { exists (firstn 2 demo), (firstn 6 (skipn 3 demo)), (skipn 10 demo), y_val, y_in. split; reflexivity. }
  split.
  { exists (firstn 4 demo), [], [], (skipn 8 demo). do 6 eexists. split; [reflexivity|split; reflexivity]. }
  { exists (firstn 7 demo), (firstn 2 (skipn 8 demo)), [], (skipn 13 demo). do 4 eexists. split; [reflexivity|split; reflexivity]. }
Qed.

(** C22: two foralls that are both false exclude an execution: the map {0 -> 0, 1 -> 1}
    refutes "key 0 has value 1" and "key 1 has value 0", but no assignment makes both
    results false, because both are decided on one generic item. *)
Theorem C22_independent_foralls_refuted :
  let p1 := BImp (BEq (KEY 1) (BVV 1 0)) (BEq (VALUE 1) (BVV 1 1)) in
  let p2 := BImp (BEq (KEY 1) (BVV 1 1)) (BEq (VALUE 1) (BVV 1 0)) in
  exists a b c t1 t2 cm,
  map_new bf cl_fold 3 (ginit 4 3) 0 1 1 (Some (BVV 3 2, [])) = Ok a /\
  forall_ bf cl_fold 3 a 0 p1 = Ok (b, t1) /\ forall_ bf cl_fold 3 b 0 p2 = Ok (c, t2) /\
  (* a concrete execution in which both are false *)
  cstep env0 4 3 (fun _ => None, []) (ONew 0 1 1 (BVV 3 2) []) (cm, [done]) /\
  cstep env0 4 3 (cm, [done]) (OForall 0 p1) (cm, [done; (0, false)]) /\
  cstep env0 4 3 (cm, [done; (0, false)]) (OForall 0 p2) (cm, [done; (0, false); (0, false)]) /\
  (* that no assignment describes *)
  ~ exists r, holds r (gcs c) /\ eb r t1 = false /\ eb r t2 = false.
Proof.
  intros p1 p2. do 5 eexists.
  set (C := fun q => if q <? 2 then (q, true) else (0, false)).
  exists (upd (fun _ => None) 0 (Some (mkC 1 1 3 C 2 []))).
  split; [vm_compute; reflexivity|]. split; [vm_compute; reflexivity|]. split; [vm_compute; reflexivity|].
  split; [|split; [|split]].
  - apply (c_new env0 4 3 (fun _ => None) [] 0 1 1 (BVV 3 2) [] C).
    + intros q. unfold C. destruct (N.ltb_spec q 2); [assumption|reflexivity].
    + exists [0; 1]. split; [repeat constructor; cbn; intuition discriminate|]. split; [|reflexivity]. intros q. split.
      * intros [<-|[<-|[]]]; split; reflexivity.
      * intros [H _]. destruct q as [|q]; [left; reflexivity|right; left]. destruct q; try reflexivity; exfalso; revert H; vm_compute; destruct q; discriminate.
    + intros p [].
    + intros p [].
  - eapply (c_forall env0 4 3 _ [done] _ _ _ false); [reflexivity|reflexivity|]. split; [discriminate|].
    intros H. specialize (H 0 eq_refl eq_refl). vm_compute in H. discriminate H.
  - eapply (c_forall env0 4 3 _ [done; (0, false)] _ _ _ false); [reflexivity|reflexivity|]. split; [discriminate|].
    intros H. specialize (H 1 eq_refl eq_refl). vm_compute in H. discriminate H.
  - intros [r [Hr [T1 T2]]].
    match type of Hr with holds r ?cs => 
      assert (S : sat bf (cs ++ [BNot (BoolS 6); BNot (BoolS 7)]) = false) by (vm_compute; reflexivity);
      assert (S' : sat bf (cs ++ [BNot (BoolS 6); BNot (BoolS 7)]) = true) end.
    { apply (proj1 bf_ok). exists r. intros c Hc. apply in_app_or in Hc as [Hc|Hc]; [apply Hr; auto|].
      destruct Hc as [<-|[<-|[]]]; cbn [evalb] in *; [rewrite T1|rewrite T2]; reflexivity. }
    congruence.
Qed.
Print Assumptions C22_independent_foralls_refuted.
(** Two foralls do not constrain each other when each is refuted by an item that the map
    knows of: a key accessed before, or the one generic key [uk m] of the map. Missing:
    two predicates refuted only by two different keys that were never accessed. *)
Theorem C22_known_items_partial : forall s k fuel nin inp sz uk,
  solver_ok s -> claripy_ok k -> 2 <= nin ->
  forall os m p1 p2 st rs t1 t2 cm cr c q1 q2,
  srun s k fuel nin (ginit nin sz, []) (os ++ [OForall m p1; OForall m p2]) = Ok (st, rs ++ [t1; t2]) ->
  stays_unfolded s k fuel nin (ginit nin sz, []) (os ++ [OForall m p1; OForall m p2]) ->
  crun inp nin sz uk (fun _ => None, []) os (cm, cr) -> length rs = length cr ->
  cm m = Some c -> kv_sized (cks c) (cvs c) p1 = true -> kv_sized (cks c) (cvs c) p2 = true ->
  q1 < 2 ^ cks c -> In q1 (cseen c) \/ q1 = uk m -> snd (ccont c q1) = true -> ~ holds_at (tenv inp nin cr) (ccont c) p1 q1 ->
  q2 < 2 ^ cks c -> In q2 (cseen c) \/ q2 = uk m -> snd (ccont c q2) = true -> ~ holds_at (tenv inp nin (cr ++ [(0, false)])) (ccont c) p2 q2 ->
  exists r, (forall v, v < nin -> ebv r v = ebv inp v /\ ebool r v = ebool inp v) /\ holds r (gcs st) /\
    Forall2 (fun a b => (ev r (fst a), eb r (snd a)) = b) rs cr /\
    eb r (snd t1) = false /\ eb r (snd t2) = false.
Proof. exact both_false. Qed.
Print Assumptions C22_known_items_partial.
(** The history of C16_example and one more forall, refuted by the other key. *)
Example C22_example : exists st rs t1 t2 cm c,
  srun bf cl_fold 3 4 (ginit 4 3, []) (firstn 4 hist ++ [OForall 0 (BEq (VALUE 1) (BVV 1 1)); OForall 0 (BEq (VALUE 1) (BVV 1 0))]) = Ok (st, rs ++ [t1; t2]) /\
  stays_unfolded bf cl_fold 3 4 (ginit 4 3, []) (firstn 4 hist ++ [OForall 0 (BEq (VALUE 1) (BVV 1 1)); OForall 0 (BEq (VALUE 1) (BVV 1 0))]) /\
  crun hist_in 4 3 (fun _ => 0) (fun _ => None, []) (firstn 4 hist) (cm, [done; (1, true); done; (0, true)]) /\
  cm 0 = Some c /\ length rs = 4%nat /\
  (In 1 (cseen c) /\ snd (ccont c 1) = true /\ ~ holds_at (tenv hist_in 4 [done; (1, true); done; (0, true)]) (ccont c) (BEq (VALUE 1) (BVV 1 1)) 1) /\
  (In 0 (cseen c) /\ snd (ccont c 0) = true /\ ~ holds_at (tenv hist_in 4 [done; (1, true); done; (0, true); (0, false)]) (ccont c) (BEq (VALUE 1) (BVV 1 0)) 0).
Proof.
  destruct (hist_runs_more) as (cm & c & H1 & H2 & H3 & H4).
  eexists _, [_; _; _; _], _, _, cm, c. split; [vm_compute; reflexivity|]. split.
  { vm_compute. repeat split; intros m g H; destruct m; try discriminate H; injection H as <-; repeat constructor. }
  split; [exact H1|]. split; [exact H2|]. split; [reflexivity|]. split; assumption.
Qed.

(** C23: an old version read after later writes. [x] is read, written, [y] is read
    from the current version, and then from version 0: for x = y this gives the value
    written instead of the one [x] had at version 0. *)
Theorem C23_old_versions_refuted : exists a b c d e v1 p1 v3 p3 r,
  map_new bf cl_fold 3 (ginit 4 3) 0 1 1 (Some (BVV 3 2, [])) = Ok a /\
  map_version a 0 = 0%nat /\
  get bf cl_fold 3 a 0 x None BTrue None = Ok (b, (v1, p1)) /\
  set_ bf cl_fold 3 b 0 x (BVV 1 1) = Ok c /\
  (exists vp, get bf cl_fold 3 c 0 y None BTrue None = Ok (d, vp)) /\
  get bf cl_fold 3 d 0 y None BTrue (Some 0%nat) = Ok (e, (v3, p3)) /\
  holds r (gcs e) /\ ev r x = ev r y /\ eb r p1 = true /\ eb r p3 = true /\ ev r v3 <> ev r v1.
Proof.
  do 9 eexists.
  exists (mkEnv (fun v => nth (N.to_nat v) [0; 0; 0; 0; 1; 0; 0; 1] 0) (fun _ => true)).
  split; [vm_compute; reflexivity|]. split; [reflexivity|]. split; [vm_compute; reflexivity|]. split; [vm_compute; reflexivity|].
  split; [eexists; vm_compute; reflexivity|]. split; [vm_compute; reflexivity|].
  split; [intros c' Hc; vm_compute in Hc; repeat (destruct Hc as [<-|Hc]; [vm_compute; reflexivity|]); destruct Hc|].
  split; [reflexivity|]. split; [reflexivity|]. split; [reflexivity|]. vm_compute. discriminate.
Qed.
Print Assumptions C23_old_versions_refuted.
(** A key that was read before the first write to the map reads the same from version 0
    later, whatever happened in between: reads, writes and removals, of the same map and of
    others, at any version, layers shared or not, predicates with lookups. Missing: keys
    first read after the first write (as above), and versions other than the first. *)
Theorem C23_first_version_partial : forall s k, solver_ok s ->
  forall fuel nin sz before st1 m g1 key cv ver st2 g2 v p between st3 cv' cond st4 v' p' r,
  steps s k fuel (ginit nin sz) before st1 ->
  gmaps st1 m = Some g1 -> get s k fuel st1 m key cv BTrue ver = Ok (st2, (v, p)) ->
  gmaps st2 m = Some g2 -> version g2 = 0%nat ->
  steps s k fuel st2 between st3 ->
  get s k fuel st3 m key cv' cond (Some 0%nat) = Ok (st4, (v', p')) ->
  holds r (gcs st4) -> eb r cond = true ->
  eb r p' = eb r p /\ (eb r p = true -> ev r v' = ev r v).
Proof.
  intros s k SOK fuel nin sz before st1 m g1 key cv ver st2 g2 v p between st3 cv' cond st4 v' p' r B E1 G1 E2 V2.
  eapply first_version; eauto. apply length_zero_iff_nil. exact V2.
Qed.
Print Assumptions C23_first_version_partial.
(** The run of C23_old_versions_refuted, where it is [x] that is read from version 0. *)
Example C23_example : exists a b c d e v1 p1 v3 p3 g r,
  steps bf cl_fold 3 (ginit 4 3) [ANew 0] a /\
  get bf cl_fold 3 a 0 x None BTrue None = Ok (b, (v1, p1)) /\ gmaps b 0 = Some g /\ version g = 0%nat /\
  steps bf cl_fold 3 b [ASet 0 x (BVV 1 1); AGet 0 y] d /\
  set_ bf cl_fold 3 b 0 x (BVV 1 1) = Ok c /\ map_version d 0 = 1%nat /\
  get bf cl_fold 3 d 0 x None BTrue (Some 0%nat) = Ok (e, (v3, p3)) /\
  holds r (gcs e) /\ eb r p1 = true /\ ev r v1 = 0.
Proof.
  do 10 eexists. exists (mkEnv (fun v => nth (N.to_nat v) [0; 0; 0; 0; 1; 0; 0; 1] 0) (fun _ => true)).
  split.
  { eapply steps_cons; [eapply s_new with (ks := 1) (vs := 1) (spec := Some (BVV 3 2, [])); vm_compute; reflexivity|]. apply steps_nil. }
  split; [vm_compute; reflexivity|]. split; [vm_compute; reflexivity|]. split; [reflexivity|]. split.
  { eapply steps_cons; [eapply s_set; try (vm_compute; reflexivity); discriminate|].
    eapply steps_cons; [eapply s_get with (cval := None) (cond := BTrue) (ver := None); vm_compute; reflexivity|]. apply steps_nil. }
  split; [vm_compute; reflexivity|]. split; [reflexivity|]. split; [vm_compute; reflexivity|].
  split; [intros c' Hc; vm_compute in Hc; repeat (destruct Hc as [<-|Hc]; [vm_compute; reflexivity|]); destruct Hc|].
  split; reflexivity.
Qed.

(** C24: a presence test frozen at version 0, evaluated after the key was removed, is
    false although the map of version 0 has the key (and a read of version 0 says so). *)
Theorem C24_frozen_presence_refuted : exists a b c d e v1 p1 t v3 p3 r,
  map_new bf cl_fold 3 (ginit 4 3) 0 1 1 (Some (BVV 3 2, [])) = Ok a /\
  get bf cl_fold 3 a 0 x None BTrue None = Ok (b, (v1, p1)) /\
  freezeb b (MapHas 0 x None) = MapHas 0 x (Some 0%nat) /\
  remove bf cl_fold 3 b 0 x = Ok c /\
  emb (get bf cl_fold 3) plain BTrue c (MapHas 0 x (Some 0%nat)) = Ok (d, t) /\
  get bf cl_fold 3 d 0 x None BTrue (Some 0%nat) = Ok (e, (v3, p3)) /\
  holds r (gcs e) /\ eb r p1 = true /\ eb r p3 = true /\ eb r t = false.
Proof.
  do 10 eexists.
  exists (mkEnv (fun _ => 0) (fun _ => true)).
  split; [vm_compute; reflexivity|]. split; [vm_compute; reflexivity|]. split; [reflexivity|]. split; [vm_compute; reflexivity|].
  split; [vm_compute; reflexivity|]. split; [vm_compute; reflexivity|].
  split; [intros c' Hc; vm_compute in Hc; repeat (destruct Hc as [<-|Hc]; [vm_compute; reflexivity|]); destruct Hc|].
  split; [reflexivity|]. split; reflexivity.
Qed.
Print Assumptions C24_frozen_presence_refuted.

(** C24 holds for lookups of values: a frozen lookup is a read of that version. *)
Theorem C24_frozen_lookup_partial : forall s k fuel st0 st m w key vs ver g,
  gmaps st0 m = Some g ->
  emv (get s k fuel) plain BTrue st (freezev st0 (MapGet m (BVS w key) vs ver)) =
  do (st', vp) <- get s k fuel st m (BVS w key) None BTrue (Some (length (glayers g))); Ok (st', fst vp).
Proof. intros s k fuel st0 st m w key vs ver g G. cbn [freezev emv]. unfold map_version. rewrite G. reflexivity. Qed.
Print Assumptions C24_frozen_lookup_partial.

(** C25: asking whether the map has the value 1 at [x] makes the engine certain that
    it has, although the map {0 -> 0, 1 -> 0} is a possible one before the question. *)
Theorem C25_containment_test_refuted : exists a d t cm,
  map_new bf cl_fold 3 (ginit 4 3) 0 1 1 (Some (BVV 3 2, [PRESENT])) = Ok a /\
  cstep env0 4 3 (fun _ => None, []) (ONew 0 1 1 (BVV 3 2) [PRESENT]) (cm, [done]) /\
  (forall c, cm 0 = Some c -> ccont c 0 = (0, true) /\ ccont c 1 = (0, true)) /\
  emb (get bf cl_fold 3) plain BTrue a (MapHasV 0 x (BVV 1 1) None) = Ok (d, t) /\
  forall r, holds r (gcs d) -> eb r t = true.
Proof.
  do 3 eexists. exists (upd (fun _ => None) 0 (Some (mkC 1 1 3 (fun _ => (0, true)) 2 []))).
  split; [vm_compute; reflexivity|]. split.
  { apply (c_new env0 4 3 (fun _ => None) [] 0 1 1 (BVV 3 2) [PRESENT] (fun _ => (0, true))).
    - reflexivity.
    - exists [0; 1]. split; [repeat constructor; cbn; intuition discriminate|]. split; [|reflexivity]. intros q. split.
      + intros [<-|[<-|[]]]; split; reflexivity.
      + intros [H _]. destruct q as [|q]; [left; reflexivity|right; left]. destruct q; try reflexivity; exfalso; revert H; vm_compute; destruct q; discriminate.
    - intros p [<-|[]]. reflexivity.
    - intros p [<-|[]] q _. reflexivity. }
  split; [intros c H; injection H as <-; split; reflexivity|]. split; [vm_compute; reflexivity|].
  apply (definitely_true_spec bf bf_ok). vm_compute. reflexivity.
Qed.
Print Assumptions C25_containment_test_refuted.
(** If the key is one the map knows about - looking it up makes no new symbol - the test
    rules nothing out: no constraint is added, and the result is that the key is there and
    the known value is the given one. *)
Theorem C25_known_key_partial : forall s k fuel st m key value cond ver st' v p,
  nolkv key = true -> nolkv value = true ->
  get s k fuel st m key None cond ver = Ok (st', (v, p)) -> gnext st' = gnext st ->
  gcs st' = gcs st /\
  emb (get s k fuel) plain cond st (MapHasV m key value ver) = Ok (st', BAnd p (BEq v value)).
Proof. exact known_key_test. Qed.
Print Assumptions C25_known_key_partial.
Example C25_example : exists a b v p v' p' c,
  map_new bf cl_fold 3 (ginit 4 3) 0 1 1 (Some (BVV 3 2, [PRESENT])) = Ok a /\
  get bf cl_fold 3 a 0 x None BTrue None = Ok (b, (v, p)) /\
  get bf cl_fold 3 b 0 x None BTrue None = Ok (c, (v', p')) /\ gnext c = gnext b /\
  can_be_true bf (gcs c) (BAnd p (BEq v (BVV 1 1))) = true /\ can_be_false bf (gcs c) (BAnd p (BEq v (BVV 1 1))) = true.
Proof.
  do 7 eexists. split; [vm_compute; reflexivity|]. split; [vm_compute; reflexivity|]. split; [vm_compute; reflexivity|].
  split; [reflexivity|]. split; vm_compute; reflexivity.
Qed.

(** C26: a merge of maps that have not been written to since they were created.
    [others] are the other states' maps with their merge conditions. Reading, in the
    merged state, a key that one of the merged states had read gives what that state
    had read, in every assignment that selects that state. (Keys read by the map merged
    into are answered as before in every assignment.) Missing: maps with layers, where
    it is false. *)
Theorem C26_merged_map_partial : forall s k, solver_ok s -> claripy_ok k ->
  forall fuel st m g others st',
  gmaps st m = Some g -> glayers g = [] -> Forall (pred_ok (gks g) (gvs g)) (ginvs g) ->
  merge_base s k fuel st m others = Ok st' ->
  forall r i,
  (exists o mc, In (o, mc) others /\ eb r mc = true /\ In i (gitems o)) \/
  (In i (gitems g) /\ len_at g 0 <> BVV (width (len_at g 0)) 0) ->
  forall fuel' key st'' v p,
  get s k fuel' st' m key None BTrue None = Ok (st'', (v, p)) ->
  holds r (gcs st'') -> ev r key = ev r (ik i) ->
  eb r p = eb r (ip i) /\ (eb r p = true -> ev r v = ev r (iv i)).
Proof.
  intros s k SOK KOK fuel st m g others st' G GL FI H r i O. eapply (merge_base_reads s k SOK); eauto.
  - split; auto.
  - destruct O as [O|[O1 O2]]; [left; auto|right]. split; [auto|]. unfold is_definitely_empty.
    destruct (bv_eqb _ _) eqn:E; [|auto]. apply bv_eqb_eq in E. contradiction.
Qed.
Print Assumptions C26_merged_map_partial.

(** Merging {x -> v6} and {y -> v7}, under the selectors s9 = 0 and s9 = 1. *)
Definition merge_ex_other : gmap :=
  match gmaps two 0 with Some g => add_item g (mkItem y (BVS 1 7) (BoolS 7)) | None => mkGmap 1 1 [] [] (mkItem x x BTrue) x [] end.
Definition merge_ex_st : gst := bump match get bf cl_fold 3 two 0 x None BTrue None with Ok (a, _) => a | _ => two end 3.
Example C26_example : exists g st' st'' v p r,
  gmaps merge_ex_st 0 = Some g /\ glayers g = [] /\ can_merge g merge_ex_other = true /\
  map ik (gitems g) = [x] /\ map ik (gitems merge_ex_other) = [y] /\
  merge_base bf cl_fold 3 merge_ex_st 0 [(merge_ex_other, BEq (BVS 1 9) (BVV 1 1))] = Ok st' /\
  get bf cl_fold 3 st' 0 y None BTrue None = Ok (st'', (v, p)) /\
  holds r (gcs st'') /\ ev r (BVS 1 9) = 1 /\ eb r p = true /\ ev r x <> ev r y.
Proof.
  do 5 eexists. exists (mkEnv (fun v => if v =? 9 then 1 else if v =? 3 then 1 else 0) (fun _ => true)).
  split; [vm_compute; reflexivity|]. split; [reflexivity|]. split; [vm_compute; reflexivity|].
  split; [vm_compute; reflexivity|]. split; [vm_compute; reflexivity|]. split; [vm_compute; reflexivity|]. split; [vm_compute; reflexivity|].
  split; [intros c' Hc; vm_compute in Hc; repeat (destruct Hc as [<-|Hc]; [vm_compute; reflexivity|]); destruct Hc|].
  split; [reflexivity|]. split; [reflexivity|]. vm_compute. discriminate.
Qed.

(** C26, keys that a merged state had not read: in the assignments that select the state
    (in all of them for the state merged into), the merged map answers with something
    that state's invariants allow; and the merged map has the length of every map merged
    into it. *)
Theorem C26_unread_keys_partial : forall s k, solver_ok s -> claripy_ok k ->
  forall fuel st m g others st',
  gmaps st m = Some g -> glayers g = [] -> Forall (pred_ok (gks g) (gvs g)) (ginvs g) ->
  Forall (fun i => width (ik i) = gks g /\ width (iv i) = gvs g) (gitems g) ->
  merge_base s k fuel st m others = Ok st' -> (forall o mc, In (o, mc) others -> can_merge g o = true) ->
  exists g', gmaps st' m = Some g' /\
  forall o mc, o = g \/ In (o, mc) others -> len_at g' 0 = glen o /\
  forall fuel' key st'' v p r, get s k fuel' st' m key None BTrue None = Ok (st'', (v, p)) -> holds r (gcs st'') ->
  o = g \/ eb r mc = true ->
  (forall i, In i (gunk o :: gitems o) -> ev r key <> ev r (ik i)) -> glen o <> BVV (width (glen o)) 0 ->
  forall inv, In inv (ginvs o) -> eb (setKVP r (ev r key) (ev r v, eb r p)) inv = true.
Proof.
  intros s k SOK KOK fuel st m g others st' G GL FI SZ H CM.
  apply (merge_base_fresh s k SOK _ _ _ _ _ _ G (conj GL FI) SZ H CM).
Qed.
Print Assumptions C26_unread_keys_partial.

(** Two states with a map whose values are all 1 read the keys x2 and y2; the merged
    state reads x2, which the second one had not read. *)
Definition ones : gst :=
  match map_new bf cl_fold 3 (ginit 4 3) 0 2 1 (Some (BVV 3 2, [BEq (VALUE 1) (BVV 1 1)])) with Ok a => a | _ => ginit 4 3 end.
Definition ones_other : gmap :=
  match gmaps ones 0 with Some g => add_item g (mkItem (BVS 2 3) (BVS 1 7) (BoolS 7)) | None => mkGmap 1 1 [] [] (mkItem x x BTrue) x [] end.
Definition ones_st : gst := bump match get bf cl_fold 3 ones 0 (BVS 2 2) None BTrue None with Ok (a, _) => a | _ => ones end 3.
Example C26_unread_example : exists g st' st'' v p r,
  gmaps ones_st 0 = Some g /\ glayers g = [] /\ can_merge g ones_other = true /\ ginvs ones_other = [BEq (VALUE 1) (BVV 1 1)] /\
  map ik (gitems g) = [BVS 2 2] /\ map ik (gitems ones_other) = [BVS 2 3] /\
  merge_base bf cl_fold 3 ones_st 0 [(ones_other, BEq (BVS 1 9) (BVV 1 1))] = Ok st' /\
  get bf cl_fold 3 st' 0 (BVS 2 2) None BTrue None = Ok (st'', (v, p)) /\
  holds r (gcs st'') /\ ev r (BVS 1 9) = 1 /\ ev r (BVS 2 2) = 1 /\ ev r (BVS 2 3) = 2 /\ ev r (ik (gunk ones_other)) = 0.
Proof.
  do 5 eexists. exists (mkEnv (fun v => if v =? 2 then 1 else if v =? 3 then 2 else if v =? 4 then 0 else 1) (fun n => n =? 99)).
  split; [vm_compute; reflexivity|]. split; [reflexivity|]. split; [vm_compute; reflexivity|]. split; [vm_compute; reflexivity|].
  split; [vm_compute; reflexivity|]. split; [vm_compute; reflexivity|]. split; [vm_compute; reflexivity|]. split; [vm_compute; reflexivity|].
  split; [intros c' Hc; vm_compute in Hc; repeat (destruct Hc as [<-|Hc]; [vm_compute; reflexivity|]); destruct Hc|].
  split; [reflexivity|]. split; [reflexivity|]. split; [reflexivity|]. vm_compute. reflexivity.
Qed.

(** C26, no execution is lost: states are merged whose maps have not been written to.
    Every execution of a merged state (an assignment [r] with map contents [cm] that the
    state describes) is an execution of the merged state, with the same contents and the
    selector naming the state; the assignment changes only the answers to reads [L] that
    the first state made since it and this state split, which mean nothing to this state.
    Missing: maps with layers, where merging is wrong ([C26_written_map_refuted]). *)
Theorem C26_no_execution_lost_partial : forall s k, solver_ok s -> claripy_ok k ->
  forall fuel x self others ms st',
  NoDup ms -> (forall m, In m ms <-> gmaps self m <> None) -> flat_maps self ->
  feasible self -> gnext self <= x ->
  Forall (fun o => maps_can_merge ms self o /\ feasible o /\ gnext o <= x) others ->
  merge_states s k fuel x self others ms = Ok st' ->
  forall j st L r cm uk, nth_error (self :: others) j = Some st ->
  (j = O /\ L = [] \/ split_by L self st) -> sim r st cm uk ->
  exists r', sim r' st' cm uk /\ ev r' (BVS (flag_width (S (length others))) x) = N.of_nat j /\
    forall y, y < x -> ~ In y (syms L) -> ebv r' y = ebv r y /\ ebool r' y = ebool r y.
Proof.
  intros s k SOK KOK fuel x self others ms st' ND DOM FLT FS LX OTH H.
  apply (merge_states_sim s k SOK KOK fuel x self others ms st' ND FLT OTH FS LX DOM H).
Qed.
Print Assumptions C26_no_execution_lost_partial.

(** From the map {0, 1} with unknown values, one state read x and the other read y. *)
Definition lost_self : gst := match get bf cl_fold 3 two 0 x None BTrue None with Ok (a, _) => a | _ => two end.
Definition lost_start : gst := bump two 1.
Definition lost_other : gst := match get bf cl_fold 3 lost_start 0 y None BTrue None with Ok (a, _) => a | _ => two end.
Lemma lost_sim : forall st key st' v p, st = two \/ st = lost_start -> key = x \/ key = y ->
  get bf cl_fold 3 st 0 key None BTrue None = Ok (st', (v, p)) -> exists r cm uk, sim r st' cm uk /\ cm 0 <> None.
Proof.
  intros st key st' v p ST KY H.
  assert (B : exists r c uk, sim r two (upd (fun _ => None) 0 (Some c)) uk /\ cks c = 1).
  { assert (S0 : sim env0 (ginit 4 3) (fun _ => None) (fun _ => 0)).
    { constructor; cbn; [intros e []|constructor|lia|auto]. }
    destruct (map_new_sim bf cl_fold env0 (ginit 4 3) (fun _ => None) (fun _ => 0) 3 0 1 1 (BVV 3 2) []
                (fun q => (0, q <? 2)) two S0) as [r [_ [_ [_ S1]]]].
    - reflexivity.
    - intros q. reflexivity.
    - intros r1 r2 _. reflexivity.
    - apply card_prefix; [vm_compute; discriminate|]. intros q _. reflexivity.
    - constructor.
    - intros inv [].
    - vm_compute. reflexivity.
    - eexists _, _, _. split; [exact S1|reflexivity]. }
  destruct B as [r [c [uk [SB CK]]]].
  assert (SS : sim r st (upd (fun _ => None) 0 (Some c)) uk).
  { destruct ST as [->| ->]; [exact SB|]. destruct SB as [B1 B2 B3 B4]. constructor.
    - exact B1.
    - eapply Forall_impl; [|exact B2]. intros e He. eapply depb_le; [|exact He]. cbn. lia.
    - unfold lost_start, bump. cbn [gnext]. lia.
    - intros m. specialize (B4 m). change (gmaps lost_start m) with (gmaps two m). destruct (gmaps two m), (upd (fun _ => None) 0 (Some c) m); auto.
      eapply msim_mono; [apply eqbelow_refl| |exact B4]. unfold lost_start, bump. cbn [gnext]. lia. }
  assert (KO : keyok (cks c) (gnext st) key).
  { rewrite CK. assert (NX : 4 <= gnext st) by (destruct ST as [->| ->]; vm_compute; discriminate).
    assert (KK : exists n, key = BVS 1 n /\ 2 <= n < 4) by (destruct KY as [->| ->]; [exists 2|exists 3]; (split; [reflexivity|lia])).
    destruct KK as [n [-> Hn]]. split; [reflexivity|]. split.
    - intros r1 r2 E. cbn [evalv]. destruct (E n) as [-> _]; [lia|]. reflexivity.
    - split; [reflexivity|]. split; [|intros z []]. intros z w [E|[]]. injection E as <- _. lia. }
  destruct (get_sim bf cl_fold bf_ok cl_fold_ok r st (upd (fun _ => None) 0 (Some c)) uk 3 0 key st' v p c SS eq_refl KO H)
    as [r' [g [g' [_ [_ [S' _]]]]]].
  exists r', (upd (upd (fun _ => None) 0 (Some c)) 0 (Some (saw c (ev r key)))), uk. split; [exact S'|]. discriminate.
Qed.
Example C26_lost_example : exists st' L r cm uk,
  feasible lost_self /\ flat_maps lost_self /\ maps_can_merge [0] lost_self lost_other /\
  merge_states bf cl_fold 3 9 lost_self [lost_other] [0] = Ok st' /\
  L = [(0, 6, mkItem x (BVS 1 6) (BoolS 6))] /\ split_by L lost_self lost_other /\
  sim r lost_other cm uk /\ cm 0 <> None.
Proof.
  assert (F1 : feasible lost_self).
  { destruct (lost_sim two x lost_self (BVS 1 6) (BoolS 6) (or_introl eq_refl) (or_introl eq_refl) eq_refl) as [r [cm [uk [S _]]]].
    exists r, cm, uk. exact S. }
  destruct (lost_sim lost_start y lost_other (BVS 1 7) (BoolS 7) (or_intror eq_refl) (or_intror eq_refl) eq_refl) as [r [cm [uk [S C]]]].
  eexists. exists [(0, 6, mkItem x (BVS 1 6) (BoolS 6))], r, cm, uk.
  assert (G1 : forall m g, gmaps lost_self m = Some g -> m = 0 /\
     g = mkGmap 1 1 [mkItem x (BVS 1 6) (BoolS 6)] [] (mkItem (BVS 1 4) (BVS 1 5) (BoolS 4)) (BVV 3 2) []).
  { intros m g G. vm_compute in G. destruct m; [|discriminate]. injection G as <-. auto. }
  assert (G2 : forall m g, gmaps lost_other m = Some g -> m = 0 /\
     g = mkGmap 1 1 [mkItem y (BVS 1 7) (BoolS 7)] [] (mkItem (BVS 1 4) (BVS 1 5) (BoolS 4)) (BVV 3 2) []).
  { intros m g G. vm_compute in G. destruct m; [|discriminate]. injection G as <-. auto. }
  split; [exact F1|]. split.
  { intros m g G. apply G1 in G as [_ ->]. reflexivity. }
  split.
  { intros m. destruct m as [|q]; vm_compute; [|intros [X|[]]; discriminate].
    split; [left; reflexivity|]. split; [reflexivity|]. split; [reflexivity|]. right. reflexivity. }
  split; [vm_compute; reflexivity|]. split; [reflexivity|]. split; [|auto]. split; [|split].
  - cbn [reads_of]. split; [lia|]. split; [|split; [|vm_compute; discriminate]].
    + intros r1 r2 E. cbn [ik x evalv]. destruct (E 2) as [-> _]; [lia|]. reflexivity.
    + eexists. split; [vm_compute; reflexivity|]. split; reflexivity.
  - assert (FV : forall w n, n <> 6 -> freev [6] (BVS w n)).
    { intros w n NE r1 r2 A. cbn [evalv]. destruct (A n) as [-> _]; [|reflexivity]. intros [X|[]]. congruence. }
    assert (FB : forall n, n <> 6 -> freeb [6] (BoolS n)).
    { intros n NE r1 r2 A. cbn [evalb]. destruct (A n) as [_ ->]; [|reflexivity]. intros [X|[]]. congruence. }
    split.
    + apply Forall_forall. intros e He r1 r2 A. vm_compute in He.
      repeat (destruct He as [<-|He]; [cbn [evalb evalv syms map fst snd] in *;
        repeat match goal with
               | |- context [ebv r2 ?n] => destruct (A n) as [-> _]; [intros [X|[]]; discriminate|]
               | |- context [ebool r2 ?n] => destruct (A n) as [_ ->]; [intros [X|[]]; discriminate|]
               end; reflexivity|]). destruct He.
    + intros m g G. apply G2 in G as [_ ->]. cbn [gitems gunk glen ginvs syms map fst snd].
      split; [constructor; [|constructor]|split; [|split; [|constructor]]].
      * split; [apply FV; discriminate|]. split; [apply FV; discriminate|apply FB; discriminate].
      * split; [apply FV; discriminate|]. split; [apply FV; discriminate|apply FB; discriminate].
      * intros r1 r2 _. reflexivity.
  - intros m g g' i A B Hi. apply G1 in A as [-> ->]. destruct Hi as [<-|[]]. right. exists 6. left. reflexivity.
Qed.

(** C26 for whole states: the merged state, in the assignments whose selector names one of
    the merged states, satisfies that state's constraints, and reading a key that this
    state had read from any of its maps gives what this state had read. The state's answers
    to equal keys must have been equal; reading keeps this so ([get_settled] of
    GhostMergeSim.v). Missing: maps with layers. *)
Theorem C26_merged_states_partial : forall s k, solver_ok s -> forall fuel x self others ms st',
  NoDup ms -> (forall m g, gmaps self m = Some g -> In m ms /\ glayers g = [] /\ Forall (pred_ok (gks g) (gvs g)) (ginvs g)) ->
  merge_states s k fuel x self others ms = Ok st' ->
  forall j st m o i, nth_error (self :: others) j = Some st -> gmaps self m <> None -> gmaps st m = Some o ->
  In i (gitems o) -> len_at o 0 <> BVV (width (len_at o 0)) 0 ->
  (forall r, holds r (gcs st) -> forall a b, In a (gitems o ++ [gunk o]) -> In b (gitems o ++ [gunk o]) ->
     ev r (ik a) = ev r (ik b) -> ev r (iv a) = ev r (iv b) /\ eb r (ip a) = eb r (ip b)) ->
  forall fuel' key st'' v p r, get s k fuel' st' m key None BTrue None = Ok (st'', (v, p)) -> holds r (gcs st'') ->
  ev r (BVS (flag_width (S (length others))) x) = N.of_nat j -> ev r key = ev r (ik i) ->
  holds r (gcs st) /\ eb r p = eb r (ip i) /\ (eb r p = true -> ev r v = ev r (iv i)).
Proof.
  intros s k SOK fuel x self others ms st' ND FL H j st m o i NJ DM GO Hi NE SE.
  apply (merge_states_reads s k SOK fuel x self others ms st' ND) with (o := o); auto.
  - intros m0 g0 G0. split; apply (FL m0 g0 G0).
  - destruct (gmaps self m) as [g|] eqn:G; [|congruence]. apply (FL m g G).
  - unfold is_definitely_empty. destruct (bv_eqb _ _) eqn:E; [|auto]. apply bv_eqb_eq in E. contradiction.
  - intros r Hr a b Ha Hb E. destruct (SE r Hr a b Ha Hb E) as [E1 E2]. unfold val. congruence.
Qed.
Print Assumptions C26_merged_states_partial.
Example C26_merged_states_example : exists st' o st'' v p r,
  merge_states bf cl_fold 3 9 lost_self [lost_other] [0] = Ok st' /\ gmaps lost_other 0 = Some o /\ map ik (gitems o) = [y] /\
  (forall r, holds r (gcs lost_other) -> settled r o) /\
  get bf cl_fold 3 st' 0 y None BTrue None = Ok (st'', (v, p)) /\ holds r (gcs st'') /\
  ev r (BVS (flag_width 2) 9) = 1 /\ eb r p = true /\ ev r x <> ev r y.
Proof.
  do 5 eexists. exists (mkEnv (fun v => if v =? 9 then 1 else if v =? 3 then 1 else 0) (fun _ => true)).
  split; [vm_compute; reflexivity|]. split; [vm_compute; reflexivity|]. split; [reflexivity|]. split.
  { intros r Hr. assert (GE : get bf cl_fold 3 lost_start 0 y None BTrue None = Ok (lost_other, (BVS 1 7, BoolS 7))) by (vm_compute; reflexivity).
    assert (GS : exists g, gmaps lost_start 0 = Some g /\ glayers g = [] /\ ginvs g = [] /\ gitems g = []) by (eexists; vm_compute; auto).
    destruct GS as [g [G [E1 [E2 E3]]]].
    assert (FL : flat g) by (split; [exact E1|rewrite E2; constructor]).
    assert (S0 : settled r g) by (intros a b Ha Hb _; rewrite E3 in Ha, Hb; destruct Ha as [<-|[]], Hb as [<-|[]]; reflexivity).
    destruct (get_settled bf cl_fold bf_ok 3 lost_start 0 g y lost_other (BVS 1 7) (BoolS 7) G FL GE r Hr S0) as [g' [G' [_ ST]]].
    vm_compute in G'. injection G' as <-. exact ST. }
  split; [vm_compute; reflexivity|].
  split; [intros c' Hc; vm_compute in Hc; repeat (destruct Hc as [<-|Hc]; [vm_compute; reflexivity|]); destruct Hc|].
  split; [reflexivity|]. split; [reflexivity|]. vm_compute. discriminate.
Qed.

(** C26 is false of written maps: two states wrote 0 and 1 at the same key; in the
    merged layer the state selected first reads what the other one wrote. *)
Theorem C26_written_map_refuted :
  let mc := merge_conds 9 2 in
  let mine := mkLayer [mkItem x (BVV 1 0) BTrue] (BVV 3 2) (0%nat, []) in
  let other := mkLayer [mkItem x (BVV 1 1) BTrue] (BVV 3 2) (0%nat, []) in
  layers_mergeable [mine] [other] = true /\
  exists r i, eb r (nth 0 mc BFalse) = true /\ eb r (nth 1 mc BFalse) = false /\
    litems (merge_layer mc mine [other]) = [i] /\ ev r (ik i) = ev r x /\ ev r (iv i) = 1.
Proof.
  split; [vm_compute; reflexivity|]. exists env0. eexists. split; [reflexivity|]. split; [reflexivity|]. split; [reflexivity|].
  split; reflexivity.
Qed.
Print Assumptions C26_written_map_refuted.

(** C27: [y] is read; then the constant keys 0 and 1 are written with value 1 and share
    a layer. For y = 1, reading [y] gives what it was before the writes. *)
Theorem C27_flattening_refuted : exists a b c d e v1 p1 v2 p2 r,
  map_new bf cl_fold 3 (ginit 4 3) 0 1 1 (Some (BVV 3 2, [])) = Ok a /\
  get bf cl_fold 3 a 0 y None BTrue None = Ok (b, (v1, p1)) /\
  set_ bf cl_fold 3 b 0 (BVV 1 0) (BVV 1 1) = Ok c /\
  set_ bf cl_fold 3 c 0 (BVV 1 1) (BVV 1 1) = Ok d /\ map_version d 0 = 1%nat /\
  get bf cl_fold 3 d 0 y None BTrue None = Ok (e, (v2, p2)) /\
  holds r (gcs e) /\ ev r y = 1 /\ eb r p2 = true /\ ev r v2 = 0.
Proof.
  do 9 eexists. exists (mkEnv (fun v => if v =? 3 then 1 else if v =? 4 then 1 else 0) (fun _ => true)).
  split; [vm_compute; reflexivity|]. split; [vm_compute; reflexivity|]. split; [vm_compute; reflexivity|]. split; [vm_compute; reflexivity|].
  split; [vm_compute; reflexivity|]. split; [vm_compute; reflexivity|].
  split; [intros c' Hc; vm_compute in Hc; repeat (destruct Hc as [<-|Hc]; [vm_compute; reflexivity|]); destruct Hc|].
  split; [reflexivity|]. split; reflexivity.
Qed.
Print Assumptions C27_flattening_refuted.

(** Lost executions: after the constant keys 0 and 1 were written to a map created
    empty, no assignment lets a key that is read next be 1, although nothing is known
    about that key. *)
Theorem C27_lost_executions_refuted : exists a b c e v p,
  map_new bf cl_fold 3 (ginit 4 3) 0 1 1 None = Ok a /\
  set_ bf cl_fold 3 a 0 (BVV 1 0) (BVV 1 1) = Ok b /\
  set_ bf cl_fold 3 b 0 (BVV 1 1) (BVV 1 1) = Ok c /\
  holds (mkEnv (fun v => if v =? 3 then 1 else 0) (fun _ => false)) (gcs c) /\
  get bf cl_fold 3 c 0 y None BTrue None = Ok (e, (v, p)) /\
  forall r, holds r (gcs e) -> ev r y <> 1.
Proof.
  do 6 eexists.
  split; [vm_compute; reflexivity|]. split; [vm_compute; reflexivity|]. split; [vm_compute; reflexivity|].
  split; [intros c' Hc; vm_compute in Hc; repeat (destruct Hc as [<-|Hc]; [vm_compute; reflexivity|]); destruct Hc|].
  split; [vm_compute; reflexivity|].
  intros r H E. assert (D : definitely_true bf (gcs ltac:(match goal with H : holds r (gcs ?e) |- _ => exact e end)) (BNe y (BVV 1 1)) = true) by (vm_compute; reflexivity).
  rewrite (definitely_true_spec bf bf_ok) in D. specialize (D r H). cbn [evalb BNe negb] in D.
  rewrite E in D. discriminate D.
Qed.
Print Assumptions C27_lost_executions_refuted.

(** Constant keys keep what was last written to them, in every assignment, however
    writes share layers and whatever else is read, quantified over (lookups in
    predicates included), written and removed in between. Missing: reads with a key that
    is not the constant itself, for which the property is false. The premise on the
    length: a map whose length is literally 0 reports every key absent. *)
Theorem C27_constant_write_then_read_partial : forall s k fuel r nin sz before st1 m g1 key value st2 between st3 g3 cv cond st4 v p,
  steps s k fuel (ginit nin sz) before st1 ->
  gmaps st1 m = Some g1 -> width key = gks g1 -> width value = gvs g1 -> literal key ->
  set_ s k fuel st1 m key value = Ok st2 ->
  steps s k fuel st2 between st3 -> spared r m (ev r key) between ->
  gmaps st3 m = Some g3 -> is_definitely_empty g3 0 = false ->
  get s k fuel st3 m key cv cond None = Ok (st4, (v, p)) ->
  eb r p = true /\ ev r v = ev r value.
Proof. exact constant_read_back. Qed.
Print Assumptions C27_constant_write_then_read_partial.
Theorem C27_constant_remove_then_read_partial : forall s k fuel r nin sz before st1 m g1 key st2 between st3 g3 cv cond st4 v p,
  steps s k fuel (ginit nin sz) before st1 ->
  gmaps st1 m = Some g1 -> width key = gks g1 -> literal key ->
  remove s k fuel st1 m key = Ok st2 ->
  steps s k fuel st2 between st3 -> spared r m (ev r key) between ->
  gmaps st3 m = Some g3 ->
  get s k fuel st3 m key cv cond None = Ok (st4, (v, p)) ->
  eb r p = false.
Proof. exact constant_removed. Qed.
Print Assumptions C27_constant_remove_then_read_partial.
(** The keys 0, 1 and 0 again are written, then 1 is removed; all in one map. The two
    first writes share a layer. *)
Example C27_example : exists a b c d e f v p v' p' g gd,
  steps bf cl_fold 3 (ginit 4 3) [ANew 0; AGet 0 y; ASet 0 (BVV 1 0) (BVV 1 1)] c /\
  map_new bf cl_fold 3 (ginit 4 3) 0 1 1 (Some (BVV 3 2, [])) = Ok a /\
  get bf cl_fold 3 a 0 y None BTrue None = Ok (b, (v, p)) /\
  set_ bf cl_fold 3 b 0 (BVV 1 0) (BVV 1 1) = Ok c /\
  set_ bf cl_fold 3 c 0 (BVV 1 1) (BVV 1 1) = Ok d /\ gmaps d 0 = Some gd /\ version gd = 1%nat /\
  steps bf cl_fold 3 d [ASet 0 (BVV 1 0) (BVV 1 0)] e /\
  gmaps e 0 = Some g /\ is_definitely_empty g 0 = false /\
  spared env0 0 1 [ASet 0 (BVV 1 0) (BVV 1 0)] /\
  get bf cl_fold 3 e 0 (BVV 1 1) None BTrue None = Ok (f, (v', p')) /\ literal (BVV 1 1).
Proof.
  do 12 eexists.
  assert (L : forall n, n < 2 -> literal (BVV 1 n)) by (intros n H; exists 1, n; split; [reflexivity|exact H]).
  split.
  { eapply steps_cons; [eapply s_new with (ks := 1) (vs := 1) (spec := Some (BVV 3 2, [])); vm_compute; reflexivity|].
    eapply steps_cons; [eapply s_get with (cval := None) (cond := BTrue) (ver := None); vm_compute; reflexivity|].
    eapply steps_cons; [eapply s_set; try (vm_compute; reflexivity); intros _; apply L; reflexivity|].
    apply steps_nil. }
  split; [vm_compute; reflexivity|]. split; [vm_compute; reflexivity|]. split; [vm_compute; reflexivity|].
  split; [vm_compute; reflexivity|]. split; [vm_compute; reflexivity|]. split; [vm_compute; reflexivity|].
  split.
  { eapply steps_cons; [eapply s_set; try (vm_compute; reflexivity); intros _; apply L; reflexivity|]. apply steps_nil. }
  split; [vm_compute; reflexivity|]. split; [vm_compute; reflexivity|].
  split; [intros o [<-|[]] _; vm_compute; discriminate|].
  split; [vm_compute; reflexivity|]. apply L. reflexivity.
Qed.

(** C28: whatever happens after an array was created - reads, writes and removals, of
    this map and of others, at any version, layers shared or not, predicates with lookups -
    if its own writes are within its length and nothing is removed from it, exactly the
    keys below the length it was created with are read as present, at any version. *)
Theorem C28_array_bounds : forall s k, solver_ok s -> claripy_ok k ->
  forall fuel st0 m ks vs len st1 between st2 key cv cond ver st3 v p r,
  gmaps st0 m = None -> new_array s k fuel st0 m ks vs len = Ok st1 -> alen_ok ks (gsz st0) len ->
  steps s k fuel st1 between st2 ->
  (forall o, In o between -> match o with
     | ASet m' key' _ => m' = m -> ev r key' < alen_val r len
     | ARemove m' _ => m' <> m
     | _ => True end) ->
  get s k fuel st2 m key cv cond ver = Ok (st3, (v, p)) -> holds r (gcs st3) -> eb r cond = true ->
  eb r p = (ev r key <? alen_val r len).
Proof. exact array_exact. Qed.
Print Assumptions C28_array_bounds.
(** A symbolic length 2; the key 0 is written and the key 1 read; and the same with the
    Python int 2 as the length and constant keys that share a layer. *)
Example C28_steps_example : exists a b c v p r,
  new_array bt cl_fold 3 (ginit 6 2) 0 2 1 (LBv (BVS 2 2)) = Ok a /\ alen_ok 2 2 (LBv (BVS 2 2)) /\
  steps bt cl_fold 3 a [ASet 0 (BVS 2 3) (BVV 1 1)] b /\
  get bt cl_fold 3 b 0 (BVS 2 4) None BTrue None = Ok (c, (v, p)) /\ holds r (gcs c) /\
  ev r (BVS 2 2) = 2 /\ ev r (BVS 2 3) = 0 /\ ev r (BVS 2 4) = 1 /\ eb r p = true.
Proof.
  do 5 eexists. exists (mkEnv (fun v => nth (N.to_nat v) [0; 0; 2; 0; 1; 0; 3; 1; 1; 1] 0) (fun v => (v =? 8) || (v =? 9))).
  split; [vm_compute; reflexivity|]. split; [split; [reflexivity|split; [intros w z [E|[]]; injection E as <- _; discriminate|intros z []]]|].
  split; [eapply steps_cons; [eapply s_set; try (vm_compute; reflexivity); intros H; discriminate H|apply steps_nil]|].
  split; [vm_compute; reflexivity|].
  split; [intros c' Hc; vm_compute in Hc; repeat (destruct Hc as [<-|Hc]; [vm_compute; reflexivity|]); destruct Hc|].
  split; [reflexivity|]. split; [reflexivity|]. split; reflexivity.
Qed.
Example C28_int_example : exists a b c v p r,
  new_array bf cl_fold 3 (ginit 4 3) 0 2 1 (LInt 2) = Ok a /\ alen_ok 2 3 (LInt 2) /\
  steps bf cl_fold 3 a [ASet 0 (BVV 2 0) (BVV 1 1); ASet 0 (BVV 2 1) (BVV 1 1)] b /\ map_version b 0 = 1%nat /\
  get bf cl_fold 3 b 0 (BVS 2 3) None BTrue None = Ok (c, (v, p)) /\ holds r (gcs c) /\
  ev r (BVS 2 3) = 3 /\ eb r p = false.
Proof.
  do 5 eexists. exists (mkEnv (fun v => nth (N.to_nat v) [0; 0; 0; 3; 3; 1; 1; 1; 1] 0) (fun v => (v =? 6) || (v =? 7))).
  split; [vm_compute; reflexivity|]. split; [split; reflexivity|].
  split.
  { eapply steps_cons; [eapply s_set; try (vm_compute; reflexivity); intros _; exists 2, 0; split; reflexivity|].
    eapply steps_cons; [eapply s_set; try (vm_compute; reflexivity); intros _; exists 2, 1; split; reflexivity|apply steps_nil]. }
  split; [vm_compute; reflexivity|]. split; [vm_compute; reflexivity|].
  split; [intros c' Hc; vm_compute in Hc; repeat (destruct Hc as [<-|Hc]; [vm_compute; reflexivity|]); destruct Hc|].
  split; reflexivity.
Qed.
(** The same of runs as in C17. *)
Theorem C28_array_bounds_in_runs : forall s k, solver_ok s -> claripy_ok k ->
  forall fuel es r before m ks vs len between key v p after,
  consistent s k fuel es r ->
  es = before ++ ENew m ks vs len [array_inv ks len] :: between ++ EGet m key v p :: after ->
  (forall e, In e between ->
     match e with
     | ESet m' key' _ _ => m' = m -> ev r key' < ev r len
     | ERemove m' _ => m' <> m
     | _ => True
     end) ->
  width len = ks -> width key = ks ->
  (forall w z, In (z, w) (vvars len) -> 2 <= z) -> (forall z, In z (vbools len) -> 1 <= z) ->
  eb r p = (ev r key <? ev r len).
Proof. exact array_always. Qed.
Print Assumptions C28_array_bounds_in_runs.
Example C28_example : consistent bf cl_fold 3 demo_array demo_array_env /\
  demo_array = [] ++ ENew 0 1 1 x [array_inv 1 x] :: [] ++ EGet 0 y (BVS 1 6) (BoolS 6) :: [] /\
  ev demo_array_env x = 1 /\ ev demo_array_env y = 0.
Proof. split; [exact demo_array_consistent|]. split; [reflexivity|]. split; reflexivity. Qed.
(** A key 0 is written in an array of length 2, then the key 1 is read. *)
Example C28_written_example : consistent bt cl_fold 3 demo_written demo_written_env /\ solver_ok bt /\
  demo_written = [] ++ ENew 0 2 1 (BVS 2 2) [array_inv 2 (BVS 2 2)] ::
    [ESet 0 (BVS 2 3) (BVV 1 1) (BVS 2 2)] ++ EGet 0 (BVS 2 4) (BVS 1 8) (BoolS 8) :: [] /\
  ev demo_written_env (BVS 2 2) = 2 /\ ev demo_written_env (BVS 2 3) = 0 /\ ev demo_written_env (BVS 2 4) = 1.
Proof.
  split; [exact demo_written_consistent|]. split; [exact bt_ok|]. split; [reflexivity|].
  split; [reflexivity|]. split; reflexivity.
Qed.
(** What the invariants given when a map is created say about a key never written since:
    they hold of what is read for it, present or not, in a map nothing was removed from. *)
Theorem C28_creation_invariants : forall s k, solver_ok s -> claripy_ok k ->
  forall fuel es r before m ks vs len invs between key v p after inv,
  consistent s k fuel es r ->
  es = before ++ ENew m ks vs len invs :: between ++ EGet m key v p :: after ->
  (forall e, In e between -> match e with ERemove m' _ => m' <> m | _ => True end) ->
  untouched r m (ev r key) between -> In inv invs ->
  eb (setKVP r (ev r key) (ev r v, eb r p)) inv = true \/ (ev r len = 0 /\ eb r p = false).
Proof. exact spare_reads. Qed.
Print Assumptions C28_creation_invariants.

(** C29: whatever happens after a map was created empty, a key read from it is present
    only if an equal key was written to it since; in particular nothing is present in a
    fresh map. *)
Theorem C29_only_written_keys : forall s k, solver_ok s -> claripy_ok k ->
  forall fuel st0 m ks vs st1 between st2 key cv cond ver st3 v p r,
  gmaps st0 m = None -> map_new s k fuel st0 m ks vs None = Ok st1 ->
  steps s k fuel st1 between st2 ->
  get s k fuel st2 m key cv cond ver = Ok (st3, (v, p)) -> holds r (gcs st3) -> eb r cond = true ->
  eb r p = true -> exists key' value, In (ASet m key' value) between /\ ev r key' = ev r key.
Proof. exact empty_only_written. Qed.
Print Assumptions C29_only_written_keys.
(** A forall over a map created empty and neither written to nor removed from is true,
    whatever else happened. *)
Theorem C29_forall_is_true : forall s k, solver_ok s -> claripy_ok k ->
  forall fuel st0 m ks vs st1 between st2 pred st3 t r,
  gmaps st0 m = None -> map_new s k fuel st0 m ks vs None = Ok st1 ->
  steps s k fuel st1 between st2 ->
  (forall o, In o between -> match o with ASet m' _ _ | ARemove m' _ => m' <> m | _ => True end) ->
  forall_ s k fuel st2 m pred = Ok (st3, t) -> holds r (gcs st3) -> t = BTrue.
Proof. exact empty_forall. Qed.
Print Assumptions C29_forall_is_true.
Example C29_steps_example : exists a b c d t v p r,
  map_new bf cl_fold 3 (ginit 4 3) 0 1 1 None = Ok a /\
  forall_ bf cl_fold 3 a 0 (BEq (VALUE 1) (BVV 1 0)) = Ok (b, t) /\
  steps bf cl_fold 3 b [ASet 0 x (BVV 1 1)] c /\
  get bf cl_fold 3 c 0 y None BTrue None = Ok (d, (v, p)) /\ holds r (gcs d) /\ ev r x = ev r y /\ eb r p = true.
Proof.
  do 7 eexists. exists (mkEnv (fun v => nth (N.to_nat v) [0; 0; 0; 0; 1; 1; 0; 1] 0) (fun v => (v =? 7))).
  split; [vm_compute; reflexivity|]. split; [vm_compute; reflexivity|].
  split; [eapply steps_cons; [eapply s_set; try (vm_compute; reflexivity); intros H; discriminate H|apply steps_nil]|].
  split; [vm_compute; reflexivity|].
  split; [intros c' Hc; vm_compute in Hc; repeat (destruct Hc as [<-|Hc]; [vm_compute; reflexivity|]); destruct Hc|].
  split; reflexivity.
Qed.

(** More, of runs as in C17: the write that made a key present is the last one of that
    key, it was not removed since, and its value is what is read. *)
Theorem C29_present_is_last_written : forall s k, solver_ok s -> claripy_ok k ->
  forall fuel es r before m ks vs len invs between key v p after,
  consistent s k fuel es r ->
  es = before ++ ENew m ks vs len invs :: between ++ EGet m key v p :: after ->
  In (BNot PRESENT) invs -> eb r p = true ->
  exists c1 key' value l c2, between = c1 ++ ESet m key' value l :: c2 /\ ev r key' = ev r key /\
    untouched r m (ev r key) c2 /\ ev r v = ev r value.
Proof. exact empty_absent. Qed.
Print Assumptions C29_present_is_last_written.
Theorem C29_forall_in_runs : forall s k, solver_ok s -> claripy_ok k ->
  forall fuel es r before m ks vs w invs between pred t after,
  consistent s k fuel es r ->
  es = before ++ ENew m ks vs (BVV w 0) invs :: between ++ EForall m pred t :: after ->
  unwritten m between -> t = BTrue.
Proof. exact first_forall. Qed.
Print Assumptions C29_forall_in_runs.
Example C29_example : consistent bf cl_fold 3 demo_empty demo_empty_env /\
  (exists a b v p c, demo_empty = a ++ ENew 0 1 1 (BVV 3 0) [BNot PRESENT] :: b ++ EGet 0 y v p :: c /\ eb demo_empty_env p = true) /\
  (exists a b p t c, demo_empty = a ++ ENew 0 1 1 (BVV 3 0) [BNot PRESENT] :: b ++ EForall 0 p t :: c /\ unwritten 0 b).
Proof.
  split; [exact demo_empty_consistent|]. split.
  - exists [], (firstn 3 (skipn 1 demo_empty)), (BVS 1 8), (BoolS 8), []. split; reflexivity.
  - exists [], (firstn 1 (skipn 1 demo_empty)). do 3 eexists. split; [reflexivity|]. intros e [<-|[]]. exact I.
Qed.
