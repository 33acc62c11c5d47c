(** * Concrete runs on ghost maps

    Runs computed with the brute-force solver, for the examples of Props_Maps.v: they
    meet the hypotheses of the theorems there. *)

From Coq Require Import NArith List Bool Lia.
From Verif Require Import Expr Solver KMerge Wt GhostMap GhostSpec GhostTrace GhostMerge Bt.
Import ListNotations.
Open Scope N_scope.
Ltac one_map := let m := fresh in let g := fresh in let H := fresh in
  intros m g H; destruct m; [vm_compute in H; injection H as <-; vm_compute; repeat constructor|discriminate H].
Ltac doing c := eapply run_cons; [eapply c; try (vm_compute; reflexivity); try (split; vm_compute; reflexivity); try (repeat constructor; vm_compute; reflexivity)|one_map|one_map|].
Ltac did := apply run_nil.
Lemma d_set' : forall s k fuel st m g key value st' l,
  gmaps st m = Some g -> key_ok s st g key -> width value = gvs g ->
  set_ s k fuel st m key value = Ok st' -> len_at g 0 = l -> does s k fuel st (ESet m key value l) st'.
Proof. intros. subst. econstructor; eauto. Qed.
Lemma d_len' : forall s k fuel st m g l, gmaps st m = Some g -> len_at g 0 = l -> does s k fuel st (ELen m l) st.
Proof. intros. subst. econstructor; eauto. Qed.
(** Two keys that are inputs. *)
Definition x := BVS 1 2.
Definition y := BVS 1 3.
Definition x_or_new := BvAdd (BVV 3 2) (BvIte (BoolS 8) (BVV 3 0) (BVV 3 1)).
Definition y_val := BvIte (BEq y x) (BVV 1 1) (BVS 1 6).
Definition y_in := BIteB (BEq y x) BTrue (BoolS 6).
(** A map with one-bit keys and values and two items. The key [x] is written, the key
    [y] removed. *)
Definition demo : list event :=
  [ENew 0 1 1 (BVV 3 2) []; EGet 0 y (BVS 1 6) (BoolS 6);
           EForall 0 (BEq (VALUE 1) (BVV 1 1)) (BoolS 7);
           EGet 0 x (BVS 1 8) (BoolS 8); ELen 0 (BVV 3 2);
           EGet 0 x (BVS 1 8) (BoolS 8);
           ESet 0 x (BVV 1 1) (BVV 3 2);
           ELen 0 x_or_new;
           EGet 0 x (BVV 1 1) BTrue;
           EGet 0 y y_val y_in;
           EGet 0 y y_val y_in;
           ERemove 0 y;
           ELen 0 (BvAdd x_or_new (BvIte y_in (BVV 3 7) (BVV 3 0)));
           EGet 0 y (BVS 1 9) BFalse].
Definition demo_env := mkEnv (fun x => nth (N.to_nat x) [0; 0; 1; 0; 1; 1; 1; 0; 1; 0] 0) (fun x => nth (N.to_nat x) [false; false; false; false; false; false; true; true; false] false).
Lemma demo_consistent : consistent bf cl_fold 3 demo demo_env.
Proof.
  exists 4, 3. eexists. split; [lia|]. split.
  - unfold demo. doing d_new. doing d_get. doing d_forall. doing d_get. doing d_len'. doing d_get. doing d_set'. doing d_len'. doing d_get. doing d_get. doing d_get. doing d_remove. doing d_len'. doing d_get. did.
  - split.
    + intros c Hc. vm_compute in Hc. repeat (destruct Hc as [<-|Hc]; [vm_compute; reflexivity|]). destruct Hc.
    + intros m key v len H. repeat (destruct H as [H|H]; [try discriminate H; try (injection H as <- <- <- <-; vm_compute; reflexivity)|]). destruct H.
Qed.

(** An array of unknown length, and a map created empty. *)
Definition demo_array : list event :=
  [ENew 0 1 1 x [array_inv 1 x]; EGet 0 y (BVS 1 6) (BoolS 6)].
Definition demo_array_env := mkEnv (fun v => nth (N.to_nat v) [0; 0; 1; 0; 1; 1; 1] 0) (fun v => nth (N.to_nat v) [false; false; false; false; false; false; true] false).
Lemma demo_array_consistent : consistent bf cl_fold 3 demo_array demo_array_env.
Proof.
  exists 4, 3. eexists. split; [lia|]. split.
  - unfold demo_array. doing d_array. doing d_get. did.
  - split.
    + intros c Hc. vm_compute in Hc. repeat (destruct Hc as [<-|Hc]; [vm_compute; reflexivity|]). destruct Hc.
    + intros m key v len H. repeat (destruct H as [H|H]; [discriminate H|]). destruct H.
Qed.
(** An array with two-bit keys, of unknown length: one key is written, another read. *)
Definition demo_written : list event :=
  [ENew 0 2 1 (BVS 2 2) [array_inv 2 (BVS 2 2)]; ESet 0 (BVS 2 3) (BVV 1 1) (BVS 2 2); EGet 0 (BVS 2 4) (BVS 1 8) (BoolS 8)].
Definition demo_written_env := mkEnv (fun v => nth (N.to_nat v) [0; 0; 2; 0; 1; 3; 1; 1; 1] 0)
  (fun v => nth (N.to_nat v) [false; false; false; false; false; false; false; true; true] false).
Lemma demo_written_consistent : consistent bt cl_fold 3 demo_written demo_written_env.
Proof.
  exists 5, 3. eexists. split; [lia|]. split.
  - unfold demo_written. doing d_array. doing d_set'. doing d_get. did.
  - split.
    + intros c Hc. vm_compute in Hc. repeat (destruct Hc as [<-|Hc]; [vm_compute; reflexivity|]). destruct Hc.
    + intros m key v len H. repeat (destruct H as [H|H]; [try discriminate H; try (injection H as <- <- <- <-; vm_compute; reflexivity)|]). destruct H.
Qed.
Definition demo_empty : list event :=
  [ENew 0 1 1 (BVV 3 0) [BNot PRESENT]; EGet 0 y (BVS 1 6) BFalse; EForall 0 (BEq (VALUE 1) (BVV 1 1)) BTrue;
   ESet 0 x (BVV 1 1) (BVV 3 0); EGet 0 y (BVS 1 8) (BoolS 8)].
Definition demo_empty_env := mkEnv (fun v => nth (N.to_nat v) [0; 0; 1; 1; 0; 1; 1; 1; 1] 0) (fun v => nth (N.to_nat v) [false; false; false; false; false; false; false; false; true] false).
Lemma demo_empty_consistent : consistent bf cl_fold 3 demo_empty demo_empty_env.
Proof.
  exists 4, 3. eexists. split; [lia|]. split.
  - unfold demo_empty. doing d_empty. doing d_get. doing d_forall. doing d_set'. doing d_get. did.
  - split.
    + intros c Hc. vm_compute in Hc. repeat (destruct Hc as [<-|Hc]; [vm_compute; reflexivity|]). destruct Hc.
    + intros m key v len H. repeat (destruct H as [H|H]; [try discriminate H; try (injection H as <- <- <- <-; vm_compute; reflexivity)|]). destruct H.
Qed.

(** A history with a concrete execution: the map holds 0 -> 1; key [x] = 0 is read, key
    [y] = 1 is written and read back, and not all values are 1. *)
Definition hist : list op :=
  [ONew 0 1 1 (BVV 3 1) []; OGet 0 x; OSet 0 y (BVV 1 0); OGet 0 y; OForall 0 (BEq (VALUE 1) (BVV 1 1))].
Definition hist_in := mkEnv (fun v => nth (N.to_nat v) [0; 0; 0; 1] 0) (fun _ => false).
Lemma hist_runs : exists st rs, srun bf cl_fold 3 4 (ginit 4 3, []) hist = Ok (st, rs) /\
  stays_unfolded bf cl_fold 3 4 (ginit 4 3, []) hist /\
  exists cm, crun hist_in 4 3 (fun _ => 0) (fun _ => None, []) hist (cm, [done; (1, true); done; (0, true); (0, false)]).
Proof.
  eexists. eexists. split; [vm_compute; reflexivity|]. split.
  - vm_compute. repeat split; intros m g H; destruct m; try discriminate H; injection H as <-; repeat constructor.
  - eexists. unfold hist.
    eapply crun_cons; [reflexivity| |].
    { apply (c_new _ _ _ _ _ _ _ _ _ _ (fun q => if q =? 0 then (1, true) else (0, false))).
      - intros q. destruct (q =? 0); reflexivity.
      - exists [0]. split; [repeat constructor; intros []|]. split; [|reflexivity]. intros q. split.
        + intros [<-|[]]. split; reflexivity.
        + intros [_ H]. destruct q; [left; reflexivity|discriminate H].
      - intros p [].
      - intros p []. }
    eapply crun_cons; [exact I|eapply c_get; reflexivity|].
    eapply crun_cons; [vm_compute; discriminate|eapply c_set; reflexivity|].
    eapply crun_cons; [exact I|eapply c_get; reflexivity|].
    eapply crun_cons.
    + intros c H. right. exists 1. vm_compute in H. injection H as <-.
      split; [left; left; reflexivity|]. split; [reflexivity|]. unfold holds_at. vm_compute. discriminate.
    + eapply (c_forall _ _ _ _ _ _ _ _ false); [reflexivity|reflexivity|]. split; [discriminate|].
      intros H. specialize (H 1 eq_refl eq_refl). vm_compute in H. discriminate H.
    + apply crun_nil.
Qed.

(** The same without the predicate. *)
Lemma hist_runs_more : exists cm c, crun hist_in 4 3 (fun _ => 0) (fun _ => None, []) (firstn 4 hist) (cm, [done; (1, true); done; (0, true)]) /\
  cm 0 = Some c /\
  (In 1 (cseen c) /\ snd (ccont c 1) = true /\ ~ holds_at (tenv hist_in 4 [done; (1, true); done; (0, true)]) (ccont c) (BEq (VALUE 1) (BVV 1 1)) 1) /\
  (In 0 (cseen c) /\ snd (ccont c 0) = true /\ ~ holds_at (tenv hist_in 4 [done; (1, true); done; (0, true); (0, false)]) (ccont c) (BEq (VALUE 1) (BVV 1 0)) 0).
Proof.
  do 2 eexists. split.
  - unfold hist. cbn [firstn].
    eapply crun_cons; [reflexivity| |].
    { apply (c_new _ _ _ _ _ _ _ _ _ _ (fun q => if q =? 0 then (1, true) else (0, false))).
      - intros q. destruct (q =? 0); reflexivity.
      - exists [0]. split; [repeat constructor; intros []|]. split; [|reflexivity]. intros q. split.
        + intros [<-|[]]. split; reflexivity.
        + intros [_ H]. destruct q; [left; reflexivity|discriminate H].
      - intros p [].
      - intros p []. }
    eapply crun_cons; [exact I|eapply c_get; reflexivity|].
    eapply crun_cons; [vm_compute; discriminate|eapply c_set; reflexivity|].
    eapply crun_cons; [exact I|eapply c_get; reflexivity|].
    apply crun_nil.
  - split; [reflexivity|]. split; (split; [cbn [cseen In]; auto|]; split; [reflexivity|]; unfold holds_at; vm_compute; discriminate).
Qed.

(** ** Runs that go wrong *)

Definition plain : subst := mkSubst BVS BoolS.
(** A map of unknown content with two items. *)
Definition two : gst := match map_new bf cl_fold 3 (ginit 4 3) 0 1 1 (Some (BVV 3 2, [])) with Ok a => a | _ => ginit 4 3 end.
