(** Property theorems C01, C02, C12, C14, C15. *)

From Coq Require Import NArith List Bool Permutation.
From Verif Require Import Expr Solver KMerge.
Import ListNotations.
Open Scope N_scope.

(** C01: merging path constraints is exactly disjunction. *)
Theorem C01_merge_is_disjunction : forall x self others r,
  (forall cs, In cs (self :: others) -> fresh_for x cs) ->
  ((exists v, holds (updv r x v) (merge_states_constraints x self others)) <->
   exists cs, In cs (self :: others) /\ holds r cs).
Proof. exact merge_states_constraints_or. Qed.
Print Assumptions C01_merge_is_disjunction.

Theorem C01_merge_selected : forall x self others r,
  holds r (merge_states_constraints x self others) <->
  exists i, (i < S (length others))%nat /\
            wrap (flag_width (S (length others))) (ebv r x) = N.of_nat i /\
            holds r (nth i (self :: others) []).
Proof. exact merge_states_constraints_sel. Qed.
Print Assumptions C01_merge_selected.

(** Three states sharing one constraint: the merge adds five constraints. *)
Example C01_example :
  let p := BUlt (BVS 3 1) (BVV 3 5) in
  let a := BEq (BVS 3 1) (BVV 3 0) in
  let b := BEq (BVS 3 1) (BVV 3 1) in
  let c := BUlt (BVS 3 2) (BVV 3 4) in
  (forall cs, In cs [[p; a]; [p; b; c]; [p]] -> fresh_for 9 cs) /\
  length (merge_states_constraints 9 [p; a] [[p; b; c]; [p]]) = 5%nat.
Proof.
  split; [|vm_compute; reflexivity].
  intros cs Hcs c Hc.
  repeat (destruct Hcs as [<-|Hcs]; [repeat (destruct Hc as [<-|Hc]; [cbn; intuition discriminate|]); destruct Hc|]).
  destruct Hcs.
Qed.

(** C02: the selector conditions of an n-way merge are pairwise incompatible and
    each is achieved by a value of the selector, which fits its width. *)
Theorem C02_selector : forall x n,
  (forall r i j, (i < n)%nat -> (j < n)%nat ->
     eb r (nth i (merge_conds x n) BFalse) = true ->
     eb r (nth j (merge_conds x n) BFalse) = true -> i = j) /\
  (forall i, (i < n)%nat -> N.of_nat i < 2 ^ flag_width n) /\
  (forall r i, (i < n)%nat -> eb (updv r x (N.of_nat i)) (nth i (merge_conds x n) BFalse) = true).
Proof. exact selector_ok. Qed.
Print Assumptions C02_selector.

Example C02_example : map flag_width [2; 3; 4; 5; 8; 9]%nat = [1; 2; 2; 3; 3; 4].
Proof. vm_compute. reflexivity. Qed.

(** C12: triage is a partition respecting call stacks, return values and the
    plugin's mergeability test. *)
Theorem C12_partition : forall A cs_eqb ret_eqb plugins (states : list A),
  Permutation (concat (triage_for_merge cs_eqb ret_eqb plugins states)) states.
Proof. exact triage_perm. Qed.
Print Assumptions C12_partition.

Theorem C12_first_state_leads : forall A cs_eqb ret_eqb plugins (a : A) states,
  exists p ps, triage_for_merge cs_eqb ret_eqb plugins (a :: states) = (a :: p) :: ps.
Proof. exact triage_leads. Qed.
Print Assumptions C12_first_state_leads.

Theorem C12_same_callstack : forall A cs_eqb ret_eqb plugins (states : list A) q,
  equiv_test cs_eqb ->
  In q (triage_for_merge cs_eqb ret_eqb plugins states) ->
  q <> [] /\ forall a b, In a q -> In b q -> cs_eqb a b = true.
Proof. exact triage_callstack. Qed.
Print Assumptions C12_same_callstack.

Theorem C12_same_return_value : forall A cs_eqb e plugins (states : list A) q,
  equiv_test e ->
  In q (triage_for_merge cs_eqb (Some e) plugins states) ->
  forall a b, In a q -> In b q -> e a b = true.
Proof. exact triage_ret. Qed.
Print Assumptions C12_same_return_value.

(** klint registers one plugin with a mergeability test (ghost maps). *)
Theorem C12_accepted_by_representative : forall A cs_eqb ret_eqb before ok after (states : list A) h t,
  (forall p, In p before -> p = None) -> (forall p, In p after -> p = None) ->
  In (h :: t) (triage_for_merge cs_eqb ret_eqb (before ++ Some ok :: after) states) ->
  forall s, In s t -> ok h s = true.
Proof. intros A c r b ok a st h t Hb Ha Hq. exact (triage_plugin A c r b ok a st (h :: t) Hb Ha Hq). Qed.
Print Assumptions C12_accepted_by_representative.

Example C12_example :
  triage_for_merge (fun a b => Nat.eqb (Nat.modulo a 2) (Nat.modulo b 2)) None
    [None; Some (fun a b => Nat.leb b (a + 4))] [1; 2; 3; 8; 9; 4]%nat
  = [[1; 3]; [9]; [2; 4]; [8]]%nat.
Proof. vm_compute. reflexivity. Qed.

(** C14: under the (unique) guard that holds, the merged value is that state's value. *)
Theorem C14_merged_value : forall r w values i v0,
  (forall p, In p (v0 :: values) -> width (fst p) = w) ->
  (i < length (v0 :: values))%nat ->
  eb r (snd (nth i (v0 :: values) v0)) = true ->
  (forall j, (j < length (v0 :: values))%nat -> eb r (snd (nth j (v0 :: values) v0)) = true -> j = i) ->
  ev r (merge_values v0 values) = ev r (fst (nth i (v0 :: values) v0)).
Proof. exact merge_values_eval. Qed.
Print Assumptions C14_merged_value.

(** The guards are the merge conditions: with the selector equal to i. *)
Theorem C14_merged_value_selector : forall r w x vals i v0,
  (forall v, In v (v0 :: vals) -> width v = w) ->
  (i < length (v0 :: vals))%nat ->
  wrap (flag_width (length (v0 :: vals))) (ebv r x) = N.of_nat i ->
  let conds := merge_conds x (length (v0 :: vals)) in
  ev r (merge_values (v0, nth 0 conds BFalse) (combine vals (tl conds))) =
  ev r (nth i (v0 :: vals) v0).
Proof. exact merge_values_selector. Qed.
Print Assumptions C14_merged_value_selector.

Example C14_example :
  let r := updv env0 9 2 in
  ev r (merge_values (BVV 8 10, nth 0 (merge_conds 9 3) BFalse)
         (combine [BVV 8 20; BVV 8 30] (tl (merge_conds 9 3)))) = 30.
Proof. vm_compute. reflexivity. Qed.

(** C15: the trace of a merged state, restricted to the records whose condition
    holds under state i's selector, is state i's trace. *)
Theorem C15_trace_survives_merge : forall D (seg_is : seg D -> seg D -> bool),
  (forall a b, seg_is a b = true -> a = b) ->
  forall self others conds r i,
  length conds = S (length others) ->
  (i < length conds)%nat -> eb r (nth i conds BFalse) = true ->
  (forall j, (j < length conds)%nat -> eb r (nth j conds BFalse) = true -> j = i) ->
  map fst (filter (fun s => eb r (snd s)) (merge_path seg_is self others conds)) =
  map fst (filter (fun s => eb r (snd s)) (nth i (self :: others) [])).
Proof. exact merge_path_filter. Qed.
Print Assumptions C15_trace_survives_merge.

Example C15_example :
  let same := fun a b : seg N => N.eqb (fst a) (fst b) && bexp_eqb (snd a) (snd b) in
  let m := merge_path same [(1, BTrue); (2, BTrue)] [[(1, BTrue); (3, BTrue)]; [(1, BTrue)]] (merge_conds 9 3) in
  map fst m = [1; 2; 3] /\
  map fst (filter (fun s => eb (updv env0 9 1) (snd s)) m) = [1; 3].
Proof. vm_compute. auto. Qed.
