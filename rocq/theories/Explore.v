(** * Exploration with merging (tool/kalm/merging.py 194-275, tool/kalm/executor.py 65-79) *)

From Coq Require Import NArith List Bool Lia Permutation.
From Verif Require Import Expr Solver KMerge.
Import ListNotations.
Open Scope nat_scope.

Section Explore.
Variable A : Type.
(** The instruction pointer, [None] when symbolic. *)
Variable rip : A -> option N.
(** [history.jumpkind == 'Ijk_Ret']. *)
Variable returned : A -> bool.
(** angr's step of one state: its successors, or an exception. *)
Variable engine : A -> res (list A).
(** Whether recording the step succeeds (116-153 index past the end of a shared
    constraint list when the forks have no diverging constraint). *)
Variable record_ok : A -> list A -> bool.
(** Comparison of call stacks; of return values if the block may return
    (246-254, [None] otherwise); plugins' mergeability tests; the merge of a pile of at
    least two states (merging.py 59-99), [None] if some plugin refuses. *)
Variable cs_eqb : A -> A -> bool.
Variable ret_eqb : A -> option (A -> A -> bool).
Variable plugins : list (option (A -> A -> bool)).
Variable merge : list A -> option A.

Record stashes := mkSt { active : list A; deferred : list A; deadended : list A }.

Definition ripv (a : A) : N := match rip a with Some n => n | None => 0%N end.

(** list.sort(reverse=True, key=rip): stable, decreasing. *)
Fixpoint insert_desc (a : A) (l : list A) : list A :=
  match l with
  | [] => [a]
  | b :: l' => if N.leb (ripv b) (ripv a) then a :: l else b :: insert_desc a l'
  end.
Definition sort_desc (l : list A) : list A := fold_right insert_desc [] l.

(** The while loop 222-229, on the reversed list (pop takes the last element). *)
Fixpoint take_lowest (first : A) (rl : list A) : list A * list A :=
  match rl with
  | [] => ([], [])
  | c :: rl' =>
      if N.eqb (ripv c) (ripv first) then
        let (lo, rest) := take_lowest first rl' in (c :: lo, rest)
      else ([], rl)
  end.

(** merging.py 59-64. *)
Definition merge_states (pile : list A) : option A :=
  match pile with [_] => None | _ => merge pile end.

(** merging.py 198-275. *)
Definition step (st : stashes) : res stashes :=
  match active st with
  | [] => Err
  | a :: others =>
      let def1 := deferred st ++ others in
      do succs <- engine a;
      if negb (record_ok a succs) then Err else
      let fin := deadended st ++ (match succs with [] => [a] | _ => [] end) in
      let def2 := def1 ++ succs in
      match def2 with
      | [] => Ok (mkSt [] [] fin)
      | _ =>
          if existsb (fun s => match rip s with None => true | Some _ => false end) def2 then Err else
          match rev (sort_desc def2) with
          | [] => Err
          | l0 :: rl =>
              let (lo, rest) := take_lowest l0 rl in
              let lowest := l0 :: lo in
              if returned l0 then Ok (mkSt lowest (rev rest) fin)
              else
                let piles := triage_for_merge cs_eqb (ret_eqb l0) plugins lowest in
                Ok (mkSt (flat_map (fun p => match merge_states p with None => p | Some m => [m] end) piles)
                         (rev rest) fin)
          end
      end
  end.

(** simgr.run: step while some state is active. *)
Fixpoint run (fuel : nat) (st : stashes) : res stashes :=
  match active st with
  | [] => Ok st
  | _ => match fuel with
         | O => NoFuel
         | S f => do st' <- step st; run f st'
         end
  end.
Fixpoint steps (n : nat) (st : stashes) : res stashes :=
  match n with O => Ok st | S n' => do st' <- step st; steps n' st' end.

(** ** Executions *)
(** [covers a e]: the concrete execution [e] is one of those the state stands for. *)
Variable E : Type.
Variable covers : A -> E -> Prop.
Definition covered (l : list A) (e : E) : Prop := exists a, In a l /\ covers a e.
Definition all_states (st : stashes) : list A := active st ++ deferred st ++ deadended st.

Hypothesis engine_ok : forall a succs e, engine a = Ok succs -> covers a e -> succs <> [] -> covered succs e.
Hypothesis merge_ok : forall pile m e, merge pile = Some m -> covered pile e -> covers m e.

Lemma insert_perm : forall a l, Permutation (insert_desc a l) (a :: l).
Proof.
  induction l as [|b l IH]; cbn; [auto|]. destruct (N.leb _ _); [auto|].
  etransitivity; [apply perm_skip, IH|]. constructor.
Qed.
Lemma sort_perm : forall l, Permutation (sort_desc l) l.
Proof.
  induction l as [|a l IH]; cbn; [auto|]. etransitivity; [apply insert_perm|]. constructor. auto.
Qed.
Lemma take_lowest_app : forall f rl lo rest, take_lowest f rl = (lo, rest) -> rl = lo ++ rest.
Proof.
  induction rl as [|c rl IH]; cbn; intros lo rest H; [injection H as <- <-; auto|].
  destruct (N.eqb _ _); [|injection H as <- <-; auto].
  destruct (take_lowest f rl) as [lo' rest']. injection H as <- <-. cbn. f_equal. apply IH. auto.
Qed.

Lemma covered_perm : forall l l' e, Permutation l l' -> covered l e -> covered l' e.
Proof. intros l l' e P [a [Ha C]]. exists a. split; [|auto]. eapply Permutation_in; eauto. Qed.
Lemma covered_app : forall l l' e, covered (l ++ l') e <-> covered l e \/ covered l' e.
Proof.
  intros. unfold covered. split.
  - intros [a [H C]]. apply in_app_iff in H as [H|H]; [left|right]; eauto.
  - intros [[a [H C]]|[a [H C]]]; exists a; split; auto; apply in_app_iff; auto.
Qed.
Lemma covered_concat : forall piles e, covered (concat piles) e -> exists p, In p piles /\ covered p e.
Proof.
  intros piles e [a [H C]]. apply in_concat in H as [p [Hp Ha]]. exists p. split; [auto|]. exists a. auto.
Qed.

Lemma step_covers : forall st st' e, step st = Ok st' -> covered (all_states st) e -> covered (all_states st') e.
Proof.
  intros st st' e H C. unfold step in H. destruct (active st) as [|a others] eqn:HA; [discriminate|].
  destruct (engine a) as [succs| |] eqn:HE; try discriminate. cbn [bindr] in H.
  destruct (record_ok a succs); cbn [negb] in H; [|discriminate].
  set (fin := deadended st ++ match succs with [] => [a] | _ => [] end) in *.
  set (def2 := (deferred st ++ others) ++ succs) in *.
  assert (C2 : covered (def2 ++ fin) e).
  { unfold all_states in C. rewrite HA in C. cbn [app] in C.
    change (a :: others ++ deferred st ++ deadended st) with ([a] ++ others ++ deferred st ++ deadended st) in C.
    rewrite !covered_app in C. unfold def2, fin. rewrite !covered_app.
    destruct C as [[x [[<-|[]] Ca]]|[C|[C|C]]]; auto.
    destruct succs as [|s succs].
    - right. right. exists a. split; [left; auto|auto].
    - left. right. eapply engine_ok; eauto. discriminate. }
  clearbody def2 fin. clear C.
  assert (D : (def2 = [] /\ Ok (mkSt [] [] fin) = Ok st') \/
     (def2 <> [] /\
      match rev (sort_desc def2) with
      | [] => Err
      | l0 :: rl =>
          let (lo, rest) := take_lowest l0 rl in
          let lowest := l0 :: lo in
          if returned l0 then Ok (mkSt lowest (rev rest) fin)
          else
            let piles := triage_for_merge cs_eqb (ret_eqb l0) plugins lowest in
            Ok (mkSt (flat_map (fun p => match merge_states p with None => p | Some m => [m] end) piles)
                     (rev rest) fin)
      end = Ok st')).
  { destruct def2; [left; auto|]. right. split; [discriminate|].
    destruct (existsb _ _) in H; [discriminate|]. exact H. }
  clear H. destruct D as [[-> H]|[NE H]].
  { injection H as <-. cbn in *. unfold all_states. cbn. exact C2. }
  destruct (rev (sort_desc def2)) as [|l0 rl] eqn:HR; [discriminate|].
  destruct (take_lowest l0 rl) as [lo rest] eqn:HT. apply take_lowest_app in HT.
  assert (P : Permutation ((l0 :: lo) ++ rev rest) def2).
  { etransitivity; [|apply sort_perm]. etransitivity; [|apply Permutation_sym, Permutation_rev].
    rewrite HR, HT. cbn [app]. apply perm_skip. apply Permutation_app_head, Permutation_sym, Permutation_rev. }
  assert (C3 : covered (((l0 :: lo) ++ rev rest) ++ fin) e).
  { eapply covered_perm; [|exact C2]. apply Permutation_app_tail, Permutation_sym, P. }
  rewrite !covered_app in C3.
  cbn zeta in H. destruct (returned l0).
  { injection H as <-. unfold all_states. cbn [active deferred deadended]. rewrite !covered_app. tauto. }
  injection H as <-. unfold all_states. cbn [active deferred deadended]. rewrite !covered_app.
  destruct C3 as [[C3|C3]|C3]; auto. left.
  apply covered_perm with (l' := concat (triage_for_merge cs_eqb (ret_eqb l0) plugins (l0 :: lo))) in C3;
    [|apply Permutation_sym, triage_perm].
  apply covered_concat in C3 as [p [Hp Cp]].
  unfold merge_states.
  assert (X : covered (match merge_states p with None => p | Some m => [m] end) e).
  { unfold merge_states. destruct p as [|x [|y p]].
    - destruct (merge []) eqn:M; [|exact Cp]. exists a0. split; [left; auto|]. eapply merge_ok; eauto.
    - exact Cp.
    - destruct (merge (x :: y :: p)) eqn:M; [|exact Cp]. exists a0. split; [left; auto|]. eapply merge_ok; eauto. }
  destruct X as [x [Hx Cx]]. exists x. split; [|auto]. apply in_flat_map. exists p. auto.
Qed.

Lemma steps_cover : forall n st st' e, steps n st = Ok st' -> covered (all_states st) e -> covered (all_states st') e.
Proof.
  induction n as [|n IH]; cbn; intros st st' e H C; [injection H as <-; auto|].
  destruct (step st) as [st1| |] eqn:S1; try discriminate. cbn [bindr] in H.
  eapply IH; [exact H|]. eapply step_covers; eauto.
Qed.

(** After a step, nothing is active only if nothing is deferred. *)
Lemma step_active : forall st st', step st = Ok st' -> active st' = [] -> deferred st' = [].
Proof.
  intros st st' H HA. unfold step in H. destruct (active st) as [|a others]; [discriminate|].
  destruct (engine a) as [succs| |]; try discriminate. cbn [bindr] in H.
  destruct (record_ok a succs); cbn [negb] in H; [|discriminate].
  destruct ((deferred st ++ others) ++ succs) as [|d def2].
  { injection H as <-. reflexivity. }
  destruct (existsb _ _); [discriminate|].
  destruct (rev (sort_desc (d :: def2))) as [|l0 rl]; [discriminate|].
  destruct (take_lowest l0 rl) as [lo rest]. destruct (returned l0).
  { injection H as <-. discriminate. }
  injection H as <-. cbn [active] in HA. exfalso.
  pose proof (triage_perm A cs_eqb (ret_eqb l0) plugins (l0 :: lo)) as P.
  assert (I : In l0 (concat (triage_for_merge cs_eqb (ret_eqb l0) plugins (l0 :: lo)))).
  { eapply Permutation_in; [apply Permutation_sym, P|]. left. auto. }
  apply in_concat in I as [p [Hp Hl]].
  assert (N : flat_map (fun p => match merge_states p with None => p | Some m => [m] end)
            (triage_for_merge cs_eqb (ret_eqb l0) plugins (l0 :: lo)) <> []); [|contradiction].
  intros F. destruct (merge_states p) as [m|] eqn:M.
  - assert (In m []); [|auto]. rewrite <- F. apply in_flat_map. exists p. rewrite M. split; [auto|left; auto].
  - assert (In l0 []); [|auto]. rewrite <- F. apply in_flat_map. exists p. rewrite M. auto.
Qed.

Lemma run_covers : forall fuel st st' e, run fuel st = Ok st' -> deferred st = [] \/ active st <> [] ->
  covered (all_states st) e -> covered (deadended st') e.
Proof.
  induction fuel as [|f IH]; intros st st' e H D C.
  - cbn in H. destruct (active st) eqn:HA; [|discriminate]. injection H as <-.
    destruct D as [D|D]; [|contradiction]. unfold all_states in C. rewrite HA, D in C. exact C.
  - cbn in H. destruct (active st) eqn:HA.
    + injection H as <-. destruct D as [D|D]; [|contradiction]. unfold all_states in C. rewrite HA, D in C. exact C.
    + destruct (step st) as [st1| |] eqn:S1; try discriminate. cbn [bindr] in H.
      eapply IH; [exact H| |eapply step_covers; eauto].
      destruct (active st1) eqn:HA1; [left; eapply step_active; eauto|right; discriminate].
Qed.

(** ** Order: what becomes active has the lowest instruction pointer *)
Fixpoint desc (l : list A) : Prop :=
  match l with
  | [] => True
  | a :: l' => (forall b, In b l' -> (ripv b <= ripv a)%N) /\ desc l'
  end.
Lemma insert_desc_ok : forall a l, desc l -> desc (insert_desc a l).
Proof.
  induction l as [|b l IH]; cbn; intros H; [split; [intros ? []|exact Logic.I]|].
  destruct (N.leb_spec (ripv b) (ripv a)) as [L|L].
  - cbn. split; [|exact H]. intros c [<-|Hc]; [auto|]. destruct H as [H _]. specialize (H c Hc). lia.
  - cbn. destruct H as [H1 H2]. split; [|auto]. intros c Hc.
    apply (Permutation_in _ (insert_perm a l)) in Hc as [<-|Hc]; [lia|auto].
Qed.
Lemma sort_desc_ok : forall l, desc (sort_desc l).
Proof. induction l; cbn; [exact Logic.I|]. apply insert_desc_ok. auto. Qed.
Lemma desc_app : forall l x, desc (l ++ [x]) -> forall y, In y l -> (ripv x <= ripv y)%N.
Proof.
  induction l as [|a l IH]; cbn; intros x H y Hy; [destruct Hy|].
  destruct H as [H1 H2]. destruct Hy as [<-|Hy]; [apply H1; apply in_app_iff; right; left; auto|].
  apply IH; auto.
Qed.
Lemma take_lowest_eq : forall f rl lo rest, take_lowest f rl = (lo, rest) -> forall x, In x lo -> ripv x = ripv f.
Proof.
  induction rl as [|c rl IH]; cbn; intros lo rest H x Hx; [injection H as <- <-; destruct Hx|].
  destruct (N.eqb_spec (ripv c) (ripv f)); [|injection H as <- <-; destruct Hx].
  destruct (take_lowest f rl) as [lo' rest']. injection H as <- <-. destruct Hx as [<-|Hx]; [auto|eapply IH; eauto].
Qed.
Lemma take_lowest_rest : forall f rl lo rest, take_lowest f rl = (lo, rest) -> desc (rev rl) ->
  (forall x, In x rl -> (ripv f <= ripv x)%N) -> forall x, In x rest -> (ripv f < ripv x)%N.
Proof.
  induction rl as [|c rl IH]; cbn; intros lo rest H D LE x Hx; [injection H as <- <-; destruct Hx|].
  assert (D' : desc (rev rl)).
  { clear -D. induction (rev rl) as [|a l IHl]; cbn in *; [exact Logic.I|]. destruct D as [D1 D2]. split; [|auto].
    intros b Hb. apply D1. apply in_app_iff. auto. }
  destruct (N.eqb_spec (ripv c) (ripv f)).
  - destruct (take_lowest f rl) as [lo' rest']. injection H as <- <-. eapply IH; eauto.
  - injection H as <- <-. pose proof (LE c (or_introl eq_refl)). destruct Hx as [<-|Hx]; [lia|].
    pose proof (desc_app (rev rl) c D x) as G. rewrite <- in_rev in G. specialize (G Hx). lia.
Qed.

(** Merging keeps the instruction pointer. *)
Lemma step_lowest : forall st st',
  (forall pile m, merge pile = Some m -> exists a, In a pile /\ ripv m = ripv a) ->
  step st = Ok st' -> forall a b, In a (active st') -> In b (deferred st') -> (ripv a < ripv b)%N.
Proof.
  intros st st' MR H. unfold step in H. destruct (active st) as [|a0 others]; [discriminate|].
  destruct (engine a0) as [succs| |]; try discriminate. cbn [bindr] in H.
  destruct (record_ok a0 succs); cbn [negb] in H; [|discriminate].
  destruct ((deferred st ++ others) ++ succs) as [|d def2].
  { injection H as <-. intros ? ? []. }
  destruct (existsb _ _); [discriminate|].
  destruct (rev (sort_desc (d :: def2))) as [|l0 rl] eqn:HR; [discriminate|].
  destruct (take_lowest l0 rl) as [lo rest] eqn:HT.
  assert (DS : desc (rev rl ++ [l0])).
  { replace (rev rl ++ [l0]) with (sort_desc (d :: def2)); [apply sort_desc_ok|].
    rewrite <- (rev_involutive (sort_desc (d :: def2))), HR. reflexivity. }
  assert (D' : desc (rev rl)).
  { clear -DS. induction (rev rl) as [|a l IHl]; cbn in *; [exact Logic.I|]. destruct DS as [D1 D2]. split; [|auto].
    intros b Hb. apply D1. apply in_app_iff. auto. }
  assert (R : forall x, In x rest -> (ripv l0 < ripv x)%N).
  { eapply take_lowest_rest; eauto. intros x Hx. apply (desc_app (rev rl) l0 DS). rewrite <- in_rev. auto. }
  assert (L : forall x, In x (l0 :: lo) -> ripv x = ripv l0).
  { intros x [<-|Hx]; [auto|eapply take_lowest_eq; eauto]. }
  destruct (returned l0).
  { injection H as <-. cbn. intros a b Ha Hb. rewrite <- in_rev in Hb. rewrite (L a Ha). auto. }
  injection H as <-. cbn [active deferred]. intros a b Ha Hb. rewrite <- in_rev in Hb.
  apply in_flat_map in Ha as [p [Hp Ha]].
  assert (PL : forall x, In x p -> ripv x = ripv l0).
  { intros x Hx. apply L. eapply Permutation_in; [apply (triage_perm A cs_eqb (ret_eqb l0) plugins)|].
    apply in_concat. eauto. }
  destruct (merge_states p) as [m|] eqn:M.
  - destruct Ha as [<-|[]]. unfold merge_states in M.
    assert (M' : merge p = Some m) by (destruct p as [|? [|? ?]]; try discriminate; exact M).
    destruct (MR p m M') as [y [Hy ->]]. rewrite (PL y Hy). auto.
  - rewrite (PL a Ha). auto.
Qed.

End Explore.

(** * The merge of path constraints meets the premise *)
(** States reduced to (instruction pointer, path constraints). Program symbols are
    those below [sel0]; selectors of merges are above. A state stands for the
    assignments to program symbols that some choice of selectors makes it accept. *)
Definition sel0 : N := 1000.
Definition cstate : Type := (N * list bexp)%type.
Definition covers_cs (a : cstate) (r : env) : Prop :=
  exists r', (forall y, (y < sel0)%N -> ebv r' y = ebv r y) /\ (forall b, ebool r' b = ebool r b) /\ holds r' (snd a).
(** A selector unused by any of the states. *)
Definition maxv (l : list (N * N)) : N := fold_right (fun p m => N.max (fst p) m) 0%N l.
Definition fresh_sel (pile : list cstate) : N :=
  N.max sel0 (maxv (flat_map (fun a => flat_map bvvars (snd a)) pile) + 1).
Definition merge_cs (pile : list cstate) : option cstate :=
  match pile with
  | [] => None
  | a :: others => Some (fst a, merge_states_constraints (fresh_sel pile) (snd a) (map snd others))
  end.

Lemma maxv_le : forall l p, In p l -> (fst p <= maxv l)%N.
Proof.
  induction l as [|q l IH]; intros p H; [destruct H|]. change (maxv (q :: l)) with (N.max (fst q) (maxv l)). destruct H as [<-|H]; [lia|]. specialize (IH p H). lia.
Qed.

Lemma merge_cs_ok : forall pile m r, merge_cs pile = Some m -> covered cstate env covers_cs pile r -> covers_cs m r.
Proof.
  intros pile m r H [a [Ha [r' [V [B C]]]]]. destruct pile as [|a0 others]; [discriminate|].
  cbn [merge_cs] in H. injection H as <-. set (x := fresh_sel (a0 :: others)).
  destruct (merge_states_constraints_or x (snd a0) (map snd others) r') as [_ OR].
  { intros cs Hcs c Hc F. change (snd a0 :: map snd others) with (map snd (a0 :: others)) in Hcs.
    apply in_map_iff in Hcs as [st [<- Hst]]. apply in_map_iff in F as [q [Fq Hq]].
    assert (In q (flat_map (fun a => flat_map bvvars (snd a)) (a0 :: others))).
    { apply in_flat_map. exists st. split; [auto|]. apply in_flat_map. exists c. auto. }
    apply maxv_le in H. unfold x, fresh_sel in Fq. lia. }
  destruct OR as [v Hv].
  - exists (snd a). split; [|auto]. change (snd a0 :: map snd others) with (map snd (a0 :: others)). apply in_map. auto.
  - exists (updv r' x v). cbn [snd]. split; [|split; [exact B|exact Hv]].
    intros y Hy. cbn. destruct (N.eqb_spec y x); [|auto].
    exfalso. unfold x, fresh_sel in e. lia.
Qed.
