(** * Merging symbolic states

    Models tool/kalm/solver.py 47-64 (path constraints), tool/kalm/merging.py
    15-55 (triage), 59-99 (selector), tool/kalm/memory/{memory,registers}.py
    (_merge_values), and tool/kalm/plugins/path.py 39-64 (call trace). *)

From Coq Require Import NArith List Bool Lia Arith Permutation.
From Verif Require Import Expr Solver.
Import ListNotations.
Open Scope N_scope.

(** ** Path constraints *)

(** The loop of solver.py 49-59 (and path.py 40-48): length of the common prefix of
    [self] and all [others]; [is not] on hash-consed expressions is structural
    inequality ([eqb]). *)
Fixpoint diverge {A : Type} (eqb : A -> A -> bool) (self : list A) (others : list (list A)) : nat :=
  match self with
  | [] => O
  | c :: self' =>
      if forallb (fun o => match o with [] => false | d :: _ => eqb c d end) others
      then S (diverge eqb self' (map (@tl A) others))
      else O
  end.

(** solver.py 47-64. *)
Definition merge_constraints (self : list bexp) (others : list (list bexp)) (conds : list bexp)
    : list bexp :=
  let d := diverge bexp_eqb self others in
  firstn d self
  ++ flat_map (fun p => map (fun extra => BOr (BNot (snd p)) extra) (skipn d (fst p)))
       (combine (self :: others) conds)
  ++ [BOrL conds].

(** merging.py 73-74: the selector symbol [x] and the merge conditions for [n]
    states. [math.ceil(math.log2(n))] is [N.log2_up n]. *)
Definition flag_width (n : nat) : N := N.log2_up (N.of_nat n).
Definition merge_conds (x : N) (n : nat) : list bexp :=
  map (fun i => BEq (BVS (flag_width n) x) (BVV (flag_width n) (N.of_nat i))) (seq 0 n).

(** merging.py 73-78 restricted to the solver: the merged path constraints. *)
Definition merge_states_constraints (x : N) (self : list bexp) (others : list (list bexp)) : list bexp :=
  merge_constraints self others (merge_conds x (S (length others))).

(** ** Values *)

(** claripy.ite_cases(cases, default). *)
Fixpoint ite_cases (cases : list (bexp * bv)) (default : bv) : bv :=
  match cases with
  | [] => default
  | (c, v) :: cases' => BvIte c v (ite_cases cases' default)
  end.
Fixpoint ite_cases_b (cases : list (bexp * bexp)) (default : bexp) : bexp :=
  match cases with
  | [] => default
  | (c, v) :: cases' => BIteB c v (ite_cases_b cases' default)
  end.

(** memory.py 21-22 / registers.py 20-21, [values] is non-empty. *)
Definition merge_values (v0 : bv * bexp) (rest : list (bv * bexp)) : bv :=
  ite_cases (map (fun p => (snd p, fst p)) rest) (fst v0).

(** ** Triage *)

(** merging.py 17-24, 31-35 and ghostmaps.py 545-555: put each state in the first
    pile whose first element accepts it, else open a new pile. A dictionary keyed by
    return value (31-35) is the same function with key equality. *)
Fixpoint place {A} (ok : A -> A -> bool) (piles : list (list A)) (s : A) : list (list A) :=
  match piles with
  | [] => [[s]]
  | p :: ps =>
      match p with
      | [] => p :: place ok ps s
      | h :: _ => if ok h s then (p ++ [s]) :: ps else p :: place ok ps s
      end
  end.
Definition greedy {A} (ok : A -> A -> bool) (l : list A) : list (list A) :=
  fold_left (place ok) l [].

(** merging.py 38-52: plugins without [merge_triage] are [None]. *)
Definition plugin_triage {A} (ok : option (A -> A -> bool)) (piles : list (list A)) : list (list A) :=
  match ok with
  | None => piles
  | Some ok => flat_map (fun p => match p with [_] => [p] | _ => greedy ok p end) piles
  end.

(** merging.py 15-55. [cs_eqb] compares call stacks, [ret_eqb] return values (if
    triage_ret_width is given), [plugins] the remaining plugins' tests. *)
Definition triage_for_merge {A} (cs_eqb : A -> A -> bool) (ret_eqb : option (A -> A -> bool))
    (plugins : list (option (A -> A -> bool))) (states : list A) : list (list A) :=
  let t := greedy cs_eqb states in
  let t := match ret_eqb with None => t | Some e => flat_map (greedy e) t end in
  fold_left (fun t p => plugin_triage p t) plugins t.

(** ** Call trace *)

(** One record of path.py 60-65: external name and arguments and result, abstract
    ([D]), and the condition. [did] decides identity of the record objects. *)
Definition seg (D : Type) : Type := (D * bexp)%type.
Definition merge_path {D} (seg_is : seg D -> seg D -> bool) (self : list (seg D))
    (others : list (list (seg D))) (conds : list bexp) : list (seg D) :=
  let d := diverge seg_is self others in
  firstn d self
  ++ flat_map (fun p => map (fun s => (fst s, BAnd (snd s) (snd p))) (skipn d (fst p)))
       (combine (self :: others) conds).

(** * Proofs *)

Lemma diverge_common : forall A (eqb : A -> A -> bool) (E : forall a b, eqb a b = true -> a = b)
    self others o,
  In o others -> firstn (diverge eqb self others) o = firstn (diverge eqb self others) self.
Proof.
  intros A eqb E. induction self as [|c self IH]; intros others o Ho; cbn; [reflexivity|].
  destruct (forallb _ others) eqn:F; [|reflexivity].
  rewrite forallb_forall in F. specialize (F o Ho).
  destruct o as [|d o]; [discriminate|]. apply E in F. subst d.
  cbn. f_equal. apply IH. apply in_map_iff. exists (c :: o). auto.
Qed.

Lemma diverge_split : forall A (eqb : A -> A -> bool) (E : forall a b, eqb a b = true -> a = b)
    self others o,
  In o (self :: others) ->
  o = firstn (diverge eqb self others) self ++ skipn (diverge eqb self others) o.
Proof.
  intros A eqb E self others o [<-|Ho].
  - symmetry. apply firstn_skipn.
  - rewrite <- (diverge_common A eqb E self others o Ho). symmetry. apply firstn_skipn.
Qed.

Lemma merge_constraints_holds : forall self others conds r,
  length conds = S (length others) ->
  (forall i j, (i < length conds)%nat -> (j < length conds)%nat ->
     eb r (nth i conds BFalse) = true -> eb r (nth j conds BFalse) = true -> i = j) ->
  (holds r (merge_constraints self others conds) <->
   exists i, (i < length conds)%nat /\ eb r (nth i conds BFalse) = true /\
             holds r (nth i (self :: others) [])).
Proof.
  intros * Hlen Hex. unfold merge_constraints.
  set (d := diverge bexp_eqb self others).
  assert (SP : forall o, In o (self :: others) -> o = firstn d self ++ skipn d o).
  { intros. apply diverge_split; auto. intros ? ?. apply bexp_eqb_eq. }
  rewrite !holds_app.
  assert (LC : length (combine (self :: others) conds) = length conds).
  { rewrite combine_length. cbn [length]. lia. }
  split.
  - intros [H1 [H2 H3]].
    assert (H3' : eb r (BOrL conds) = true) by (apply H3; left; reflexivity).
    apply BOrL_true in H3' as [c [Hc Ec]].
    apply (In_nth _ _ BFalse) in Hc as [i [Hi Hn]]. subst c.
    exists i. split; [auto|]. split; [auto|].
    assert (Hin : In (nth i (self :: others) []) (self :: others)).
    { apply nth_In. cbn [length]. lia. }
    rewrite (SP _ Hin). rewrite holds_app. split; [auto|].
    intros e He. 
    assert (X : eb r (BOr (BNot (nth i conds BFalse)) e) = true).
    { apply H2. apply in_flat_map. exists (nth i (self :: others) [], nth i conds BFalse).
      split.
      - rewrite <- combine_nth by (cbn [length]; lia).
        apply nth_In. rewrite LC. auto.
      - apply in_map_iff. exists e. auto. }
    cbn [evalb] in X. rewrite Ec in X. exact X.
  - intros [i [Hi [Ec Hh]]].
    assert (Hin : In (nth i (self :: others) []) (self :: others)).
    { apply nth_In. cbn [length]. lia. }
    rewrite (SP _ Hin) in Hh. rewrite holds_app in Hh. destruct Hh as [Ha Hb].
    split; [auto|]. split.
    + intros e He. apply in_flat_map in He as [[o c] [Hoc He]].
      apply in_map_iff in He as [e' [<- He']]. cbn [fst snd] in He'.
      cbn [evalb fst snd]. destruct (eb r c) eqn:E; [|reflexivity]. cbn.
      apply (In_nth _ _ ([], BFalse)) in Hoc as [j [Hj Hn]].
      rewrite LC in Hj. rewrite combine_nth in Hn by (cbn [length]; lia).
      injection Hn as <- <-.
      assert (i = j) by (apply Hex; auto). subst j. apply Hb. auto.
    + intros c [<-|[]]. apply BOrL_true. exists (nth i conds BFalse). split; [|auto].
      apply nth_In. auto.
Qed.

Lemma flag_width_ok : forall n i, (i < n)%nat -> N.of_nat i < 2 ^ flag_width n.
Proof.
  intros. unfold flag_width.
  destruct (Nat.eq_dec n 1) as [->|Hn].
  - replace i with O by lia. reflexivity.
  - assert (1 < N.of_nat n) by lia.
    pose proof (N.log2_up_spec (N.of_nat n) H0). lia.
Qed.

Lemma merge_conds_length : forall x n, length (merge_conds x n) = n.
Proof. intros. unfold merge_conds. rewrite map_length, seq_length. reflexivity. Qed.

Lemma merge_conds_nth : forall x n i, (i < n)%nat ->
  nth i (merge_conds x n) BFalse = BEq (BVS (flag_width n) x) (BVV (flag_width n) (N.of_nat i)).
Proof.
  intros. unfold merge_conds.
  rewrite nth_indep with (d' := (fun i => BEq (BVS (flag_width n) x) (BVV (flag_width n) (N.of_nat i))) O)
    by (rewrite map_length, seq_length; auto).
  rewrite (map_nth (fun i => BEq (BVS (flag_width n) x) (BVV (flag_width n) (N.of_nat i)))).
  rewrite seq_nth by auto. reflexivity.
Qed.

Lemma merge_conds_eval : forall x n i r, (i < n)%nat ->
  eb r (nth i (merge_conds x n) BFalse) = true <-> wrap (flag_width n) (ebv r x) = N.of_nat i.
Proof.
  intros. rewrite merge_conds_nth by auto. rewrite BEq_true. cbn [evalv].
  rewrite (wrap_small _ (N.of_nat i)) by (apply flag_width_ok; auto). tauto.
Qed.

Lemma merge_conds_exclusive : forall x n i j r, (i < n)%nat -> (j < n)%nat ->
  eb r (nth i (merge_conds x n) BFalse) = true ->
  eb r (nth j (merge_conds x n) BFalse) = true -> i = j.
Proof.
  intros * Hi Hj H1 H2. rewrite merge_conds_eval in H1, H2 by auto. lia.
Qed.

Lemma merge_states_constraints_sel : forall x self others r,
  holds r (merge_states_constraints x self others) <->
  exists i, (i < S (length others))%nat /\
            wrap (flag_width (S (length others))) (ebv r x) = N.of_nat i /\
            holds r (nth i (self :: others) []).
Proof.
  intros. unfold merge_states_constraints.
  rewrite merge_constraints_holds.
  - rewrite merge_conds_length. split; intros [i [Hi [Hc Hh]]]; exists i; (split; [auto|split; [|auto]]);
    apply (merge_conds_eval x (S (length others)) i r Hi); auto.
  - apply merge_conds_length.
  - rewrite merge_conds_length. intros. eapply merge_conds_exclusive; eauto.
Qed.

(** A symbol that does not occur in a list of constraints. *)
Definition fresh_for (x : N) (cs : list bexp) : Prop :=
  forall c, In c cs -> ~ In x (map fst (bvvars c)).

Lemma holds_updv : forall x v cs r, fresh_for x cs -> holds (updv r x v) cs <-> holds r cs.
Proof.
  intros * F. unfold holds. split; intros H c Hc; rewrite <- (H c Hc); apply evalb_agree;
  (split; [|reflexivity]); intros y w Hy; cbn; destruct (N.eqb_spec y x); auto; subst;
  exfalso; apply (F c Hc); apply in_map_iff; exists (x, w); auto.
Qed.

Lemma merge_states_constraints_or : forall x self others r,
  (forall cs, In cs (self :: others) -> fresh_for x cs) ->
  ((exists v, holds (updv r x v) (merge_states_constraints x self others)) <->
   exists cs, In cs (self :: others) /\ holds r cs).
Proof.
  intros * F. split.
  - intros [v H]. apply merge_states_constraints_sel in H as [i [Hi [_ Hh]]].
    exists (nth i (self :: others) []).
    assert (In (nth i (self :: others) []) (self :: others)) by (apply nth_In; cbn [length]; auto).
    split; [auto|]. rewrite holds_updv in Hh; auto.
  - intros [cs [Hin Hh]]. apply (In_nth _ _ []) in Hin as [i [Hi E]]. cbn [length] in Hi.
    exists (N.of_nat i). apply merge_states_constraints_sel. exists i. split; [auto|].
    split.
    + cbn. rewrite N.eqb_refl. apply wrap_small. apply flag_width_ok. auto.
    + rewrite E. apply holds_updv; auto. apply F. subst cs. apply nth_In. auto.
Qed.

(** ** Values *)

Lemma ite_cases_eval : forall r cases default w,
  (forall c v, In (c, v) cases -> width v = w) -> width default = w ->
  width (ite_cases cases default) = w /\
  ev r (ite_cases cases default) =
  match find (fun p => eb r (fst p)) cases with Some p => ev r (snd p) | None => ev r default end.
Proof.
  induction cases as [|[c v] cases IH]; intros * Hw Hd; cbn [ite_cases find fst].
  - auto.
  - destruct (IH default w) as [IW IE]; [intros; eapply Hw; right; eauto|auto|].
    assert (Wv : width v = w) by (eapply Hw; left; reflexivity).
    split; [cbn [width]; auto|].
    cbn [evalv]. rewrite Wv. destruct (eb r c); cbn [snd].
    + apply wrap_small. rewrite <- Wv. apply evalv_lt.
    + rewrite wrap_small; [auto|]. rewrite <- IW. apply evalv_lt.
Qed.

Lemma ite_cases_b_eval : forall r cases default,
  eb r (ite_cases_b cases default) =
  match find (fun p => eb r (fst p)) cases with Some p => eb r (snd p) | None => eb r default end.
Proof.
  induction cases as [|[c v] cases IH]; intros; cbn; [reflexivity|].
  destruct (eb r c); auto.
Qed.

Lemma merge_values_eval : forall r w values i v0,
  (forall p, In p (v0 :: values) -> width (fst p) = w) ->
  (i < length (v0 :: values))%nat ->
  eb r (snd (nth i (v0 :: values) v0)) = true ->
  (forall j, (j < length (v0 :: values))%nat -> eb r (snd (nth j (v0 :: values) v0)) = true -> j = i) ->
  ev r (merge_values v0 values) = ev r (fst (nth i (v0 :: values) v0)).
Proof.
  intros * Hw Hi Hg Hu. unfold merge_values.
  destruct (ite_cases_eval r (map (fun p => (snd p, fst p)) values) (fst v0) w) as [_ E].
  { intros c v H. apply in_map_iff in H as [p [E H]]. injection E as <- <-. apply Hw. right. auto. }
  { apply Hw. left. reflexivity. }
  rewrite E. clear E.
  destruct i as [|i].
  - cbn [nth]. destruct (find _ _) as [p|] eqn:F; [|reflexivity].
    apply find_some in F as [Hin Hp]. apply in_map_iff in Hin as [q [<- Hq]]. cbn [fst snd] in *.
    apply (In_nth _ _ v0) in Hq as [j [Hj En]].
    assert (S j = O); [|discriminate]. apply Hu; [cbn [length]; lia|].
    cbn [nth]. rewrite En. auto.
  - cbn [nth length] in *.
    destruct (find _ _) as [p|] eqn:F.
    + apply find_some in F as [Hin Hp]. apply in_map_iff in Hin as [q [<- Hq]]. cbn [fst snd] in *.
      apply (In_nth _ _ v0) in Hq as [j [Hj En]].
      assert (S j = S i). { apply Hu; [lia|]. cbn [nth]. rewrite En. auto. }
      injection H as ->. rewrite En. reflexivity.
    + exfalso. eapply find_none in F.
      2:{ apply in_map_iff. exists (nth i values v0). split; [reflexivity|]. apply nth_In. lia. }
      cbn [fst] in F. congruence.
Qed.

(** ** Triage *)

Lemma place_perm : forall A ok piles (s : A), Permutation (concat (place ok piles s)) (s :: concat piles).
Proof.
  induction piles as [|p piles IH]; intros; cbn; [auto|].
  destruct p as [|h p].
  - cbn. auto.
  - destruct (ok h s); cbn.
    + rewrite <- app_assoc. cbn. constructor || idtac.
      etransitivity; [apply perm_skip; symmetry; apply Permutation_middle|]. apply perm_swap.
    + etransitivity; [apply perm_skip, Permutation_app_head, IH|].
      etransitivity; [apply perm_skip; symmetry; apply Permutation_middle|]. apply perm_swap.
Qed.

Lemma fold_place_perm : forall A ok l piles, 
  Permutation (concat (fold_left (place (A:=A) ok) l piles)) (concat piles ++ l).
Proof.
  induction l as [|s l IH]; intros; cbn; [rewrite app_nil_r; auto|].
  etransitivity; [apply IH|].
  etransitivity; [apply Permutation_app_tail, place_perm|].
  cbn. apply Permutation_middle.
Qed.

Lemma greedy_perm : forall A ok (l : list A), Permutation (concat (greedy ok l)) l.
Proof. intros. unfold greedy. etransitivity; [apply fold_place_perm|]. reflexivity. Qed.

(** Every pile is non-empty and its members were accepted by its first element. *)
Definition pile_ok {A} (ok : A -> A -> bool) (p : list A) : Prop :=
  match p with [] => False | h :: t => forall s, In s t -> ok h s = true end.

Lemma place_ok : forall A ok piles (s : A),
  (forall p, In p piles -> pile_ok ok p) -> forall p, In p (place ok piles s) -> pile_ok ok p.
Proof.
  induction piles as [|q piles IH]; intros * H p Hp; cbn in Hp.
  - destruct Hp as [<-|[]]. cbn. tauto.
  - destruct q as [|h q].
    + destruct (H [] (or_introl eq_refl)).
    + destruct (ok h s) eqn:E.
      * destruct Hp as [<-|Hp]; [|apply H; right; auto].
        cbn. intros t Ht. apply in_app_or in Ht as [Ht|[<-|[]]]; [|auto].
        exact (H (h :: q) (or_introl eq_refl) t Ht).
      * destruct Hp as [<-|Hp]; [apply H; left; auto|].
        eapply IH; [|exact Hp]. intros; apply H; right; auto.
Qed.

Lemma greedy_ok : forall A ok (l : list A) p, In p (greedy ok l) -> pile_ok ok p.
Proof.
  intros A ok l. unfold greedy.
  assert (forall piles, (forall p, In p piles -> pile_ok ok p) ->
            forall p, In p (fold_left (place ok) l piles) -> pile_ok ok p).
  { induction l as [|s l IH]; cbn; intros; [auto|].
    eapply IH; [|eassumption]. intros. eapply place_ok; eauto. }
  apply H. intros p [].
Qed.

(** Members of greedy piles keep any relation they all had, and equal heads. *)
Lemma greedy_in : forall A ok (l : list A) p s, In p (greedy ok l) -> In s p -> In s l.
Proof.
  intros * Hp Hs. eapply Permutation_in; [apply greedy_perm|].
  apply in_concat. eauto.
Qed.

Lemma flat_map_concat_perm : forall A (f : list A -> list (list A)) piles,
  (forall p, In p piles -> Permutation (concat (f p)) p) ->
  Permutation (concat (flat_map f piles)) (concat piles).
Proof.
  induction piles as [|p piles IH]; intros H; cbn; [auto|].
  rewrite concat_app. apply Permutation_app; [apply H; left; auto|apply IH; intros; apply H; right; auto].
Qed.

Lemma plugin_triage_perm : forall A ok (piles : list (list A)),
  Permutation (concat (plugin_triage ok piles)) (concat piles).
Proof.
  intros A [ok|] piles; cbn; [|auto].
  apply flat_map_concat_perm. intros p _.
  destruct p as [|a [|b p]]; try apply greedy_perm. cbn. auto.
Qed.

Lemma triage_perm : forall A cs_eqb ret_eqb plugins (states : list A),
  Permutation (concat (triage_for_merge cs_eqb ret_eqb plugins states)) states.
Proof.
  intros. unfold triage_for_merge.
  assert (G : forall t, Permutation (concat (fold_left (fun t p => plugin_triage p t) plugins t)) (concat t)).
  { induction plugins as [|p plugins IH]; intros; cbn; [auto|].
    etransitivity; [apply IH|]. apply plugin_triage_perm. }
  etransitivity; [apply G|].
  destruct ret_eqb as [e|].
  - etransitivity; [apply flat_map_concat_perm; intros; apply greedy_perm|]. apply greedy_perm.
  - apply greedy_perm.
Qed.

(** All members of a pile are pairwise related. *)
Definition uniform {A} (R : A -> A -> Prop) (p : list A) : Prop :=
  forall a b, In a p -> In b p -> R a b.

Lemma pile_ok_uniform : forall A (ok : A -> A -> bool) p,
  (forall a, ok a a = true) ->
  (forall a b, ok a b = true -> ok b a = true) ->
  (forall a b c, ok a b = true -> ok b c = true -> ok a c = true) ->
  pile_ok ok p -> uniform (fun a b => ok a b = true) p.
Proof.
  intros * R S T H a b Ha Hb. destruct p as [|h p]; [destruct H|]. cbn in H.
  assert (HA : ok h a = true) by (destruct Ha as [<-|Ha]; auto).
  assert (HB : ok h b = true) by (destruct Hb as [<-|Hb]; auto).
  eauto.
Qed.

Lemma plugin_triage_sub : forall A ok (piles : list (list A)) q,
  (forall p, In p piles -> p <> []) ->
  In q (plugin_triage ok piles) ->
  q <> [] /\ exists p, In p piles /\ (forall s, In s q -> In s p).
Proof.
  intros A [ok|] piles q NE Hq; cbn in Hq.
  - apply in_flat_map in Hq as [p [Hp Hq]].
    assert (K : In q (greedy ok p) -> q <> [] /\ exists p, In p piles /\ (forall s, In s q -> In s p)).
    { intros G. split.
      - apply greedy_ok in G. destruct q; [destruct G|discriminate].
      - exists p. split; [auto|]. intros. eapply greedy_in; eauto. }
    destruct p as [|a [|b p]].
    + apply K. exact Hq.
    + destruct Hq as [<-|[]]. split; [discriminate|]. exists [a]. auto.
    + apply K. exact Hq.
  - split; [auto|]. exists q. auto.
Qed.

Lemma fold_plugin_triage_sub : forall A plugins (piles : list (list A)) q,
  (forall p, In p piles -> p <> []) ->
  In q (fold_left (fun t p => plugin_triage p t) plugins piles) ->
  q <> [] /\ exists p, In p piles /\ (forall s, In s q -> In s p).
Proof.
  induction plugins as [|ok plugins IH]; cbn; intros * NE Hq.
  - split; [auto|]. exists q. auto.
  - apply IH in Hq as [Hn [p [Hp Hs]]].
    + split; [auto|]. apply plugin_triage_sub in Hp as [_ [p' [Hp' Hs']]]; [|auto].
      exists p'. split; [auto|]. intros. auto.
    + intros p Hp. apply plugin_triage_sub in Hp; tauto.
Qed.

Lemma flat_greedy_ok : forall A e (piles : list (list A)) q,
  In q (flat_map (greedy e) piles) ->
  pile_ok e q /\ exists p, In p piles /\ (forall s, In s q -> In s p).
Proof.
  intros * Hq. apply in_flat_map in Hq as [p [Hp Hq]]. split.
  - eapply greedy_ok; eauto.
  - exists p. split; [auto|]. intros. eapply greedy_in; eauto.
Qed.

(** Equivalence tests: call stacks and return values. *)
Definition equiv_test {A} (e : A -> A -> bool) : Prop :=
  (forall a, e a a = true) /\ (forall a b, e a b = true -> e b a = true) /\
  (forall a b c, e a b = true -> e b c = true -> e a c = true).

Lemma triage_callstack : forall A cs_eqb ret_eqb plugins (states : list A) q,
  equiv_test cs_eqb ->
  In q (triage_for_merge cs_eqb ret_eqb plugins states) ->
  q <> [] /\ uniform (fun a b => cs_eqb a b = true) q.
Proof.
  intros * [R [S T]] Hq. unfold triage_for_merge in Hq.
  assert (G : forall p, In p (greedy cs_eqb states) -> uniform (fun a b => cs_eqb a b = true) p).
  { intros p Hp. apply pile_ok_uniform; auto. eapply greedy_ok; eauto. }
  assert (NE0 : forall p, In p (greedy cs_eqb states) -> p <> []).
  { intros p Hp. apply greedy_ok in Hp. destruct p; [destruct Hp|discriminate]. }
  destruct ret_eqb as [e|].
  - apply fold_plugin_triage_sub in Hq as [NE [p [Hp Hs]]].
    + split; [auto|]. apply flat_greedy_ok in Hp as [_ [p' [Hp' Hs']]].
      intros a b Ha Hb. apply (G p' Hp'); auto.
    + intros p Hp. apply flat_greedy_ok in Hp as [Hp _]. destruct p; [destruct Hp|discriminate].
  - apply fold_plugin_triage_sub in Hq as [NE [p [Hp Hs]]]; [|auto].
    split; [auto|]. intros a b Ha Hb. apply (G p Hp); auto.
Qed.

Lemma triage_ret : forall A cs_eqb e plugins (states : list A) q,
  equiv_test e ->
  In q (triage_for_merge cs_eqb (Some e) plugins states) ->
  uniform (fun a b => e a b = true) q.
Proof.
  intros * [R [S T]] Hq. unfold triage_for_merge in Hq.
  apply fold_plugin_triage_sub in Hq as [NE [p [Hp Hs]]].
  - apply flat_greedy_ok in Hp as [Hp _].
    intros a b Ha Hb. apply (pile_ok_uniform _ e p R S T Hp); auto.
  - intros p Hp. apply flat_greedy_ok in Hp as [Hp _]. destruct p; [destruct Hp|discriminate].
Qed.

(** One plugin with a mergeability test ([state.maps] in klint): each member of a
    pile was accepted by the pile's first state. *)
Lemma triage_plugin : forall A cs_eqb ret_eqb before ok after (states : list A) q,
  (forall p, In p before -> p = None) -> (forall p, In p after -> p = None) ->
  In q (triage_for_merge cs_eqb ret_eqb (before ++ Some ok :: after) states) ->
  pile_ok ok q.
Proof.
  intros * Hb Ha Hq. unfold triage_for_merge in Hq.
  set (t := match ret_eqb with None => _ | Some e => _ end) in Hq.
  assert (NEt : forall p, In p t -> p <> []).
  { subst t. intros p Hp. destruct ret_eqb as [e|].
    - apply flat_greedy_ok in Hp as [Hp _]. destruct p; [destruct Hp|discriminate].
    - apply greedy_ok in Hp. destruct p; [destruct Hp|discriminate]. }
  clearbody t.
  assert (NN : forall l (t : list (list A)), (forall p, In p l -> p = None) ->
     fold_left (fun t p => plugin_triage p t) l t = t).
  { induction l as [|o l IH]; cbn; intros; [reflexivity|].
    rewrite (H o (or_introl eq_refl)). cbn. apply IH. intros. apply H. right. auto. }
  rewrite fold_left_app in Hq. rewrite (NN before t Hb) in Hq.
  cbn [fold_left] in Hq. rewrite NN in Hq by auto.
  cbn in Hq. apply in_flat_map in Hq as [p [Hp Hq]].
  destruct p as [|a [|b p]].
  - destruct (NEt [] Hp eq_refl).
  - destruct Hq as [<-|[]]. cbn. tauto.
  - eapply greedy_ok; eauto.
Qed.

(** ** Call trace *)

Lemma filter_map_and : forall D r c (l : list (seg D)),
  filter (fun s => eb r (snd s)) (map (fun s => (fst s, BAnd (snd s) c)) l) =
  if eb r c then map (fun s => (fst s, BAnd (snd s) c)) (filter (fun s => eb r (snd s)) l) else [].
Proof.
  induction l as [|[d k] l IH]; cbn; [destruct (eb r c); auto|].
  rewrite IH. destruct (eb r k), (eb r c); cbn; auto.
Qed.

Lemma filter_flat_map : forall A B (f : A -> list B) p l,
  filter p (flat_map f l) = flat_map (fun x => filter p (f x)) l.
Proof. induction l; cbn; auto. rewrite filter_app, IHl. reflexivity. Qed.

Lemma merge_path_filter : forall D (seg_is : seg D -> seg D -> bool)
    (E : forall a b, seg_is a b = true -> a = b) self others conds r i,
  length conds = S (length others) ->
  (i < length conds)%nat -> eb r (nth i conds BFalse) = true ->
  (forall j, (j < length conds)%nat -> eb r (nth j conds BFalse) = true -> j = i) ->
  map fst (filter (fun s => eb r (snd s)) (merge_path seg_is self others conds)) =
  map fst (filter (fun s => eb r (snd s)) (nth i (self :: others) [])).
Proof.
  intros * E * HL Hi Hc Hu. unfold merge_path.
  set (d := diverge seg_is self others).
  assert (Hin : In (nth i (self :: others) []) (self :: others)) by (apply nth_In; cbn [length]; lia).
  rewrite (diverge_split _ seg_is E self others _ Hin) at 1. fold d.
  rewrite !filter_app, !map_app. f_equal.
  rewrite filter_flat_map.
  assert (G : forall ls cs k, length ls = length cs ->
     (forall j, (j < length cs)%nat -> eb r (nth j cs BFalse) = true -> j = k) ->
     (k < length cs)%nat -> eb r (nth k cs BFalse) = true ->
     map fst (flat_map (fun p : list (seg D) * bexp => filter (fun s => eb r (snd s))
        (map (fun s => (fst s, BAnd (snd s) (snd p))) (skipn d (fst p)))) (combine ls cs)) =
     map fst (filter (fun s => eb r (snd s)) (skipn d (nth k ls [])))).
  { induction ls as [|l ls IH]; intros cs k Hl Hk Hlt Hck; destruct cs as [|c cs]; cbn [length] in *; try lia.
    cbn [combine flat_map fst snd]. rewrite filter_map_and, map_app.
    destruct k as [|k].
    - cbn [nth] in Hck. rewrite Hck. rewrite map_map. cbn [fst nth].
      replace (flat_map _ (combine ls cs)) with (@nil (seg D)).
      + rewrite app_nil_r. reflexivity.
      + assert (forall j, (j < length cs)%nat -> eb r (nth j cs BFalse) = false).
        { intros j Hj. destruct (eb r (nth j cs BFalse)) eqn:X; [|reflexivity].
          assert (S j = O); [|discriminate]. apply Hk; [lia|]. exact X. }
        clear - H Hl. injection Hl as Hl. revert cs H Hl.
        induction ls as [|l ls IH]; intros cs H Hl; destruct cs as [|c cs]; cbn in *; try lia; [reflexivity|].
        rewrite filter_map_and. rewrite (H O) by lia. cbn. apply IH; [|lia].
        intros j Hj. apply (H (S j)). lia.
    - cbn [nth] in *.
      destruct (eb r c) eqn:X.
      + assert (O = S k); [|discriminate]. apply Hk; [lia|]. exact X.
      + cbn. apply IH; try lia; [|auto]. intros j Hj Hx.
        assert (S j = S k); [|lia]. apply Hk; [lia|]. exact Hx. }
  apply G; auto.
Qed.

(** The first state leads the first pile. *)
Definition leads {A} (a : A) (piles : list (list A)) : Prop := exists p ps, piles = (a :: p) :: ps.

Lemma place_leads : forall A ok (a s : A) piles, leads a piles -> leads a (place ok piles s).
Proof.
  intros A ok a s piles [p [ps ->]]. cbn. destruct (ok a s).
  - exists (p ++ [s]), ps. reflexivity.
  - exists p, (place ok ps s). reflexivity.
Qed.
Lemma greedy_leads : forall A ok (a : A) l, leads a (greedy ok (a :: l)).
Proof.
  intros. unfold greedy. cbn [fold_left place].
  assert (forall piles, leads a piles -> leads a (fold_left (place ok) l piles)).
  { induction l as [|s l IH]; cbn; intros; [auto|]. apply IH. apply place_leads. auto. }
  apply H. exists [], []. reflexivity.
Qed.
Lemma flat_leads : forall A (f : list A -> list (list A)) (a : A) piles,
  leads a piles -> (forall p, leads a (f (a :: p))) -> leads a (flat_map f piles).
Proof.
  intros * [p [ps ->]] H. cbn. destruct (H p) as [q [qs ->]].
  exists q, (qs ++ flat_map f ps). reflexivity.
Qed.
Lemma triage_leads : forall A cs_eqb ret_eqb plugins (a : A) states,
  leads a (triage_for_merge cs_eqb ret_eqb plugins (a :: states)).
Proof.
  intros. unfold triage_for_merge.
  assert (G : forall t, leads a t -> leads a (fold_left (fun t p => plugin_triage p t) plugins t)).
  { induction plugins as [|o plugins IH]; cbn [fold_left]; intros t Ht; [auto|]. apply IH.
    destruct o as [ok|]; [|exact Ht]. cbn [plugin_triage]. apply flat_leads; [auto|].
    intros p. destruct p; [exists [], []; reflexivity|apply greedy_leads]. }
  apply G. destruct ret_eqb; [apply flat_leads; [|intros; apply greedy_leads]|]; apply greedy_leads.
Qed.

Lemma selector_ok : forall x n,
  (forall r i j, (i < n)%nat -> (j < n)%nat ->
     eb r (nth i (merge_conds x n) BFalse) = true ->
     eb r (nth j (merge_conds x n) BFalse) = true -> i = j) /\
  (forall i, (i < n)%nat -> N.of_nat i < 2 ^ flag_width n) /\
  (forall r i, (i < n)%nat -> eb (updv r x (N.of_nat i)) (nth i (merge_conds x n) BFalse) = true).
Proof.
  intros. split; [|split].
  - intros. eapply merge_conds_exclusive; eauto.
  - intros. apply flag_width_ok; auto.
  - intros. apply merge_conds_eval; auto. cbn. rewrite N.eqb_refl.
    apply wrap_small. apply flag_width_ok; auto.
Qed.

Lemma nth_combine_tl : forall A B (a : A) (b : B) la lb i,
  length lb = S (length la) -> (i < length lb)%nat ->
  nth i ((a, nth 0 lb b) :: combine la (tl lb)) (a, nth 0 lb b) = (nth i (a :: la) a, nth i lb b).
Proof.
  intros. destruct lb as [|b0 lb]; [discriminate|]. cbn [nth tl] in *. injection H as H.
  destruct i as [|i]; [reflexivity|]. cbn [nth length] in *.
  rewrite (nth_indep _ (a, b0) (a, b)) by (rewrite combine_length; lia).
  rewrite combine_nth by auto. reflexivity.
Qed.

Lemma merge_values_selector : forall r w x vals i v0,
  (forall v, In v (v0 :: vals) -> width v = w) ->
  (i < length (v0 :: vals))%nat ->
  wrap (flag_width (length (v0 :: vals))) (ebv r x) = N.of_nat i ->
  let conds := merge_conds x (length (v0 :: vals)) in
  ev r (merge_values (v0, nth 0 conds BFalse) (combine vals (tl conds))) =
  ev r (nth i (v0 :: vals) v0).
Proof.
  intros * Hw Hi Hs conds.
  assert (LC : length conds = S (length vals)) by (unfold conds; rewrite merge_conds_length; reflexivity).
  assert (LT : length ((v0, nth 0 conds BFalse) :: combine vals (tl conds)) = length (v0 :: vals)).
  { cbn [length]. rewrite combine_length. destruct conds; cbn in *; lia. }
  assert (NT : forall j, (j < length (v0 :: vals))%nat ->
     nth j ((v0, nth 0 conds BFalse) :: combine vals (tl conds)) (v0, nth 0 conds BFalse)
     = (nth j (v0 :: vals) v0, nth j conds BFalse)).
  { intros j Hj. apply nth_combine_tl; [auto|]. cbn [length] in Hj. lia. }
  rewrite (merge_values_eval r w (combine vals (tl conds)) i (v0, nth 0 conds BFalse)).
  - rewrite NT by auto. reflexivity.
  - intros [v g] Hp. apply Hw. cbn [fst]. destruct Hp as [Hp|Hp].
    + injection Hp as <- <-. left. reflexivity.
    + right. eapply in_combine_l; eauto.
  - rewrite LT. auto.
  - rewrite NT by auto. cbn [snd]. unfold conds. apply merge_conds_eval; auto.
  - intros j Hj. rewrite LT in Hj. rewrite NT by auto. cbn [snd]. intros E.
    eapply (merge_conds_exclusive x (length (v0 :: vals)) j i r); auto.
    apply merge_conds_eval; auto.
Qed.
