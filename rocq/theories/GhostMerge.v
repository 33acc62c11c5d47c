(** * Merging ghost maps

    Model of the merging part of tool/klint/ghostmaps.py (279-343). *)

From Coq Require Import NArith List Bool Lia Arith.
From Verif Require Import Expr Solver KMerge Wt GhostMap GhostSpec GhostFacts GhostSim GhostHist GhostTrace GhostCons GhostReal.
Import ListNotations.
Open Scope N_scope.

(** ** Model *)

(** utils.structural_eq on items (namedtuples of ASTs), utils.py 27-45. *)
Definition item_eqb (i j : item) : bool := bv_eqb (ik i) (ik j) && bv_eqb (iv i) (iv j) && bexp_eqb (ip i) (ip j).
Definition in_items (i : item) (l : list item) : bool := existsb (item_eqb i) l.

(** utils.structural_diff, utils.py 48-60, on items. *)
Fixpoint dedup (l : list item) : list item :=
  match l with [] => [] | i :: l' => i :: filter (fun j => negb (item_eqb i j)) (dedup l') end.
Definition items_diff (left right : list item) : list item * list item * list item :=
  (filter (fun i => negb (in_items i right)) left,
   filter (fun i => in_items i right) left,
   filter (fun i => negb (in_items i left)) (dedup right)).

Section Merge.
Variable s : solver.
Variable k : claripy.

(** Map.can_merge, ghostmaps.py 282-314, with one other map of the same sizes. The
    versions, the invariants, the lengths and the unknown items must be the same in
    every layer; layers must have as many items, and at most 6 items may be new.
    [diffs] counts the new items of one layer. *)
Definition few_new (a b : list item) : bool := (length (snd (items_diff a b)) <=? 6)%nat.
Fixpoint layers_mergeable (a b : list layer) : bool :=
  match a, b with
  | [], [] => true
  | x :: a', y :: b' =>
      bv_eqb (llen x) (llen y) && (length (litems x) =? length (litems y))%nat && few_new (litems x) (litems y) &&
      layers_mergeable a' b'
  | _, _ => false
  end.
Fixpoint bexps_eqb (a b : list bexp) : bool :=
  match a, b with [], [] => true | x :: a', y :: b' => bexp_eqb x y && bexps_eqb a' b' | _, _ => false end.
Definition can_merge (g o : gmap) : bool :=
  bexps_eqb (ginvs g) (ginvs o) && bv_eqb (glen g) (glen o) && item_eqb (gunk g) (gunk o) &&
  few_new (gitems g) (gitems o) && layers_mergeable (glayers g) (glayers o).

(** 323-324: [Implies(mc, inv(i))] for each invariant. *)
Fixpoint merge_left1 (fuel : nat) (st : gst) (ks vs : N) (mc : bexp) (i : item) (invs : list bexp) : res gst :=
  match invs with
  | [] => Ok st
  | inv :: invs' =>
      do (st1, c) <- inv_call s k fuel st ks vs inv i BTrue;
      merge_left1 fuel (add_cs st1 [BImp mc c]) ks vs mc i invs'
  end.
Fixpoint merge_left (fuel : nat) (st : gst) (ks vs : N) (mc : bexp) (invs : list bexp) (items : list item) : res gst :=
  match items with
  | [] => Ok st
  | i :: items' => do st1 <- merge_left1 fuel st ks vs mc i invs; merge_left fuel st1 ks vs mc invs items'
  end.
(** 326-328. *)
Fixpoint merge_right (fuel : nat) (st : gst) (m : N) (mc : bexp) (items : list item) : res gst :=
  match items with
  | [] => Ok st
  | i :: items' =>
      do (st1, vp) <- get s k fuel st m (ik i) None BTrue None;
      merge_right fuel (add_cs st1 [BImp mc (BAnd (BEq (fst vp) (iv i)) (BIff (snd vp) (ip i)))]) m mc items'
  end.
(** 320-328: each other map with its merge condition. *)
Fixpoint merge_others (fuel : nat) (st : gst) (m : N) (others : list (gmap * bexp)) : res gst :=
  match others with
  | [] => Ok st
  | (o, mc) :: others' =>
      match gmaps st m with
      | None => Err
      | Some g =>
          let '(only_left, both, only_right) := items_diff (gitems g) (gitems o) in
          do st1 <- merge_left fuel st (gks g) (gvs g) mc (ginvs g) only_left;
          do st2 <- merge_right fuel st1 m mc (both ++ only_right);
          merge_others fuel st2 m others'
      end
  end.
(** 330-331. *)
Fixpoint pairs (items : list item) (unk : item) : list bexp :=
  match items with
  | [] => []
  | i :: items' =>
      map (fun j => BImp (BEq (ik i) (ik j)) (BAnd (BEq (iv i) (iv j)) (BIff (ip i) (ip j)))) (items' ++ [unk])
      ++ pairs items' unk
  end.
(** 318-333, a map without layers. *)
Definition merge_base (fuel : nat) (st : gst) (m : N) (others : list (gmap * bexp)) : res gst :=
  do st1 <- merge_others fuel st m others;
  match gmaps st1 m with
  | None => Err
  | Some g =>
      let st2 := add_cs st1 (pairs (gitems g) (gunk g)) in
      let '(st3, fits) := is_not_overfull s k st2 m 0 in
      Ok (add_cs st3 [fits])
  end.

(** 335-343, one layer: [conds] are all the merge conditions, the first one being the
    condition of the map itself; [others] the same layer of the other maps. *)
Definition nth_item (l : list item) (n : nat) : item := nth n l (mkItem (BVV 0 0) (BVV 0 0) BFalse).
Definition merge_layer (conds : list bexp) (l : layer) (others : list layer) : layer :=
  mkLayer
    (map (fun n =>
       let pick {A} (f : item -> A) := combine conds (map (fun o => f (nth_item (litems o) n)) others) in
       mkItem (ite_cases (pick ik) (ik (nth_item (litems l) n)))
              (ite_cases (pick iv) (iv (nth_item (litems l) n)))
              (ite_cases_b (pick ip) (ip (nth_item (litems l) n))))
     (seq 0 (length (litems l))))
    (llen l) (lcache l).

(** ** Maps without layers *)

Hypothesis SOK : solver_ok s.
Hypothesis KOK : claripy_ok k.

Definition flat (g : gmap) : Prop := glayers g = [] /\ Forall (pred_ok (gks g) (gvs g)) (ginvs g).
Definition grown (g g' : gmap) : Prop :=
  flat g' /\ gks g' = gks g /\ gvs g' = gvs g /\ ginvs g' = ginvs g /\ gunk g' = gunk g /\ glen g' = glen g /\ incl (gitems g) (gitems g').
Lemma grown_refl : forall g, flat g -> grown g g.
Proof. intros g F. unfold grown. auto 10 using incl_refl. Qed.
Lemma grown_trans : forall a b c, grown a b -> grown b c -> grown a c.
Proof.
  intros a b c [A1 [A2 [A3 [A4 [A5 [A6 A7]]]]]] [B1 [B2 [B3 [B4 [B5 [B6 B7]]]]]].
  unfold grown. repeat split; try congruence; try apply B1. eapply incl_tran; eauto.
Qed.
Lemma flat_same : forall g g', flat g -> same_map g g' -> grown g g'.
Proof.
  intros g g' [F1 F2] [E1 [E2 [E3 [E4 [E5 [E6 E7]]]]]]. unfold grown, flat.
  rewrite <- E1, <- E2, <- E3, <- E4, <- E5, <- E6. rewrite F1 in E7. inversion E7. auto 10 using incl_refl.
Qed.

(** A read of a map without layers. *)
Lemma get_flat : forall fuel st m g key st' v p,
  gmaps st m = Some g -> flat g -> get s k fuel st m key None BTrue None = Ok (st', (v, p)) ->
  exists g', gmaps st' m = Some g' /\ grown g g' /\ mono st st' /\
    ((is_definitely_empty g 0 = true /\ p = BFalse) \/
     (is_definitely_empty g 0 = false /\ exists j, In j (gitems g' ++ [gunk g]) /\ v = iv j /\ p = ip j /\
        (forall r, holds r (gcs st') -> ev r key = ev r (ik j)) /\
        (forall r, holds r (gcs st') -> (forall a b, In a (gitems g ++ [gunk g]) -> In b (gitems g ++ [gunk g]) -> ev r (ik a) = ev r (ik b) -> val r a = val r b) ->
          forall i, In i (gitems g ++ [gunk g]) -> ev r (ik i) = ev r key -> (ev r v, eb r p) = val r i))).
Proof.
  intros fuel st m g key st' v p G [FL FI] H. pose proof (get_mono s k _ _ _ _ _ _ _ _ _ H) as MO.
  assert (CO : coherent (glayers g) (gitems g)) by (rewrite FL; exact I).
  assert (SG : single (glayers g)) by (rewrite FL; constructor).
  destruct (get_cases s k _ _ _ _ _ _ _ _ G CO SG FI H) as [[EE [-> ->]]|[[EE [_ [g1 [i [Sm [Co [GE [-> [-> ->]]]]]]]]]|[EE [_ [g1 [g2 [fits [st0 X]]]]]]]].
  - exists g. split; [exact G|]. split; [apply grown_refl; split; auto|]. auto.
  - exists g1. split; [apply set_map_same|]. split; [apply flat_same; [split; auto|auto]|]. split; [auto|]. right. split; [auto|].
    destruct (get_exact_match_sound s SOK _ _ _ _ _ _ _ GE) as [Hin Eq]. rewrite FL in Hin. cbn [pure_known] in Hin.
    exists i. pose proof Sm as [_ [_ [E3 _]]]. rewrite <- E3. split; [auto|]. split; [auto|]. split; [auto|]. split.
    + intros r Hr. apply Eq; auto.
    + intros r Hr PA i' Hi' E. apply (PA i i'); auto. rewrite E. symmetry. apply Eq; auto.
  - cbv zeta in X. destruct X as [WV [Sm [G0 [OE [C0 [O0 [Z0 [Co0 [same [-> SA]]]]]]]]]].
    rewrite FL in *. cbn [pure_known] in *.
    set (it := mkItem key v p) in *.
    assert (Q : same_map (add_item g1 it) g2).
    { unfold is_not_overfull in OE. rewrite G0 in OE. destruct (known_items_spec _ Co0) as [gg [Ek [Sgg _]]]. rewrite Ek in OE.
      assert (Hgg : g2 = gg).
      { destruct (definitely_true s (gcs st0) _); injection OE as A _;
        apply (f_equal (fun f => f m)) in A; cbn in A; rewrite N.eqb_refl in A; congruence. }
      rewrite Hgg. auto. }
    pose proof Sm as [E1 [E2 [E3 [E4 [E5 [E6 E7]]]]]]. rewrite FL in E7. inversion E7 as [E8|]. symmetry in E8.
    assert (F1 : flat (add_item g1 it)).
    { split; cbn [add_item glayers gks gvs ginvs]; [auto|]. rewrite <- E1, <- E2, <- E4. auto. }
    pose proof (flat_same _ _ F1 Q) as GR. pose proof Q as [_ [_ [Q3 _]]]. cbn [add_item gitems] in Q3.
    exists g2. split; [apply set_map_same|]. split.
    { destruct GR as [R1 [R2 [R3 [R4 [R5 [R6 R7]]]]]]. cbn [add_item gks gvs gitems ginvs gunk glen] in *. unfold grown.
      rewrite E1, E2, E4, E5, E6. split; [auto|]. split; [auto|]. split; [auto|]. split; [auto|]. split; [auto|]. split; [auto|].
      rewrite E3. rewrite <- Q3. apply incl_appl, incl_refl. }
    split; [auto|]. right. split; [auto|]. exists it. rewrite <- Q3. split; [apply in_or_app; left; apply in_or_app; right; left; auto|].
    split; [auto|]. split; [auto|]. split; [reflexivity|].
    intros r Hr _ i Hi E.
    assert (HS : eb r (BImp (BEq key (ik i)) (BAnd (BEq v (iv i)) (BIff p (ip i)))) = true).
    { apply Hr. cbn [add_cs gcs]. apply in_or_app. right. apply in_or_app. left. apply SA. auto. }
    rewrite BImp_true in HS. cbn [evalb] in HS. rewrite N.eqb_eq in HS. specialize (HS (eq_sym E)).
    apply andb_prop in HS as [S1 S2]. apply N.eqb_eq in S1. apply eqb_prop in S2. unfold val. congruence.
Qed.

Lemma merge_left1_flat : forall fuel ks vs mc i invs st st' m, Forall (pred_ok ks vs) invs ->
  merge_left1 fuel st ks vs mc i invs = Ok st' -> mono st st' /\ gmaps st' m = gmaps st m.
Proof.
  intros fuel ks vs mc i. induction invs as [|inv invs IH]; intros st st' m F H; cbn [merge_left1] in H.
  - injection H as <-. split; [apply mono_refl|auto].
  - inversion F as [|? ? [I1 _] F']; subst. unfold inv_call in H. rewrite (emb_plain _ _ _ inv I1) in H. cbn [bindr] in H.
    destruct (IH _ _ m F' H) as [M1 E1]. split; [|rewrite E1; reflexivity]. eapply mono_trans; [apply mono_add|exact M1].
Qed.
Lemma merge_left_flat : forall fuel ks vs mc invs items st st' m, Forall (pred_ok ks vs) invs ->
  merge_left fuel st ks vs mc invs items = Ok st' -> mono st st' /\ gmaps st' m = gmaps st m.
Proof.
  intros fuel ks vs mc invs. induction items as [|i items IH]; intros st st' m F H; cbn [merge_left] in H.
  - injection H as <-. split; [apply mono_refl|auto].
  - apply bindr_ok in H as [st1 [H1 H]]. destruct (merge_left1_flat _ _ _ _ _ _ _ _ m F H1) as [M1 E1].
    destruct (IH _ _ m F H) as [M2 E2]. split; [eapply mono_trans; eauto|congruence].
Qed.

(** Under the merge condition, the merged map has an item for [i], or is empty. *)
Definition has (r : env) (g : gmap) (i : item) : Prop :=
  (is_definitely_empty g 0 = true /\ eb r (ip i) = false) \/
  is_definitely_empty g 0 = false /\ exists j, In j (gitems g ++ [gunk g]) /\ ev r (ik j) = ev r (ik i) /\ val r j = val r i.
Lemma grown_empty : forall g g', grown g g' -> flat g -> is_definitely_empty g' 0 = is_definitely_empty g 0.
Proof.
  intros g g' [[A1 _] [_ [_ [_ [_ [A6 _]]]]]] [F _]. unfold is_definitely_empty, len_at. cbn [skipn]. rewrite F, A1, A6. reflexivity.
Qed.
Lemma has_grown : forall r g g' i, grown g g' -> flat g -> has r g i -> has r g' i.
Proof.
  intros r g g' i GR F H. unfold has. rewrite (grown_empty _ _ GR F).
  destruct GR as [A1 [A2 [A3 [A4 [A5 [A6 A7]]]]]]. destruct H as [[E P]|[E [j [Hj Ej]]]]; [left; auto|].
  right. split; [auto|]. exists j. split; [|auto]. rewrite A5. apply in_app_or in Hj as [Hj|Hj]; apply in_or_app; auto.
Qed.

Lemma merge_right_flat : forall fuel m mc items st st' g,
  gmaps st m = Some g -> flat g -> merge_right fuel st m mc items = Ok st' ->
  exists g', gmaps st' m = Some g' /\ grown g g' /\ mono st st' /\
    forall r, holds r (gcs st') -> eb r mc = true -> forall i, In i items -> has r g' i.
Proof.
  intros fuel m mc. induction items as [|i items IH]; intros st st' g G F H; cbn [merge_right] in H.
  - injection H as <-. exists g. split; [auto|]. split; [apply grown_refl; auto|]. split; [apply mono_refl|]. intros r _ _ i [].
  - apply bindr_ok in H as [[st1 [v p]] [H1 H]]. cbn [fst snd] in H.
    destruct (get_flat _ _ _ _ _ _ _ _ G F H1) as [g1 [G1 [GR1 [M1 C]]]].
    destruct (IH (add_cs st1 _) _ g1 G1 (proj1 GR1) H) as [g2 [G2 [GR2 [M2 K2]]]].
    exists g2. split; [auto|]. split; [eapply grown_trans; eauto|]. split.
    { eapply mono_trans; [exact M1|]. eapply mono_trans; [apply mono_add|exact M2]. }
    intros r Hr MC i' [<-|Hi']; [|apply K2; auto].
    pose proof (holds_mono _ _ _ M2 Hr) as Hr1. cbn [add_cs gcs] in Hr1. apply holds_app in Hr1 as [Hr1 Hc].
    specialize (Hc _ (or_introl eq_refl)). rewrite BImp_true in Hc. specialize (Hc MC). cbn [evalb] in Hc.
    apply andb_prop in Hc as [S1 S2]. apply N.eqb_eq in S1. apply eqb_prop in S2.
    apply (has_grown r g1 g2); [auto|apply GR1|]. destruct C as [[EE ->]|[EE [j [Hj [-> [-> [EK _]]]]]]].
    + left. split; [rewrite (grown_empty _ _ GR1 F); auto|cbn in S2; auto].
    + right. split; [rewrite (grown_empty _ _ GR1 F); auto|]. exists j. destruct GR1 as [_ [_ [_ [_ [A5 _]]]]]. rewrite A5. split; [auto|]. split; [symmetry; apply EK; auto|].
      unfold val. congruence.
Qed.

Lemma item_eqb_eq : forall i j, item_eqb i j = true <-> i = j.
Proof.
  intros [a b c] [a' b' c']. unfold item_eqb. cbn. rewrite !andb_true_iff, !bv_eqb_eq, bexp_eqb_eq.
  split; [intros [[-> ->] ->]; auto|intros E; injection E; auto].
Qed.
Lemma in_items_in : forall i l, in_items i l = true <-> In i l.
Proof.
  intros i l. unfold in_items. rewrite existsb_exists. split.
  - intros [j [Hj E]]. apply item_eqb_eq in E. subst. auto.
  - intros H. exists i. split; [auto|]. apply item_eqb_eq. auto.
Qed.
Lemma dedup_in : forall l i, In i (dedup l) <-> In i l.
Proof.
  induction l as [|j l IH]; intros i; cbn; [tauto|]. rewrite filter_In, IH. split.
  - intros [->|[H _]]; auto.
  - intros [->|H]; [auto|]. destruct (item_eqb j i) eqn:E; [apply item_eqb_eq in E; auto|]. right. auto.
Qed.
(** The difference loses nothing of the right-hand side. *)
Lemma items_diff_right : forall l r ol both onr i, items_diff l r = (ol, both, onr) -> In i r -> In i (both ++ onr).
Proof.
  intros l r ol both onr i E Hi. injection E as <- <- <-. destruct (in_items i l) eqn:X.
  - apply in_or_app. left. apply filter_In. split; [apply in_items_in; auto|]. apply in_items_in. auto.
  - apply in_or_app. right. apply filter_In. split; [apply dedup_in; auto|]. rewrite X. reflexivity.
Qed.

Lemma merge_others_flat : forall fuel m others st st' g,
  gmaps st m = Some g -> flat g -> merge_others fuel st m others = Ok st' ->
  exists g', gmaps st' m = Some g' /\ grown g g' /\ mono st st' /\
    forall r, holds r (gcs st') -> forall o mc, In (o, mc) others -> eb r mc = true -> forall i, In i (gitems o) -> has r g' i.
Proof.
  intros fuel m. induction others as [|[o mc] others IH]; intros st st' g G F H; cbn [merge_others] in H.
  - injection H as <-. exists g. split; [auto|]. split; [apply grown_refl; auto|]. split; [apply mono_refl|]. intros r _ o mc [].
  - rewrite G in H. destruct (items_diff (gitems g) (gitems o)) as [[ol both] onr] eqn:DE.
    apply bindr_ok in H as [st1 [H1 H]]. apply bindr_ok in H as [st2 [H2 H]].
    destruct (merge_left_flat _ _ _ _ _ _ _ _ m (proj2 F) H1) as [M1 E1]. rewrite G in E1.
    destruct (merge_right_flat _ _ _ _ _ _ g E1 F H2) as [g2 [G2 [GR2 [M2 K2]]]].
    destruct (IH _ _ g2 G2 (proj1 GR2) H) as [g3 [G3 [GR3 [M3 K3]]]].
    exists g3. split; [auto|]. split; [eapply grown_trans; eauto|]. split; [eauto using mono_trans|].
    intros r Hr o' mc' [E|Hin] MC i Hi; [|eapply K3; eauto]. injection E as <- <-.
    apply (has_grown r g2 g3); [auto|apply GR2|]. apply K2; [eapply holds_mono; eauto|auto|].
    eapply items_diff_right; eauto.
Qed.

Lemma pairs_spec : forall r unk items, holds r (pairs items unk) ->
  forall a b, In a (items ++ [unk]) -> In b (items ++ [unk]) -> ev r (ik a) = ev r (ik b) -> val r a = val r b.
Proof.
  intros r unk. induction items as [|i items IH]; intros H a b Ha Hb E.
  - destruct Ha as [<-|[]], Hb as [<-|[]]. reflexivity.
  - cbn [pairs] in H. apply holds_app in H as [H1 H2].
    assert (X : forall j, In j (items ++ [unk]) -> ev r (ik i) = ev r (ik j) -> val r i = val r j).
    { intros j Hj Ej. specialize (H1 _ (in_map (fun j => BImp (BEq (ik i) (ik j)) (BAnd (BEq (iv i) (iv j)) (BIff (ip i) (ip j)))) _ j Hj)).
      cbn beta in H1. rewrite BImp_true in H1. cbn [evalb] in H1. rewrite N.eqb_eq in H1. specialize (H1 Ej).
      apply andb_prop in H1 as [S1 S2]. apply N.eqb_eq in S1. apply eqb_prop in S2. unfold val. congruence. }
    cbn [app] in Ha, Hb. destruct Ha as [<-|Ha], Hb as [<-|Hb]; auto.
    + symmetry. apply X; auto.
Qed.

(** Reads of the merged map agree with the items of the map whose condition holds,
    and with the items of the map merged into. *)
Definition of_state (r : env) (g : gmap) (others : list (gmap * bexp)) (i : item) : Prop :=
  (exists o mc, In (o, mc) others /\ eb r mc = true /\ In i (gitems o)) \/
  (In i (gitems g) /\ is_definitely_empty g 0 = false).
Lemma merge_base_reads : forall fuel st m g others st',
  gmaps st m = Some g -> flat g -> merge_base fuel st m others = Ok st' ->
  forall r i, of_state r g others i ->
  forall fuel' key st'' v p, get s k fuel' st' m key None BTrue None = Ok (st'', (v, p)) ->
  holds r (gcs st'') -> ev r key = ev r (ik i) ->
  eb r p = eb r (ip i) /\ (eb r p = true -> ev r v = ev r (iv i)).
Proof.
  intros fuel st m g others st' G F H r i WI fuel' key st'' v p GE Hr EK.
  unfold merge_base in H. apply bindr_ok in H as [st1 [H1 H]].
  destruct (merge_others_flat _ _ _ _ _ _ G F H1) as [g1 [G1 [GR1 [M1 K1]]]]. rewrite G1 in H.
  set (st2 := add_cs st1 (pairs (gitems g1) (gunk g1))) in *.
  destruct (is_not_overfull s k st2 m 0) as [st3 fits] eqn:OE. injection H as <-.
  assert (X : exists g3, st3 = set_map st2 m g3 /\ same_map g1 g3).
  { unfold is_not_overfull in OE. change (gmaps st2 m) with (gmaps st1 m) in OE. rewrite G1 in OE.
    destruct (known_items_spec g1) as [gg [Ek [Sgg _]]]; [rewrite (proj1 (proj1 GR1)); exact I|]. rewrite Ek in OE.
    destruct (definitely_true s _ _); injection OE as <- _; eauto. }
  destruct X as [g3 [-> Sm]]. pose proof (flat_same _ _ (proj1 GR1) Sm) as GR3.
  assert (G3 : gmaps (add_cs (set_map st2 m g3) [fits]) m = Some g3) by apply set_map_same.
  destruct (get_flat _ _ _ _ _ _ _ _ G3 (proj1 GR3) GE) as [g4 [G4 [GR4 [M4 C]]]].
  pose proof (holds_mono _ _ _ M4 Hr) as Hr3. cbn [add_cs gcs] in Hr3. apply holds_app in Hr3 as [Hr3 _].
  cbn [set_map st2 add_cs gcs] in Hr3. apply holds_app in Hr3 as [Hr1 HP].
  pose proof (pairs_spec r _ _ HP) as PA.
  assert (HS : has r g1 i).
  { destruct WI as [[o [mc [Hin [MC Hi]]]]|[Hi NE]]; [eapply K1; eauto|].
    right. rewrite (grown_empty _ _ GR1 F). split; [auto|]. exists i. split; [apply in_or_app; left; apply GR1; auto|auto]. }
  pose proof Sm as [E1 [E2 [E3 [E4 [E5 [E6 E7]]]]]]. rewrite (grown_empty _ _ GR3 (proj1 GR1)) in C.
  destruct HS as [[EE P]|[EF [j [Hj [Ej Vj]]]]].
  - destruct C as [[_ ->]|[EF _]]; [|congruence]. cbn [evalb]. rewrite P. split; [auto|discriminate].
  - destruct C as [[C _]|[_ [j' [_ [_ [_ [_ VV]]]]]]]; [congruence|].
    rewrite <- E3, <- E5 in VV. specialize (VV r Hr PA j Hj). rewrite Vj in VV.
    assert (V2 : (ev r v, eb r p) = val r i) by (apply VV; congruence). unfold val in V2. injection V2 as V2 V3. auto.
Qed.

(** ** Keys that a merged state had not read *)

(** An item whose key one of [l] has, or that meets every invariant. *)
Definition inv_ok (r : env) (inv : bexp) (i : item) : Prop := eb (setKVP r (ev r (ik i)) (val r i)) inv = true.
Definition fine (r : env) (l : list item) (invs : list bexp) (j : item) : Prop :=
  (exists i, In i l /\ ev r (ik i) = ev r (ik j)) \/ forall inv, In inv invs -> inv_ok r inv j.
Definition fits_in (g : gmap) (i : item) : Prop := width (ik i) = gks g /\ width (iv i) = gvs g.
Definition all_fine (r : env) (l : list item) (g : gmap) : Prop :=
  forall j, In j (gitems g) -> fine r (gunk g :: l) (ginvs g) j.

Lemma fine_same : forall r l invs i j, ev r (ik i) = ev r (ik j) -> val r i = val r j -> fine r l invs i -> fine r l invs j.
Proof.
  intros r l invs i j E V [[a [Ha Ea]]|H].
  - left. exists a. split; [auto|congruence].
  - right. intros inv Hi. unfold inv_ok. rewrite <- E, <- V. apply H. auto.
Qed.

(** What a read of a map without layers adds. *)
Lemma get_fine : forall fuel st m g key st' v p,
  gmaps st m = Some g -> flat g -> get s k fuel st m key None BTrue None = Ok (st', (v, p)) ->
  Forall (fits_in g) (gitems g) ->
  exists g', gmaps st' m = Some g' /\ grown g g' /\ mono st st' /\ Forall (fits_in g') (gitems g') /\
    (forall r l, holds r (gcs st') -> all_fine r l g -> all_fine r l g') /\
    (is_definitely_empty g 0 = false -> exists j, In j (gitems g' ++ [gunk g]) /\ v = iv j /\ p = ip j /\
       forall r, holds r (gcs st') -> ev r key = ev r (ik j)).
Proof.
  intros fuel st m g key st' v p G [FL FI] H SZ.
  destruct (get_flat _ _ _ _ _ _ _ _ G (conj FL FI) H) as [g' [G' [GR [MO C]]]]. exists g'. split; [auto|]. split; [auto|]. split; [auto|].
  assert (CA : is_definitely_empty g 0 = false -> exists j, In j (gitems g' ++ [gunk g]) /\ v = iv j /\ p = ip j /\
       forall r, holds r (gcs st') -> ev r key = ev r (ik j)).
  { intros NE. destruct C as [[C _]|[_ [j [A [B [D [E _]]]]]]]; [congruence|]. exists j. auto. }
  assert (FS : forall i, fits_in g i -> fits_in g' i).
  { destruct GR as [_ [A [B _]]]. intros i [X Y]. split; congruence. }
  assert (CO : coherent (glayers g) (gitems g)) by (rewrite FL; exact I).
  assert (SG : single (glayers g)) by (rewrite FL; constructor).
  assert (NN : gitems g' = gitems g ->
    Forall (fits_in g') (gitems g') /\ forall r l, holds r (gcs st') -> all_fine r l g -> all_fine r l g').
  { intros E. rewrite E. split; [eapply Forall_impl; [exact FS|auto]|].
    intros r l _ A j Hj. rewrite E in Hj. destruct GR as [_ [_ [_ [-> [-> _]]]]]. apply A. auto. }
  destruct (get_cases s k _ _ _ _ _ _ _ _ G CO SG FI H) as [[EE [-> ->]]|[[EE [_ [g1 [i [Sm [Co [GE [-> [-> ->]]]]]]]]]|[EE [KW [g1 [g2 [fits [st0 X]]]]]]]].
  - cbn [bump gmaps] in G'. rewrite G in G'. injection G' as <-. destruct (NN eq_refl). auto.
  - rewrite set_map_same in G'. injection G' as <-. pose proof Sm as [_ [_ [E3 _]]]. destruct (NN (eq_sym E3)). auto.
  - clear NN. cbv zeta in X. destruct X as [WV [Sm [G0 [OE [C0 [O0 [Z0 [Co0 [same [-> SA]]]]]]]]]].
    rewrite FL in *. cbn [pure_known] in *. set (it := mkItem key v p) in *.
    change (gmaps (add_cs ?a _) m) with (gmaps a m) in G'. rewrite set_map_same in G'. injection G' as <-.
    assert (Q : same_map (add_item g1 it) g2).
    { unfold is_not_overfull in OE. rewrite G0 in OE. destruct (known_items_spec _ Co0) as [gg [Ek [Sgg _]]]. rewrite Ek in OE.
      assert (Hgg : g2 = gg).
      { destruct (definitely_true s (gcs st0) _); injection OE as A _;
        apply (f_equal (fun f => f m)) in A; cbn in A; rewrite N.eqb_refl in A; congruence. }
      rewrite Hgg. auto. }
    pose proof Q as [_ [_ [Q3 _]]]. cbn [add_item gitems] in Q3. pose proof Sm as [_ [_ [E3 _]]]. rewrite <- E3 in Q3.
    split; [|split; [|exact CA]].
    + rewrite <- Q3. apply Forall_app. split; [eapply Forall_impl; [exact FS|auto]|]. constructor; [|constructor]. apply FS. split; auto.
    + intros r l Hr A j Hj. pose proof GR as [_ [_ [_ [-> [-> _]]]]]. rewrite <- Q3 in Hj. apply in_app_or in Hj as [Hj|[<-|[]]]; [apply A; auto|].
      cbn [add_cs gcs] in Hr. apply holds_app in Hr as [_ Hr]. apply holds_app in Hr as [HS Hr]. apply holds_app in Hr as [HI _].
      assert (SV : forall i, In i (gitems g ++ [gunk g]) -> ev r key = ev r (ik i) -> val r i = val r it).
      { intros i Hi E. specialize (HS _ (SA i Hi)). rewrite BImp_true in HS. cbn [evalb] in HS. rewrite N.eqb_eq in HS. specialize (HS E).
        apply andb_prop in HS as [S1 S2]. apply N.eqb_eq in S1. apply eqb_prop in S2. unfold val. cbn [it iv ip]. congruence. }
      destruct (existsb (fun i => ev r key =? ev r (ik i)) (gitems g)) eqn:XE.
      * apply existsb_exists in XE as [i [Hi E]]. apply N.eqb_eq in E. apply (fine_same r _ _ i); [auto| |apply A; auto].
        apply SV; [apply in_or_app; auto|auto].
      * right. intros inv Hinv.
        specialize (HI _ (in_map _ _ _ (in_map (substb (item_subst (gks g) (gvs g) it)) _ _ Hinv))).
        rewrite BImp_true in HI. rewrite Forall_forall in FI.
        pose proof (inv_subst_eval (gks g) (gvs g) it inv r (proj2 (FI _ Hinv)) KW WV) as IE.
        unfold inv_ok. rewrite <- IE. apply HI. apply BAndL_true. intros y Hy. apply in_map_iff in Hy as [i [<- Hi]]. apply BNe_true.
        intros E. assert (Z : existsb (fun i => ev r key =? ev r (ik i)) (gitems g) = true); [|congruence].
        apply existsb_exists. exists i. split; [auto|]. apply N.eqb_eq. auto.
Qed.

Lemma merge_left1_inv : forall fuel ks vs mc i invs st st', Forall (pred_ok ks vs) invs -> width (ik i) = ks -> width (iv i) = vs ->
  merge_left1 fuel st ks vs mc i invs = Ok st' -> forall r, holds r (gcs st') -> eb r mc = true ->
  forall inv, In inv invs -> inv_ok r inv i.
Proof.
  intros fuel ks vs mc i. induction invs as [|inv0 invs IH]; intros st st' F W1 W2 H r Hr MC inv Hinv; [destruct Hinv|]. cbn [merge_left1] in H.
  inversion F as [|? ? [I1 I2] F']; subst. unfold inv_call in H. rewrite (emb_plain _ _ _ inv0 I1) in H. cbn [bindr] in H.
  destruct Hinv as [<-|Hinv]; [|eapply IH; eauto].
  destruct (merge_left1_flat _ _ _ _ _ _ _ _ 0 F' H) as [M1 _]. pose proof (holds_mono _ _ _ M1 Hr) as Hr1.
  cbn [add_cs gcs] in Hr1. apply holds_app in Hr1 as [_ Hc]. specialize (Hc _ (or_introl eq_refl)). rewrite BImp_true in Hc.
  unfold inv_ok. rewrite <- (inv_subst_eval (width (ik i)) (width (iv i)) i inv0 r I2 eq_refl eq_refl). auto.
Qed.
Lemma merge_left_inv : forall fuel ks vs mc invs items st st', Forall (pred_ok ks vs) invs ->
  Forall (fun i => width (ik i) = ks /\ width (iv i) = vs) items ->
  merge_left fuel st ks vs mc invs items = Ok st' -> forall r, holds r (gcs st') -> eb r mc = true ->
  forall i inv, In i items -> In inv invs -> inv_ok r inv i.
Proof.
  intros fuel ks vs mc invs. induction items as [|i0 items IH]; intros st st' F W H r Hr MC i inv Hi Hinv; [destruct Hi|]. cbn [merge_left] in H.
  apply bindr_ok in H as [st1 [H1 H]]. inversion W as [|? ? [W1 W2] W']; subst. destruct Hi as [<-|Hi]; [|eapply IH; eauto].
  destruct (merge_left_flat _ _ _ _ _ _ _ _ 0 F H) as [M1 _].
  eapply merge_left1_inv; [exact F|auto|auto|exact H1|eapply holds_mono; eauto|auto|auto].
Qed.
Lemma merge_right_fine : forall fuel m mc items st st' g,
  gmaps st m = Some g -> flat g -> Forall (fits_in g) (gitems g) -> merge_right fuel st m mc items = Ok st' ->
  exists g', gmaps st' m = Some g' /\ grown g g' /\ mono st st' /\ Forall (fits_in g') (gitems g') /\
    forall r l, holds r (gcs st') -> all_fine r l g -> all_fine r l g'.
Proof.
  intros fuel m mc. induction items as [|i items IH]; intros st st' g G F SZ H; cbn [merge_right] in H.
  - injection H as <-. exists g. split; [auto|]. split; [apply grown_refl; auto|]. split; [apply mono_refl|]. auto.
  - apply bindr_ok in H as [[st1 [v p]] [H1 H]].
    destruct (get_fine _ _ _ _ _ _ _ _ G F H1 SZ) as [g1 [G1 [GR1 [M1 [S1 [K1 _]]]]]].
    destruct (IH (add_cs st1 _) _ g1 G1 (proj1 GR1) S1 H) as [g2 [G2 [GR2 [M2 [S2 K2]]]]].
    exists g2. split; [auto|]. split; [eapply grown_trans; eauto|].
    assert (M3 : mono st1 st') by (eapply mono_trans; [apply mono_add|exact M2]).
    split; [eapply mono_trans; eauto|]. split; [auto|]. intros r l Hr A. apply K2; [auto|]. apply K1; [eapply holds_mono; eauto|auto].
Qed.
Lemma items_diff_left : forall l r ol both onr i, items_diff l r = (ol, both, onr) -> In i l -> In i ol \/ In i r.
Proof.
  intros l r ol both onr i E Hi. injection E as <- <- <-. destruct (in_items i r) eqn:X; [apply in_items_in in X; auto|].
  left. apply filter_In. split; [auto|]. rewrite X. auto.
Qed.
Lemma merge_others_fine : forall fuel m others st st' g,
  gmaps st m = Some g -> flat g -> Forall (fits_in g) (gitems g) -> merge_others fuel st m others = Ok st' ->
  exists g', gmaps st' m = Some g' /\ grown g g' /\ mono st st' /\ Forall (fits_in g') (gitems g') /\
    forall r l, holds r (gcs st') ->
      all_fine r l g \/ (exists o mc, In (o, mc) others /\ eb r mc = true /\ l = gitems o) -> all_fine r l g'.
Proof.
  intros fuel m. induction others as [|[o mc] others IH]; intros st st' g G F SZ H; cbn [merge_others] in H.
  - injection H as <-. exists g. split; [auto|]. split; [apply grown_refl; auto|]. split; [apply mono_refl|]. split; [auto|].
    intros r l _ [A|[o [mc [[] _]]]]. auto.
  - rewrite G in H. destruct (items_diff (gitems g) (gitems o)) as [[ol both] onr] eqn:DE.
    apply bindr_ok in H as [st1 [H1 H]]. apply bindr_ok in H as [st2 [H2 H]].
    destruct (merge_left_flat _ _ _ _ _ _ _ _ m (proj2 F) H1) as [M1 E1]. rewrite G in E1.
    destruct (merge_right_fine _ _ _ _ _ _ g E1 F SZ H2) as [g2 [G2 [GR2 [M2 [S2 K2]]]]].
    destruct (IH _ _ g2 G2 (proj1 GR2) S2 H) as [g3 [G3 [GR3 [M3 [S3 K3]]]]].
    exists g3. split; [auto|]. split; [eapply grown_trans; eauto|]. split; [eauto using mono_trans|]. split; [auto|].
    intros r l Hr C. pose proof (holds_mono _ _ _ M3 Hr) as Hr2. pose proof (holds_mono _ _ _ M2 Hr2) as Hr1.
    apply K3; [auto|]. destruct C as [A|[o' [mc' [[E|Hin] [MC ->]]]]]; [left; auto| |right; eauto].
    injection E as <- <-. left. apply K2; [auto|]. intros j Hj. destruct (items_diff_left _ _ _ _ _ _ DE Hj) as [A|A].
    + right. intros inv Hinv. eapply merge_left_inv; [apply F| |exact H1|exact Hr1|exact MC|exact A|exact Hinv].
      apply Forall_forall. intros i Hi. rewrite Forall_forall in SZ. apply SZ. injection DE as <- _ _. apply filter_In in Hi as [Hi _]. auto.
    + left. exists j. split; [right; auto|auto].
Qed.
Lemma bexps_eqb_eq : forall a b, bexps_eqb a b = true -> a = b.
Proof.
  induction a as [|x a IH]; intros [|y b] H; cbn in H; try discriminate; [auto|].
  apply andb_prop in H as [H1 H2]. apply bexp_eqb_eq in H1. f_equal; auto.
Qed.
Lemma merge_base_fresh : forall fuel st m g others st',
  gmaps st m = Some g -> flat g -> Forall (fits_in g) (gitems g) -> merge_base fuel st m others = Ok st' ->
  (forall o mc, In (o, mc) others -> can_merge g o = true) ->
  exists g', gmaps st' m = Some g' /\
  forall o mc, o = g \/ In (o, mc) others -> len_at g' 0 = glen o /\
  forall fuel' key st'' v p r, get s k fuel' st' m key None BTrue None = Ok (st'', (v, p)) ->
  holds r (gcs st'') -> o = g \/ eb r mc = true ->
  (forall i, In i (gunk o :: gitems o) -> ev r key <> ev r (ik i)) ->
  glen o <> BVV (width (glen o)) 0 ->
  forall inv, In inv (ginvs o) -> eb (setKVP r (ev r key) (ev r v, eb r p)) inv = true.
Proof.
  intros fuel st m g others st' G F SZ H CM. unfold merge_base in H. apply bindr_ok in H as [st1 [H1 H]].
  destruct (merge_others_fine _ _ _ _ _ _ G F SZ H1) as [g1 [G1 [GR1 [M1 [S1 K1]]]]]. rewrite G1 in H.
  set (st2 := add_cs st1 (pairs (gitems g1) (gunk g1))) in *.
  destruct (is_not_overfull s k st2 m 0) as [st3 fits] eqn:OE. injection H as <-.
  assert (X : exists g3, st3 = set_map st2 m g3 /\ same_map g1 g3).
  { unfold is_not_overfull in OE. change (gmaps st2 m) with (gmaps st1 m) in OE. rewrite G1 in OE.
    destruct (known_items_spec g1) as [gg [Ek [Sgg _]]]; [rewrite (proj1 (proj1 GR1)); exact I|]. rewrite Ek in OE.
    destruct (definitely_true s _ _); injection OE as <- _; eauto. }
  destruct X as [g3 [-> Sm]]. exists g3.
  assert (G3 : gmaps (add_cs (set_map st2 m g3) [fits]) m = Some g3) by apply set_map_same. split; [exact G3|].
  pose proof (flat_same _ _ (proj1 GR1) Sm) as GR3. pose proof Sm as [E1 [E2 [E3 [E4 [E5 [E6 _]]]]]].
  assert (S3 : Forall (fits_in g3) (gitems g3)).
  { rewrite <- E3. eapply Forall_impl; [|exact S1]. intros i [A B]. split; congruence. }
  intros o mc Ho.
  assert (CO : ginvs o = ginvs g3 /\ glen o = glen g3 /\ gunk o = gunk g3).
  { pose proof GR1 as [_ [_ [_ [A4 [A5 [A6 _]]]]]]. rewrite <- E4, <- E5, <- E6, A4, A5, A6.
    destruct Ho as [->|Ho]; [auto|]. specialize (CM _ _ Ho). unfold can_merge in CM. rewrite !andb_true_iff in CM.
    destruct CM as [[[[C1 C2] C3] _] _]. apply bexps_eqb_eq in C1. apply bv_eqb_eq in C2. apply item_eqb_eq in C3. auto. }
  destruct CO as [C1 [C2 C3]]. rewrite C1, C2, C3.
  assert (L : len_at g3 0 = glen g3) by (unfold len_at; cbn [skipn]; rewrite (proj1 (proj1 GR3)); auto). split; [exact L|].
  intros fuel' key st'' v p r H' Hr SEL NE NZ inv Hinv.
  destruct (get_fine _ _ _ _ _ _ _ _ G3 (proj1 GR3) H' S3) as [g4 [G4 [GR4 [M4 [S4 [K4 AN]]]]]].
  destruct AN as [j [Hj [-> [-> EK]]]].
  { unfold is_definitely_empty. rewrite L. destruct (bv_eqb _ _) eqn:E; [|auto]. apply bv_eqb_eq in E. contradiction. }
  specialize (EK r Hr).
  pose proof (holds_mono _ _ _ M4 Hr) as Hr3. cbn [add_cs gcs] in Hr3. apply holds_app in Hr3 as [Hr3 _].
  cbn [set_map st2 add_cs gcs] in Hr3. apply holds_app in Hr3 as [Hr1 _].
  assert (AF : all_fine r (gitems o) g1).
  { apply K1; [exact Hr1|]. destruct Ho as [->|Ho].
    - left. intros i Hi. left. exists i. split; [right; auto|auto].
    - destruct SEL as [->|MC]; [|right; eauto]. left. intros i Hi. left. exists i. split; [right; auto|auto]. }
  assert (AF4 : all_fine r (gitems o) g4).
  { apply K4; [exact Hr|]. intros i Hi. rewrite <- E3 in Hi. rewrite <- E4, <- E5. apply AF. auto. }
  apply in_app_or in Hj as [Hj|[<-|[]]]; [|exfalso; apply (NE (gunk g3) (or_introl eq_refl) EK)].
  destruct (AF4 j Hj) as [[i [Hi E]]|I].
  - exfalso. pose proof GR4 as [_ [_ [_ [_ [A5 _]]]]]. rewrite A5 in Hi. apply (NE i Hi). congruence.
  - pose proof GR4 as [_ [_ [_ [A4 _]]]]. rewrite <- A4 in Hinv. specialize (I inv Hinv). unfold inv_ok, val in I. rewrite EK. exact I.
Qed.
End Merge.
