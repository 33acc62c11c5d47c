(** * Merging loses no execution, for maps that have not been written to

    Merging states (tool/kalm/merging.py 59-99) with their path constraints and their
    ghost maps (tool/klint/ghostmaps.py 317-333 and 567-570), and what becomes of the
    executions of each merged state. *)

From Coq Require Import NArith List Bool Lia Arith.
From Verif Require Import Expr Solver KMerge Wt GhostMap GhostSpec GhostFacts GhostSim GhostHist GhostCons GhostReal GhostMerge.
Import ListNotations.
Open Scope N_scope.

(** ** Model *)

Section Model.
Variable s : solver.
Variable k : claripy.

(** ghostmaps.py 318: utils.structural_eq on maps (483), here maps without previous versions. *)
Fixpoint items_eqb (a b : list item) : bool :=
  match a, b with [], [] => true | x :: a', y :: b' => item_eqb x y && items_eqb a' b' | _, _ => false end.
Definition gmap_eqb (g o : gmap) : bool :=
  (gks g =? gks o) && (gvs g =? gvs o) && items_eqb (gitems g) (gitems o) && bexps_eqb (ginvs g) (ginvs o) &&
  item_eqb (gunk g) (gunk o) && bv_eqb (glen g) (glen o) &&
  match glayers g, glayers o with [], [] => true | _, _ => false end.

(** ghostmaps.py 317-333; maps with previous versions are not handled here (they are
    [merge_layer] of GhostMerge.v). *)
Definition merge_map (fuel : nat) (st : gst) (m : N) (others : list (gmap * bexp)) : res gst :=
  match gmaps st m with
  | None => Err
  | Some g =>
      if forallb (fun o => gmap_eqb g (fst o)) others then Ok st
      else match glayers g with [] => merge_base s k fuel st m others | _ :: _ => Err end
  end.

(** [[o._maps[k] for o in others]], with the merge conditions of the others. *)
Fixpoint maps_of (m : N) (others : list gst) (conds : list bexp) : res (list (gmap * bexp)) :=
  match others, conds with
  | o :: others', mc :: conds' =>
      match gmaps o m with
      | None => Err
      | Some g => do l <- maps_of m others' conds'; Ok ((g, mc) :: l)
      end
  | _, _ => Ok []
  end.

(** GhostMapsPlugin.merge, 567-570; [ms] are the keys of [_maps]. *)
Fixpoint merge_maps (fuel : nat) (st : gst) (others : list gst) (conds : list bexp) (ms : list N) : res gst :=
  match ms with
  | [] => Ok st
  | m :: ms' =>
      do l <- maps_of m others conds;
      do st1 <- merge_map fuel st m l;
      merge_maps fuel st1 others conds ms'
  end.

(** merging.py 73-99: the selector [x], the solvers, then the maps. *)
Definition merge_states (fuel : nat) (x : N) (self : gst) (others : list gst) (ms : list N) : res gst :=
  merge_maps fuel
    (mkGst (merge_states_constraints x (gcs self) (map gcs others)) (x + 1) (gmaps self) (gsz self))
    others (tl (merge_conds x (S (length others)))) ms.

(** GhostMapsPlugin.can_merge (557-565) with one other state. *)
Definition maps_can_merge (ms : list N) (self o : gst) : Prop :=
  forall m, match gmaps self m, gmaps o m with
            | Some g, Some g' => In m ms /\ gks g = gks g' /\ gvs g = gvs g' /\ (gmap_eqb g g' = true \/ can_merge g g' = true)
            | None, None => ~ In m ms
            | _, _ => False
            end.
End Model.

(** ** Executions *)

(** The same contents; which keys the program asked for does not matter. *)
Definition forget (c : cmap) : cmap := mkC (cks c) (cvs c) (clw c) (ccont c) (csize c) [].
Definition alike (c c' : cmap) : Prop := forget c = forget c'.
Lemma alike_refl : forall c, alike c c.
Proof. reflexivity. Qed.
Lemma alike_saw : forall c q, alike c (saw c q).
Proof. reflexivity. Qed.

Lemma msim_seen : forall r n g c c' u, msim r n g c u -> alike c c' ->
  (forall q, In q (cseen c') -> snd (ccont c' q) = true ->
     q = u \/ exists i, In i (pure_known (glayers g) (gitems g)) /\ ev r (ik i) = q) ->
  msim r n g c' u.
Proof.
  intros r n g c c' u [A1 A2 A3 A4 A5 A6 A7 A8 A9 A10 B1 B2 B3 B4 B5 B6 B7 B8 B9 B10] A H.
  destruct c as [c1 c2 c3 c4 c5 c6], c' as [d1 d2 d3 d4 d5 d6]. unfold alike, forget in A. cbn in A. injection A as -> -> -> -> ->.
  constructor; auto.
Qed.
Lemma msim_forget : forall r n g c u, msim r n g c u -> msim r n g (forget c) u.
Proof. intros r n g c u M. eapply msim_seen; [exact M|reflexivity|]. intros q []. Qed.

Lemma sim_add : forall r st cm uk l, sim r st cm uk -> holds r l -> Forall (depb (gnext st)) l -> sim r (add_cs st l) cm uk.
Proof.
  intros r st cm uk l [S1 S2 S3 S4] H D. constructor; cbn [add_cs gcs gnext gmaps]; auto.
  - apply holds_app. auto.
  - apply Forall_app. auto.
Qed.
Lemma sim_step : forall r st cm uk m g g' c, sim r st cm uk -> gmaps st m = Some g -> cm m = Some c ->
  msim r (gnext st) g' c (uk m) -> sim r (set_map st m g') cm uk.
Proof.
  intros r st cm uk m g g' c [S1 S2 S3 S4] G C M. constructor; auto. intros x. destruct (N.eq_dec x m) as [->|NE].
  - rewrite set_map_same, C. exact M.
  - rewrite set_map_other by auto. apply S4.
Qed.

Section Executions.
Variable s : solver.
Variable k : claripy.
Hypothesis SOK : solver_ok s.
Hypothesis KOK : claripy_ok k.

Lemma subst_inv_dep : forall ks vs n i inv, itemok ks vs n i -> kv_sized ks vs inv = true -> depb n inv ->
  depb n (substb (item_subst ks vs i) inv).
Proof.
  intros ks vs n i inv [[W1 W2] [[D1 [D2 D3]] _]] Z D r1 r2 E. rewrite !inv_subst_eval by auto. unfold val.
  rewrite (D1 _ _ E), (D2 _ _ E), (D3 _ _ E). apply D. apply setKVP_eqbelow. auto.
Qed.

(** 323-324. *)
Lemma merge_left1_sim : forall fuel m mc i r cm uk c g invs st st',
  sim r st cm uk -> cm m = Some c -> gmaps st m = Some g -> glayers g = [] -> incl invs (ginvs g) ->
  In i (gitems g) -> depb (gnext st) mc ->
  merge_left1 s k fuel st (gks g) (gvs g) mc i invs = Ok st' ->
  sim r st' cm uk /\ gmaps st' = gmaps st /\ gnext st' = gnext st.
Proof.
  intros fuel m mc i r cm uk c g. induction invs as [|inv invs IH]; intros st st' S C G FL I Hi DM H; cbn [merge_left1] in H.
  - injection H as <-. auto.
  - pose proof (sim_maps _ _ _ _ S m) as M. rewrite G, C in M.
    pose proof (ms_invs _ _ _ _ _ M) as FI. rewrite Forall_forall in FI.
    destruct (FI inv (I _ (or_introl eq_refl))) as [I1 [I2 I3]].
    pose proof (ms_base _ _ _ _ _ M) as FB. rewrite Forall_forall in FB. pose proof (FB i Hi) as IO.
    unfold inv_call in H. rewrite (emb_plain _ _ _ inv I1) in H. cbn [bindr] in H.
    destruct (IH (add_cs st [BImp mc (substb (item_subst (gks g) (gvs g) i) inv)]) st') as [S' [E1 E2]]; auto.
    + apply sim_add; [exact S| |].
      * intros x [<-|[]]. apply BImp_true. intros _. rewrite inv_subst_eval; [|auto|apply IO|apply IO].
        assert (T : top r (glayers g) (ev r (ik i)) = None) by (rewrite FL; reflexivity).
        rewrite <- (ms_bval _ _ _ _ _ M i Hi T). apply (ms_inv _ _ _ _ _ M); auto.
        -- apply I. left. auto.
        -- destruct IO as [[<- _] _]. apply evalv_lt.
      * constructor; [|constructor]. apply depb_BImp; [auto|]. apply subst_inv_dep; auto.
    + intros x Hx. apply I. right. auto.
Qed.
Lemma merge_left_sim : forall fuel m mc r cm uk c g items st st',
  sim r st cm uk -> cm m = Some c -> gmaps st m = Some g -> glayers g = [] -> incl items (gitems g) ->
  depb (gnext st) mc ->
  merge_left s k fuel st (gks g) (gvs g) mc (ginvs g) items = Ok st' ->
  sim r st' cm uk /\ gmaps st' = gmaps st /\ gnext st' = gnext st.
Proof.
  intros fuel m mc r cm uk c g. induction items as [|i items IH]; intros st st' S C G FL I DM H; cbn [merge_left] in H.
  - injection H as <-. auto.
  - apply bindr_ok in H as [st1 [H1 H]].
    destruct (merge_left1_sim _ _ _ _ _ _ _ _ _ _ _ _ S C G FL (incl_refl _) (I _ (or_introl eq_refl)) DM H1) as [S1 [E1 E2]].
    destruct (IH st1 st') as [S2 [E3 E4]]; auto.
    + rewrite E1. auto.
    + intros x Hx. apply I. right. auto.
    + rewrite E2. auto.
    + split; [auto|]. split; congruence.
Qed.

(** What is known about a map that merging extends. *)
Definition moved (st st' : gst) (m : N) : Prop :=
  gnext st <= gnext st' /\ (forall x, x <> m -> gmaps st' x = gmaps st x) /\
  forall g, gmaps st m = Some g -> glayers g = [] -> exists g', gmaps st' m = Some g' /\ glayers g' = [].
Lemma moved_refl : forall st m, moved st st m.
Proof. intros st m. split; [lia|]. split; [auto|]. intros g G F. exists g. auto. Qed.
Lemma moved_trans : forall a b c m, moved a b m -> moved b c m -> moved a c m.
Proof.
  intros a b c m [A1 [A2 A3]] [B1 [B2 B3]]. split; [lia|]. split.
  - intros x NE. rewrite (B2 x NE). auto.
  - intros g G F. destruct (A3 g G F) as [g1 [G1 F1]]. eauto.
Qed.
Lemma moved_cs : forall st m l, moved st (add_cs st l) m.
Proof. intros st m l. split; [cbn; lia|]. split; [auto|]. intros g G F. exists g. auto. Qed.

(** 326-328. *)
Lemma merge_right_sim : forall fuel m mc items r st cm uk c st',
  sim r st cm uk -> cm m = Some c ->
  Forall (itemok (cks c) (cvs c) (gnext st)) items -> depb (gnext st) mc ->
  (eb r mc = true -> forall i, In i items -> val r i = ccont c (ev r (ik i))) ->
  merge_right s k fuel st m mc items = Ok st' ->
  exists r' c', eqbelow (gnext st) r r' /\ moved st st' m /\ alike c c' /\ incl (cseen c) (cseen c') /\
    (forall i, In i items -> In (ev r (ik i)) (cseen c')) /\ sim r' st' (upd cm m (Some c')) uk.
Proof.
  intros fuel m mc. induction items as [|i items IH]; intros r st cm uk c st' S C F D V H; cbn [merge_right] in H.
  - injection H as <-. exists r, c. split; [apply eqbelow_refl|]. split; [apply moved_refl|]. split; [reflexivity|].
    split; [apply incl_refl|]. split; [intros i []|]. eapply sim_ext; [|exact S]. intros x. unfold upd.
    destruct (N.eqb_spec x m) as [->|]; auto.
  - apply bindr_ok in H as [[st1 [v p]] [H1 H]]. cbn [fst snd] in H. inversion F as [|? ? IO F']; subst.
    assert (KO : keyok (cks c) (gnext st) (ik i)).
    { destruct IO as [[W _] [[D1 _] [C1 _]]]. split; [auto|]. split; auto. }
    destruct (get_sim s k SOK KOK _ _ _ _ _ _ _ _ _ _ _ S C KO H1)
      as [r1 [g [g1 [E1 [L1 [S1 [V1 [W1 [D1 [D2 [C1 [C2 [G [G1 [O1 [SL _]]]]]]]]]]]]]]]].
    set (c1 := saw c (ev r (ik i))) in *.
    assert (IO1 : itemok (cks c) (cvs c) (gnext st1) i) by (eapply itemok_le; [|exact IO]; auto).
    assert (Ei : ev r1 (ik i) = ev r (ik i)) by (symmetry; apply KO; auto).
    assert (S1' : sim r1 (add_cs st1 [BImp mc (BAnd (BEq v (iv i)) (BIff p (ip i)))]) (upd cm m (Some c1)) uk).
    { apply sim_add; [exact S1| |].
      - intros x [<-|[]]. apply BImp_true. intros MC. cbn [evalb].
        assert (MC0 : eb r mc = true) by (rewrite <- MC; apply D; auto).
        specialize (V MC0 i (or_introl eq_refl)).
        assert (VI : val r1 i = val r i) by (symmetry; eapply val_eq; [apply IO|auto]).
        rewrite <- V1 in V. rewrite <- VI in V. unfold val in V. injection V as V2 V3.
        rewrite V2, V3, N.eqb_refl, eqb_reflx. reflexivity.
      - constructor; [|constructor]. destruct IO1 as [_ [[X1 [X2 X3]] _]].
        apply depb_BImp; [eapply depb_le; [|exact D]; auto|]. auto with depdb. }
    destruct (IH r1 _ _ uk c1 st' S1') as [r' [c' [E2 [MV [AL [IN [K S2]]]]]]]; auto.
    + unfold upd. rewrite N.eqb_refl. reflexivity.
    + eapply Forall_impl; [|exact F']. intros a Ha. cbn [add_cs gnext]. eapply itemok_le; [|exact Ha]. auto.
    + cbn [add_cs gnext]. eapply depb_le; [|exact D]. auto.
    + intros MC j Hj. assert (MC0 : eb r mc = true) by (rewrite <- MC; apply D; auto).
      rewrite Forall_forall in F'. pose proof (F' j Hj) as JO.
      assert (VJ : val r1 j = val r j) by (symmetry; eapply val_eq; [apply JO|auto]).
      assert (EJ : ev r1 (ik j) = ev r (ik j)) by (symmetry; apply JO; auto).
      rewrite VJ, EJ. apply V; auto. right. auto.
    + exists r', c'. cbn [add_cs gnext] in E2. split; [eapply eqbelow_trans; [exact E1|]; intros x Hx; apply E2; lia|].
      split.
      { eapply moved_trans; [|eapply moved_trans; [apply moved_cs|exact MV]]. split; [auto|]. split; [auto|].
        intros g0 G0 F0. rewrite G in G0. injection G0 as ->. exists g1. split; [auto|]. rewrite F0 in SL. inversion SL. auto. }
      split; [exact AL|]. split; [intros q Hq; apply IN; right; auto|]. split.
      * intros j [<-|Hj]; [apply IN; left; auto|]. rewrite Forall_forall in F'. pose proof (F' j Hj) as JO.
        assert (EJ : ev r1 (ik j) = ev r (ik j)) by (symmetry; apply JO; auto). rewrite <- EJ. apply K. auto.
      * eapply sim_ext; [|exact S2]. intros x. unfold upd. destruct (N.eqb_spec x m); auto.
Qed.

Definition item_known (r : env) (c : cmap) (o : gmap * bexp) : Prop :=
  eb r (snd o) = true -> forall i, In i (gitems (fst o)) -> val r i = ccont c (ev r (ik i)).
Definition other_ok (c : cmap) (n : N) (o : gmap * bexp) : Prop :=
  Forall (itemok (cks c) (cvs c) n) (gitems (fst o)) /\ depb n (snd o).

Lemma other_ok_le : forall c n n' o, n <= n' -> other_ok c n o -> other_ok c n' o.
Proof.
  intros c n n' o L [A B]. split; [|eapply depb_le; eauto]. eapply Forall_impl; [|exact A]. intros a. apply itemok_le. auto.
Qed.
Lemma item_known_le : forall c n r r' o, eqbelow n r r' -> other_ok c n o -> item_known r c o -> item_known r' c o.
Proof.
  intros c n r r' o E [A B] H MC i Hi. rewrite Forall_forall in A. pose proof (A i Hi) as IO.
  rewrite <- (val_eq n i r r') by (auto; apply IO). assert (EJ : ev r (ik i) = ev r' (ik i)) by (apply IO; auto).
  rewrite <- EJ. apply H; auto. rewrite <- MC. apply B. auto.
Qed.
Lemma alike_ok : forall c c' n o, alike c c' -> other_ok c n o -> other_ok c' n o.
Proof. intros c c' n o A H. destruct c, c'. unfold alike, forget in A. cbn in A. injection A as -> -> -> -> ->. exact H. Qed.
Lemma alike_known : forall c c' r o, alike c c' -> item_known r c o -> item_known r c' o.
Proof. intros c c' r o A H. destruct c, c'. unfold alike, forget in A. cbn in A. injection A as -> -> -> -> ->. exact H. Qed.

(** 320-328. *)
Lemma merge_others_sim : forall fuel m others r st cm uk c g st',
  sim r st cm uk -> cm m = Some c -> gmaps st m = Some g -> glayers g = [] ->
  Forall (other_ok c (gnext st)) others -> Forall (item_known r c) others ->
  merge_others s k fuel st m others = Ok st' ->
  exists r' c', eqbelow (gnext st) r r' /\ moved st st' m /\ alike c c' /\ incl (cseen c) (cseen c') /\
    (forall o i, In o others -> In i (gitems (fst o)) -> In (ev r (ik i)) (cseen c')) /\ sim r' st' (upd cm m (Some c')) uk.
Proof.
  intros fuel m. induction others as [|[o mc] others IH]; intros r st cm uk c g st' S C G FL OO IK H; cbn [merge_others] in H.
  - injection H as <-. exists r, c. split; [apply eqbelow_refl|]. split; [apply moved_refl|]. split; [reflexivity|].
    split; [apply incl_refl|]. split; [intros o i []|]. eapply sim_ext; [|exact S]. intros x. unfold upd.
    destruct (N.eqb_spec x m) as [->|]; auto.
  - rewrite G in H. destruct (items_diff (gitems g) (gitems o)) as [[ol both] onr] eqn:DE.
    apply bindr_ok in H as [st1 [H1 H]]. apply bindr_ok in H as [st2 [H2 H]].
    inversion OO as [|? ? [O1 O2] OO']; subst. inversion IK as [|? ? K1 IK']; subst. cbn [fst snd] in O1, O2.
    assert (IL : incl ol (gitems g)).
    { intros x Hx. injection DE as <- _ _. apply filter_In in Hx as [Hx _]. auto. }
    destruct (merge_left_sim _ _ _ _ _ _ _ _ _ _ _ S C G FL IL O2 H1) as [S1 [E1 E2]].
    assert (IB : forall i, In i (both ++ onr) -> In i (gitems o)).
    { intros i Hi. injection DE as _ EB ER. subst both onr. apply in_app_or in Hi as [Hi|Hi]; apply filter_In in Hi as [A B].
      - apply in_items_in in B. exact B.
      - apply (proj1 (dedup_in _ _)) in A. exact A. }
    assert (FO : Forall (itemok (cks c) (cvs c) (gnext st1)) (both ++ onr)).
    { rewrite E2. apply Forall_forall. rewrite Forall_forall in O1. auto. }
    assert (DM : depb (gnext st1) mc) by (rewrite E2; auto).
    assert (VO : eb r mc = true -> forall i, In i (both ++ onr) -> val r i = ccont c (ev r (ik i))).
    { intros MC i Hi. apply K1; auto. }
    destruct (merge_right_sim fuel m mc (both ++ onr) r st1 cm uk c st2 S1 C FO DM VO H2)
      as [r2 [c2 [E3 [MV [AL [IN [K S2]]]]]]].
    rewrite E2 in E3.
    assert (MV1 : moved st st2 m).
    { destruct MV as [M1 [M2 M3]]. rewrite E2 in M1. rewrite E1 in M2, M3. split; auto. }
    destruct MV1 as [M1 [M2 M3]]. destruct (M3 g G FL) as [g2 [G2 FL2]].
    assert (OO2 : Forall (other_ok c2 (gnext st2)) others).
    { eapply Forall_impl; [|exact OO']. intros a Ha. eapply other_ok_le; [exact M1|]. eapply alike_ok; eauto. }
    assert (IK2 : Forall (item_known r2 c2) others).
    { rewrite Forall_forall in *. intros a Ha. eapply item_known_le; [exact E3|eapply alike_ok; [exact AL|apply OO'; auto]|].
      eapply alike_known; [exact AL|]. apply IK'. auto. }
    assert (C2 : upd cm m (Some c2) m = Some c2) by (unfold upd; rewrite N.eqb_refl; auto).
    destruct (IH r2 st2 _ uk c2 g2 st' S2 C2 G2 FL2 OO2 IK2 H) as [r3 [c3 [E4 [MV3 [AL3 [IN3 [K3 S3]]]]]]].
    { exists r3, c3. split; [eapply eqbelow_trans; [exact E3|]; intros x Hx; apply E4; lia|].
      split; [eapply moved_trans; [split; [exact M1|split; [exact M2|exact M3]]|exact MV3]|].
      split; [unfold alike in *; congruence|]. split; [eapply incl_tran; eauto|]. split.
      * intros o' i [<-|Ho] Hi.
        -- apply IN3. apply K. eapply items_diff_right; eauto.
        -- rewrite Forall_forall in OO'. destruct (OO' _ Ho) as [X _]. rewrite Forall_forall in X.
           assert (EE : ev r (ik i) = ev r2 (ik i)) by (apply (X i Hi); auto). rewrite EE. eapply K3; eauto.
      * eapply sim_ext; [|exact S3]. intros x. unfold upd. destruct (N.eqb_spec x m); auto. }
Qed.

Lemma pairs_sim : forall r n (C : N -> N * bool) ks vs unk items,
  (forall i, In i (items ++ [unk]) -> C (ev r (ik i)) = val r i /\ itemok ks vs n i) ->
  holds r (pairs items unk) /\ Forall (depb n) (pairs items unk).
Proof.
  intros r n C ks vs unk. induction items as [|i items IH]; intros H; cbn [pairs].
  - split; [intros x []|constructor].
  - destruct IH as [I1 I2]; [intros j Hj; apply H; right; auto|].
    destruct (H i (or_introl eq_refl)) as [Vi [_ [[D1 [D2 D3]] _]]].
    rewrite holds_app, Forall_app. split; split; auto.
    + intros x Hx. apply in_map_iff in Hx as [j [<- Hj]]. destruct (H j (or_intror Hj)) as [Vj _].
      apply BImp_true. intros E. apply BEq_true in E. rewrite E, Vj in Vi. unfold val in Vi. injection Vi as A B.
      cbn [evalb]. rewrite A, B, N.eqb_refl, eqb_reflx. reflexivity.
    + apply Forall_forall. intros x Hx. apply in_map_iff in Hx as [j [<- Hj]].
      destruct (H j (or_intror Hj)) as [_ [_ [[F1 [F2 F3]] _]]]. apply depb_BImp; auto with depdb.
Qed.

(** 318-333. *)
Lemma merge_base_sim : forall fuel m others r st cm uk c g st',
  sim r st cm uk -> cm m = Some c -> gmaps st m = Some g -> glayers g = [] ->
  Forall (other_ok c (gnext st)) others -> Forall (item_known r c) others ->
  merge_base s k fuel st m others = Ok st' ->
  exists r' c', eqbelow (gnext st) r r' /\ moved st st' m /\ alike c c' /\ incl (cseen c) (cseen c') /\
    (forall o i, In o others -> In i (gitems (fst o)) -> In (ev r (ik i)) (cseen c')) /\ sim r' st' (upd cm m (Some c')) uk.
Proof.
  intros fuel m others r st cm uk c g st' S C G FL OO IK H. unfold merge_base in H. apply bindr_ok in H as [st1 [H1 H]].
  destruct (merge_others_sim _ _ _ _ _ _ _ _ _ _ S C G FL OO IK H1) as [r1 [c1 [E1 [MV [AL [IN [K S1]]]]]]].
  destruct MV as [M1 [M2 M3]]. destruct (M3 g G FL) as [g1 [G1 FL1]]. rewrite G1 in H.
  assert (C1 : upd cm m (Some c1) m = Some c1) by (unfold upd; rewrite N.eqb_refl; auto).
  destruct (sim_get _ _ _ _ _ _ S1 C1) as [g1' [G1' MS]]. rewrite G1 in G1'. injection G1' as <-.
  assert (KR : forall i, In i (gitems g1 ++ [gunk g1]) -> ccont c1 (ev r1 (ik i)) = val r1 i /\ itemok (gks g1) (gvs g1) (gnext st1) i).
  { intros i Hi. apply (known_right r1 (gnext st1) g1 c1 (uk m) i MS). rewrite FL1. exact Hi. }
  destruct (pairs_sim r1 (gnext st1) (ccont c1) _ _ (gunk g1) (gitems g1) KR) as [P1 P2].
  pose proof (sim_add _ _ _ _ _ S1 P1 P2) as S2. set (st2 := add_cs st1 (pairs (gitems g1) (gunk g1))) in *.
  assert (G2 : gmaps st2 m = Some g1) by exact G1.
  destruct (overfull_sim s k KOK r1 (gnext st1) st2 m g1 c1 (uk m) G2 MS) as [g3 [fits [OE [Sm [Co [FT FD]]]]]].
  rewrite OE in H. injection H as <-. exists r1, c1. split; [auto|]. split.
  { split; [cbn; auto|]. split.
    - intros x NE. change (gmaps (set_map st2 m g3) x = gmaps st x). rewrite set_map_other by auto. cbn. auto.
    - intros g0 G0 F0. exists g3. split; [apply set_map_same|]. destruct Sm as [_ [_ [_ [_ [_ [_ Sm]]]]]]. rewrite FL1 in Sm.
      inversion Sm. auto. }
  split; [auto|]. split; [auto|]. split; [auto|]. apply sim_add.
  - eapply sim_step; [exact S2|exact G2|exact C1|]. eapply msim_same; eauto.
  - intros x [<-|[]]. auto.
  - constructor; [exact FD|constructor].
Qed.

(** ** All maps *)

Lemma items_eqb_eq : forall a b, items_eqb a b = true -> a = b.
Proof.
  induction a as [|x a IH]; intros [|y b] H; cbn in H; try discriminate; [auto|].
  apply andb_prop in H as [H1 H2]. apply item_eqb_eq in H1. f_equal; auto.
Qed.
Lemma gmap_eqb_eq : forall g o, gmap_eqb g o = true -> g = o /\ glayers g = [].
Proof.
  intros [a b c d e f h] [a' b' c' d' e' f' h'] H. unfold gmap_eqb in H. cbn in H. rewrite !andb_true_iff in H.
  destruct H as [[[[[[H1 H2] H3] H4] H5] H6] H7]. apply N.eqb_eq in H1, H2. apply items_eqb_eq in H3. apply bexps_eqb_eq in H4.
  apply item_eqb_eq in H5. apply bv_eqb_eq in H6. destruct h, h'; try discriminate. subst. auto.
Qed.

Lemma maps_of_in : forall m others conds l, maps_of m others conds = Ok l ->
  forall o, In o l -> exists j st, nth_error others j = Some st /\ gmaps st m = Some (fst o) /\ nth_error conds j = Some (snd o).
Proof.
  intros m. induction others as [|st others IH]; intros [|mc conds] l H o Ho; cbn [maps_of] in H; try (injection H as <-; destruct Ho).
  destruct (gmaps st m) as [g|] eqn:G; [|discriminate]. apply bindr_ok in H as [l' [H1 H]]. injection H as <-.
  destruct Ho as [<-|Ho].
  - exists O, st. auto.
  - destruct (IH _ _ H1 o Ho) as [j [st' [A B]]]. exists (S j), st'. auto.
Qed.
Lemma maps_of_get : forall m others conds l j st mc, maps_of m others conds = Ok l ->
  nth_error others j = Some st -> nth_error conds j = Some mc -> exists g, gmaps st m = Some g /\ In (g, mc) l.
Proof.
  intros m. induction others as [|st0 others IH]; intros [|mc0 conds] l j st mc H A B; destruct j; cbn [nth_error] in *; try discriminate;
    cbn [maps_of] in H; destruct (gmaps st0 m) as [g|] eqn:G; try discriminate; apply bindr_ok in H as [l' [H1 H]]; injection H as <-.
  - injection A as ->. injection B as ->. exists g. split; [auto|left; auto].
  - destruct (IH _ _ _ _ _ H1 A B) as [g' [G' I]]. exists g'. split; [auto|right; auto].
Qed.

Definition kept (a b : option cmap) : Prop :=
  match a, b with Some c, Some c' => alike c c' /\ incl (cseen c) (cseen c') | None, None => True | _, _ => False end.
Lemma kept_refl : forall a, kept a a.
Proof. intros [c|]; cbn; auto. split; [reflexivity|apply incl_refl]. Qed.

Lemma merge_maps_sim : forall fuel others conds ms st r cm uk st',
  NoDup ms -> sim r st cm uk ->
  (forall m l, In m ms -> maps_of m others conds = Ok l -> exists g c, gmaps st m = Some g /\ glayers g = [] /\ cm m = Some c /\
     Forall (other_ok c (gnext st)) l /\ Forall (item_known r c) l) ->
  merge_maps s k fuel st others conds ms = Ok st' ->
  exists r' cm', eqbelow (gnext st) r r' /\ gnext st <= gnext st' /\ sim r' st' cm' uk /\
    (forall m, kept (cm m) (cm' m)) /\
    (forall m, ~ In m ms -> gmaps st' m = gmaps st m /\ cm' m = cm m) /\
    (forall m l, In m ms -> maps_of m others conds = Ok l ->
       (gmaps st' m = gmaps st m /\ forall o, In o l -> gmaps st m = Some (fst o)) \/
       (forall o i c', In o l -> In i (gitems (fst o)) -> cm' m = Some c' -> In (ev r (ik i)) (cseen c'))).
Proof.
  intros fuel others conds. induction ms as [|m ms IH]; intros st r cm uk st' ND S P H; cbn [merge_maps] in H.
  - injection H as <-. exists r, cm. split; [apply eqbelow_refl|]. split; [lia|]. split; [auto|].
    split; [intros; apply kept_refl|]. split; [auto|]. intros m l [].
  - apply bindr_ok in H as [l [HL H]]. apply bindr_ok in H as [st1 [H1 H]]. inversion ND as [|? ? NI ND']; subst.
    destruct (P m l (or_introl eq_refl) HL) as [g [c [G [FL [C [OO IK]]]]]].
    assert (STEP : exists r1 cm1, eqbelow (gnext st) r r1 /\ gnext st <= gnext st1 /\ sim r1 st1 cm1 uk /\
      (forall x, kept (cm x) (cm1 x)) /\ (forall x, x <> m -> gmaps st1 x = gmaps st x /\ cm1 x = cm x) /\
      ((gmaps st1 m = gmaps st m /\ forall o, In o l -> gmaps st m = Some (fst o)) \/
       (forall o i c', In o l -> In i (gitems (fst o)) -> cm1 m = Some c' -> In (ev r (ik i)) (cseen c')))).
    { unfold merge_map in H1. rewrite G in H1. destruct (forallb (fun o => gmap_eqb g (fst o)) l) eqn:FA.
      - injection H1 as <-. exists r, cm. split; [apply eqbelow_refl|]. split; [lia|]. split; [auto|].
        split; [intros; apply kept_refl|]. split; [auto|]. left. split; [auto|]. intros o Ho. rewrite forallb_forall in FA.
        destruct (gmap_eqb_eq _ _ (FA o Ho)) as [<- _]. auto.
      - rewrite FL in H1. destruct (merge_base_sim _ _ _ _ _ _ _ _ _ _ S C G FL OO IK H1) as [r1 [c1 [E1 [[M1 [M2 _]] [AL [IN [K S1]]]]]]].
        exists r1, (upd cm m (Some c1)). split; [auto|]. split; [auto|]. split; [auto|]. split.
        { intros x. unfold upd. destruct (N.eqb_spec x m) as [->|]; [rewrite C; split; auto|apply kept_refl]. }
        split.
        { intros x NE. split; [auto|]. unfold upd. destruct (N.eqb_spec x m); [contradiction|auto]. }
        right. intros o i c' Ho Hi E. unfold upd in E. rewrite N.eqb_refl in E. injection E as <-. eauto. }
    destruct STEP as [r1 [cm1 [E1 [L1 [S1 [K1 [O1 Q1]]]]]]].
    assert (P1 : forall x lx, In x ms -> maps_of x others conds = Ok lx -> exists g c, gmaps st1 x = Some g /\ glayers g = [] /\
      cm1 x = Some c /\ Forall (other_ok c (gnext st1)) lx /\ Forall (item_known r1 c) lx).
    { intros x lx Hx HX. destruct (P x lx (or_intror Hx) HX) as [g' [c' [G' [FL' [C' [OO' IK']]]]]].
      destruct (O1 x) as [A B]; [intros ->; contradiction|]. exists g', c'. rewrite A, B. split; [auto|]. split; [auto|]. split; [auto|].
      rewrite Forall_forall in OO', IK'. split; apply Forall_forall; intros o Ho; [eapply other_ok_le; eauto|eapply item_known_le; eauto]. }
    destruct (IH st1 r1 cm1 uk st' ND' S1 P1 H) as [r2 [cm2 [E2 [L2 [S2 [K2 [O2 Q2]]]]]]].
    exists r2, cm2. split; [eapply eqbelow_trans; [exact E1|]; intros x Hx; apply E2; lia|]. split; [lia|]. split; [auto|]. split.
    { intros x. specialize (K1 x). specialize (K2 x). destruct (cm x), (cm1 x), (cm2 x); cbn in *; try contradiction; auto.
      destruct K1, K2. split; [unfold alike in *; congruence|eapply incl_tran; eauto]. }
    split.
    { intros x Hx. destruct (O2 x) as [A B]; [intros X; apply Hx; right; auto|]. destruct (O1 x) as [A' B']; [intros ->; apply Hx; left; auto|].
      split; congruence. }
    intros x lx [<-|Hx] HX.
    + rewrite HL in HX. injection HX as <-. destruct (O2 m NI) as [A B]. rewrite A, B. auto.
    + assert (NE : x <> m) by (intros ->; contradiction). destruct (O1 x NE) as [A _]. rewrite <- A.
      destruct (Q2 x lx Hx HX) as [Q|Q]; [left; auto|right]. intros o i c' Ho Hi E.
      destruct (P x lx (or_intror Hx) HX) as [g' [c0 [_ [_ [_ [OO' _]]]]]]. rewrite Forall_forall in OO'. destruct (OO' o Ho) as [X _].
      rewrite Forall_forall in X. assert (EE : ev r (ik i) = ev r1 (ik i)) by (apply (X i Hi); auto). rewrite EE. eauto.
Qed.
End Executions.

(** ** Executions of the merged states *)

(** Some execution reaches the state. *)
Definition feasible (st : gst) : Prop := exists r cm uk, sim r st cm uk.
Definition flat_maps (st : gst) : Prop := forall m g, gmaps st m = Some g -> glayers g = [].

(** [r] and [r'] differ at most on the symbols in [D]. *)
Definition agree (D : list N) (r r' : env) : Prop := forall y, ~ In y D -> ebv r' y = ebv r y /\ ebool r' y = ebool r y.
Definition freev (D : list N) (e : bv) : Prop := forall r r', agree D r r' -> ev r' e = ev r e.
Definition freeb (D : list N) (e : bexp) : Prop := forall r r', agree D r r' -> eb r' e = eb r e.
Definition free_item (D : list N) (i : item) : Prop := freev D (ik i) /\ freev D (iv i) /\ freeb D (ip i).
(** The state says nothing about the symbols in [D]. *)
Definition free_state (D : list N) (st : gst) : Prop :=
  Forall (freeb D) (gcs st) /\
  forall m g, gmaps st m = Some g ->
    Forall (free_item D) (gitems g) /\ free_item D (gunk g) /\ freev D (glen g) /\ Forall (freeb D) (ginvs g).

(** [L] lists reads of the state's maps, in order: the map, the symbol its answer got,
    and the item; each key was known before the symbol was made. *)
Fixpoint reads_of (st : gst) (lo : N) (L : list (N * N * item)) : Prop :=
  match L with
  | [] => lo <= gnext st
  | (m, y, i) :: L' =>
      lo <= y /\ dep y (ik i) /\
      (exists g, gmaps st m = Some g /\ iv i = BVS (gvs g) y /\ ip i = BoolS y) /\
      reads_of st (y + 1) L'
  end.
Definition syms (L : list (N * N * item)) : list N := map (fun e => snd (fst e)) L.

(** Since the two states split, [self] made the reads [L], whose symbols [o] does not
    know; everything else its maps recorded is also recorded in those of [o]. *)
Definition split_by (L : list (N * N * item)) (self o : gst) : Prop :=
  reads_of self 0 L /\ free_state (syms L) o /\
  forall m g g' i, gmaps self m = Some g -> gmaps o m = Some g' -> In i (gitems g) ->
    In i (gitems g') \/ exists y, In (m, y, i) L.

Lemma agree_setKVP : forall D r r' q vp, agree D r r' -> agree D (setKVP r q vp) (setKVP r' q vp).
Proof.
  intros D r r' q vp A y Hy. destruct (A y Hy) as [A1 A2]. unfold setKVP. cbn.
  repeat match goal with |- context [if ?c then _ else _] => destruct c end; auto.
Qed.

Lemma sim_free : forall D r r' st cm uk, flat_maps st -> free_state D st -> agree D r r' -> sim r st cm uk -> sim r' st cm uk.
Proof.
  intros D r r' st cm uk FL [F1 F2] A [S1 S2 S3 S4]. constructor; auto.
  - intros x Hx. rewrite Forall_forall in F1. rewrite (F1 x Hx r r' A). auto.
  - intros m. specialize (S4 m). destruct (gmaps st m) as [g|] eqn:G; [|auto]. destruct (cm m) as [c|]; [|auto].
    destruct (F2 m g G) as [I1 [I2 [I3 I4]]]. pose proof (FL m g G) as FG.
    assert (EK : forall i, free_item D i -> ev r' (ik i) = ev r (ik i)) by (intros i [X _]; auto).
    assert (EV : forall i, free_item D i -> val r' i = val r i).
    { intros i [_ [X Y]]. unfold val. rewrite (X r r' A), (Y r r' A). auto. }
    rewrite Forall_forall in I1, I4.
    destruct S4 as [A1 A2 A3 A4 A5 A6 A7 A8 A9 A10 B1 B2 B3 B4 B5 B6 B7 B8 B9 B10]. unfold len_at in *. rewrite FG in *. cbn [skipn pure_known] in *.
    constructor; unfold len_at; rewrite ?FG; cbn [skipn pure_known]; auto.
    + intros i Hi T. rewrite (EK i), (EV i) by auto. apply B3; auto.
    + rewrite (EK _ I2). auto.
    + rewrite (EV _ I2). auto.
    + intros inv Hinv q Hq T. rewrite (I4 inv Hinv _ _ (agree_setKVP _ _ _ q (ccont c q) A)). apply B7; auto.
    + rewrite (I3 r r' A). auto.
    + intros q Hq P. destruct (B10 q Hq P) as [X|[i [Hi E]]]; [auto|]. right. exists i. rewrite (EK i) by auto. auto.
Qed.

(** Giving the reads [L] the answers of the execution. *)
Fixpoint answer (cm : N -> option cmap) (r : env) (L : list (N * N * item)) : env :=
  match L with
  | [] => r
  | (m, y, i) :: L' =>
      answer cm (updvb r y (match cm m with Some c => ccont c (ev r (ik i)) | None => (0, false) end)) L'
  end.
Lemma answer_below : forall cm st L lo r, reads_of st lo L -> eqbelow lo r (answer cm r L).
Proof.
  intros cm st. induction L as [|[[m y] i] L IH]; intros lo r H; cbn [answer]; [apply eqbelow_refl|].
  destruct H as [H1 [_ [_ H]]]. eapply eqbelow_trans; [|intros z Hz; apply (IH (y + 1) _ H); lia].
  intros z Hz. apply updvb_eqbelow. lia.
Qed.
Lemma answer_agree : forall cm L r, agree (syms L) r (answer cm r L).
Proof.
  intros cm. induction L as [|[[m y] i] L IH]; intros r z Hz; cbn [answer]; [auto|]. cbn [syms map fst snd] in Hz.
  destruct (IH (updvb r y (match cm m with Some c => ccont c (ev r (ik i)) | None => (0, false) end)) z) as [A B].
  - intros X. apply Hz. right. exact X.
  - rewrite A, B. cbn. destruct (N.eqb_spec z y) as [->|]; [|auto]. exfalso. apply Hz. left. auto.
Qed.
Lemma answer_right : forall cm st, (forall m g, gmaps st m = Some g -> exists c, cm m = Some c /\ forall q, fst (ccont c q) < 2 ^ gvs g) ->
  forall L lo r, reads_of st lo L -> forall m y i c, In (m, y, i) L -> cm m = Some c ->
  val (answer cm r L) i = ccont c (ev (answer cm r L) (ik i)).
Proof.
  intros cm st OK. induction L as [|[[m y] i] L IH]; intros lo r H m' y' i' c Hin C; [destruct Hin|].
  destruct H as [H1 [D [[g [G [V P]]] H]]]. cbn [answer]. destruct Hin as [E|Hin]; [|eapply IH; eauto].
  injection E as <- <- <-. destruct (OK m g G) as [c0 [C0 B]]. rewrite C in C0. injection C0 as <-. rewrite C.
  set (r1 := updvb r y (ccont c (ev r (ik i)))). pose proof (answer_below cm st L _ r1 H) as EB.
  assert (E1 : ev r (ik i) = ev (answer cm r1 L) (ik i)).
  { apply D. eapply eqbelow_trans; [apply updvb_eqbelow|]. fold r1. intros z Hz. apply EB. lia. }
  rewrite <- E1. unfold val. rewrite V, P. cbn [evalv evalb]. destruct (EB y) as [X Y]; [lia|]. rewrite <- X, <- Y.
  unfold r1. cbn [updvb ebv ebool]. rewrite N.eqb_refl. rewrite wrap_small by apply B. destruct (ccont c (ev r (ik i))); reflexivity.
Qed.
Lemma reads_below : forall st L lo y, reads_of st lo L -> In y (syms L) -> y < gnext st.
Proof.
  assert (LE : forall st L lo, reads_of st lo L -> lo <= gnext st).
  { intros st. induction L as [|[[m y] i] L IH]; intros lo H; [exact H|]. destruct H as [A [_ [_ B]]]. specialize (IH _ B). lia. }
  intros st. induction L as [|[[m z] i] L IH]; intros lo y H Hy; [destruct Hy|]. destruct H as [_ [_ [_ H]]].
  destruct Hy as [<-|Hy]; [cbn; specialize (LE _ _ _ H); lia|eauto].
Qed.

Lemma can_merge_parts : forall g o, can_merge g o = true -> glayers g = [] ->
  ginvs g = ginvs o /\ glen g = glen o /\ gunk g = gunk o /\ glayers o = [].
Proof.
  intros g o H FL. unfold can_merge in H. rewrite !andb_true_iff in H. destruct H as [[[[H1 H2] H3] _] H5].
  apply bexps_eqb_eq in H1. apply bv_eqb_eq in H2. apply item_eqb_eq in H3. rewrite FL in H5.
  destruct (glayers o); [auto|discriminate].
Qed.
Lemma mergeable_parts : forall g o, glayers g = [] -> (gmap_eqb g o = true \/ can_merge g o = true) ->
  ginvs g = ginvs o /\ glen g = glen o /\ gunk g = gunk o /\ glayers o = [].
Proof.
  intros g o FL [H|H]; [|apply can_merge_parts; auto]. apply gmap_eqb_eq in H as [<- H]. auto.
Qed.

(** The map merged into, with the contents of another state's execution. *)
Lemma msim_other : forall r n g o c u, glayers g = [] -> glayers o = [] -> gks g = gks o -> gvs g = gvs o ->
  ginvs g = ginvs o -> glen g = glen o -> gunk g = gunk o ->
  Forall (itemok (gks g) (gvs g) n) (gitems g) -> (forall i, In i (gitems g) -> ccont c (ev r (ik i)) = val r i) ->
  msim r n o c u -> msim r n g (forget c) u.
Proof.
  intros r n [a b gi iv0 un le la] [a' b' gi' iv' un' le' la'] c u. cbn [gks gvs gitems ginvs gunk glen glayers].
  intros -> -> -> -> -> -> -> F V [A1 A2 A3 A4 A5 A6 A7 A8 A9 A10 B1 B2 B3 B4 B5 B6 B7 B8 B9 B10].
  constructor; auto.
  all: cbn [glayers gitems gunk ginvs gks gvs cks cvs clw ccont csize cseen forget top pure_known coherent] in *; auto; try (intros q []).
Qed.

Section Merged.
Variable s : solver.
Variable k : claripy.
Hypothesis SOK : solver_ok s.
Hypothesis KOK : claripy_ok k.

Lemma conds_tl : forall x n j mc, nth_error (tl (merge_conds x (S n))) j = Some mc ->
  (S j < S n)%nat /\ mc = BEq (BVS (flag_width (S n)) x) (BVV (flag_width (S n)) (N.of_nat (S j))) /\ mc = nth (S j) (merge_conds x (S n)) BFalse.
Proof.
  intros x n j mc H. assert (L : (S j < S n)%nat).
  { assert (X : (j < length (tl (merge_conds x (S n))))%nat) by (apply nth_error_Some; congruence).
    pose proof (merge_conds_length x (S n)) as Y. destruct (merge_conds x (S n)); cbn in *; lia. }
  assert (E : mc = nth (S j) (merge_conds x (S n)) BFalse).
  { destruct (merge_conds x (S n)); [destruct j; discriminate|]. cbn [tl nth] in *. symmetry. apply nth_error_nth. auto. }
  split; [auto|]. split; [|auto]. rewrite E. apply merge_conds_nth. auto.
Qed.

Lemma constraints_dep : forall x n self others, Forall (depb n) self -> Forall (Forall (depb n)) others -> n <= x ->
  Forall (depb (x + 1)) (merge_states_constraints x self others).
Proof.
  intros x n self others A B L. unfold merge_states_constraints, merge_constraints.
  assert (W : forall l, Forall (depb n) l -> Forall (depb (x + 1)) l).
  { intros l F. eapply Forall_impl; [|exact F]. intros e He. eapply depb_le; [|exact He]. lia. }
  assert (MC : forall c, In c (merge_conds x (S (length others))) -> depb (x + 1) c).
  { intros c Hc. unfold merge_conds in Hc. apply in_map_iff in Hc as [i [<- _]]. intros r1 r2 E. cbn [evalb evalv].
    destruct (E x) as [-> _]; [lia|]. reflexivity. }
  rewrite !Forall_app. split; [|split].
  - apply W. rewrite <- (firstn_skipn (diverge bexp_eqb self others) self) in A. apply Forall_app in A. apply A.
  - apply Forall_forall. intros e He. apply in_flat_map in He as [[l c] [Hp He]]. apply in_map_iff in He as [e' [<- He]].
    cbn [fst snd] in *. pose proof (in_combine_l _ _ _ _ Hp) as HL. pose proof (in_combine_r _ _ _ _ Hp) as HC.
    assert (F : Forall (depb n) l) by (destruct HL as [<-|HL]; [auto|]; rewrite Forall_forall in B; auto).
    assert (He' : In e' l) by (rewrite <- (firstn_skipn (diverge bexp_eqb self others) l); apply in_or_app; auto).
    pose proof (W _ F) as F'. rewrite Forall_forall in F'. specialize (F' e' He'). pose proof (MC c HC) as DC.
    intros r1 r2 E. cbn [evalb]. rewrite (F' _ _ E), (DC _ _ E). reflexivity.
  - constructor; [|constructor]. intros r1 r2 E.
    assert (X : forall l, (forall c, In c l -> depb (x + 1) c) -> eb r1 (BOrL l) = eb r2 (BOrL l)).
    { induction l as [|c l IH]; intros Hl; [reflexivity|]. cbn in *. rewrite (Hl c (or_introl eq_refl) _ _ E).
      f_equal. apply IH. auto. }
    apply X. exact MC.
Qed.

Lemma maps_done : forall fuel others conds ms st st', merge_maps s k fuel st others conds ms = Ok st' ->
  forall m, In m ms -> exists l, maps_of m others conds = Ok l.
Proof.
  intros fuel others conds. induction ms as [|a ms IH]; intros st st' H m Hm; [destruct Hm|]. cbn [merge_maps] in H.
  apply bindr_ok in H as [l [X H]]. apply bindr_ok in H as [st2 [_ H]]. destruct Hm as [<-|Hm]; eauto.
Qed.

Theorem merge_states_sim : forall fuel x self others ms st',
  NoDup ms -> flat_maps self -> Forall (fun o => maps_can_merge ms self o /\ feasible o /\ gnext o <= x) others ->
  feasible self -> gnext self <= x -> (forall m, In m ms <-> gmaps self m <> None) ->
  merge_states s k fuel x self others ms = Ok st' ->
  forall j st L r cm uk, nth_error (self :: others) j = Some st ->
  (j = O /\ L = [] \/ split_by L self st) -> sim r st cm uk ->
  exists r', sim r' st' cm uk /\ ev r' (BVS (flag_width (S (length others))) x) = N.of_nat j /\
    forall y, y < x -> ~ In y (syms L) -> ebv r' y = ebv r y /\ ebool r' y = ebool r y.
Proof.
  intros fuel x self others ms st' ND FLT OTH FS LX DOM H j st L r cm uk NJ SP SI.
  assert (JL : (j < S (length others))%nat) by (apply (proj1 (nth_error_Some (self :: others) j)); congruence).
  destruct FS as [rs [cs [us FS]]].
  assert (LST : gnext st <= x).
  { destruct j; [injection NJ as <-; auto|]. cbn [nth_error] in NJ. apply nth_error_In in NJ. rewrite Forall_forall in OTH. apply (OTH _ NJ). }
  assert (CM : forall m g, gmaps self m = Some g -> exists g', gmaps st m = Some g' /\ gks g = gks g' /\ gvs g = gvs g' /\
            ginvs g = ginvs g' /\ glen g = glen g' /\ gunk g = gunk g' /\ glayers g' = []).
  { intros m g G. destruct j; [injection NJ as <-; exists g; repeat split; auto; eapply FLT; eauto|]. cbn [nth_error] in NJ. apply nth_error_In in NJ.
    rewrite Forall_forall in OTH. destruct (OTH _ NJ) as [MC _]. specialize (MC m). rewrite G in MC.
    destruct (gmaps st m) as [g'|]; [|contradiction]. destruct MC as [_ [E1 [E2 MC]]].
    destruct (mergeable_parts g g' (FLT m g G) MC) as [X1 [X2 [X3 X4]]]. exists g'. repeat split; auto. }
  assert (NM : forall m, gmaps self m = None -> gmaps st m = None).
  { intros m G. destruct j; [injection NJ as <-; auto|]. cbn [nth_error] in NJ. apply nth_error_In in NJ.
    rewrite Forall_forall in OTH. destruct (OTH _ NJ) as [MC _]. specialize (MC m). rewrite G in MC.
    destruct (gmaps st m); [contradiction|auto]. }
  assert (CS : forall m g, gmaps self m = Some g -> exists c, cm m = Some c /\ forall q, fst (ccont c q) < 2 ^ gvs g).
  { intros m g G. destruct (CM m g G) as [g' [G' [_ [E2 _]]]]. pose proof (sim_maps _ _ _ _ SI m) as M. rewrite G' in M.
    destruct (cm m) as [c|]; [|contradiction]. exists c. split; [auto|]. rewrite E2, (ms_vs _ _ _ _ _ M). apply (ms_val _ _ _ _ _ M). }
  (* the environment: the answers, then the selector *)
  set (r1 := answer cm r L). set (r2 := updvb r1 x (N.of_nat j, false)).
  pose proof (updvb_eqbelow r1 x (N.of_nat j, false)) as E2. fold r2 in E2.
  assert (BL : forall y, In y (syms L) -> y < x).
  { intros y Hy. destruct SP as [[_ ->]|[SP _]]; [destruct Hy|]. pose proof (reads_below _ _ _ _ SP Hy). lia. }
  assert (AG : forall y, y < x -> ~ In y (syms L) -> ebv r2 y = ebv r y /\ ebool r2 y = ebool r y).
  { intros y Hy N0. destruct (E2 y Hy) as [<- <-]. apply (answer_agree cm L r y N0). }
  assert (S1 : sim r1 st cm uk).
  { destruct SP as [[_ ->]|[SP1 [SP2 _]]]; [exact SI|]. eapply sim_free; [|exact SP2|apply answer_agree|exact SI].
    intros m g' G'. destruct (gmaps self m) as [g|] eqn:G; [|rewrite (NM m G) in G'; discriminate].
    destruct (CM m g G) as [g2 [G2 [_ [_ [_ [_ [_ X]]]]]]]. rewrite G' in G2. injection G2 as <-. auto. }
  assert (S2 : forall m g', gmaps st m = Some g' -> exists c, cm m = Some c /\ msim r2 (x + 1) g' c (uk m)).
  { intros m g' G'. pose proof (sim_maps _ _ _ _ S1 m) as M. rewrite G' in M. destruct (cm m) as [c|]; [|contradiction].
    exists c. split; [auto|]. apply (msim_mono r1 r2 (gnext st) (x + 1)); [intros z Hz; apply E2; lia|lia|exact M]. }
  assert (H2 : holds r2 (gcs st)).
  { pose proof (sim_cs _ _ _ _ S1) as HH. pose proof (sim_dep _ _ _ _ S1) as DD. rewrite Forall_forall in DD. intros e He.
    rewrite <- (DD e He r1 r2); [auto|]. intros y Hy. apply E2. lia. }
  assert (SEL : wrap (flag_width (Datatypes.S (length others))) (ebv r2 x) = N.of_nat j).
  { unfold r2. cbn [updvb ebv fst]. rewrite N.eqb_refl. apply wrap_small. apply flag_width_ok. auto. }
  (* the state the maps are merged into *)
  set (cm0 := fun m => match cm m with Some c => Some (if (j =? 0)%nat then c else forget c) | None => None end).
  set (st0 := mkGst (merge_states_constraints x (gcs self) (map gcs others)) (x + 1) (gmaps self) (gsz self)) in *.
  assert (S0 : sim r2 st0 cm0 uk).
  { constructor; cbn [st0 gcs gnext gmaps].
    - apply merge_states_constraints_sel. exists j. rewrite map_length. split; [auto|]. split; [exact SEL|].
      change (gcs self :: map gcs others) with (map gcs (self :: others)).
      rewrite (nth_error_nth (map gcs (self :: others)) j [] (map_nth_error gcs j _ NJ)). auto.
    - apply constraints_dep with (n := x); [| |lia].
      + eapply Forall_impl; [|apply (sim_dep _ _ _ _ FS)]. intros e He. eapply depb_le; [|exact He]. auto.
      + apply Forall_forall. intros l Hl. apply in_map_iff in Hl as [o [<- Ho]]. rewrite Forall_forall in OTH.
        destruct (OTH o Ho) as [_ [[ro [co [uo FO]]] LO]]. eapply Forall_impl; [|apply (sim_dep _ _ _ _ FO)]. intros e He.
        eapply depb_le; [|exact He]. auto.
    - pose proof (sim_n _ _ _ _ FS). lia.
    - intros m. unfold cm0. destruct (gmaps self m) as [g|] eqn:G.
      + destruct (CM m g G) as [g' [G' [K1 [K2 [K3 [K4 [K5 K6]]]]]]]. destruct (S2 m g' G') as [c [C M]]. rewrite C.
        pose proof (FLT m g G) as FG. destruct (Nat.eqb_spec j 0) as [J0|J0].
        * subst j. injection NJ as <-. rewrite G in G'. injection G' as <-. exact M.
        * apply (msim_other r2 (x + 1) g g' c (uk m)); auto.
          -- pose proof (sim_maps _ _ _ _ FS m) as MS. rewrite G in MS. destruct (cs m) as [c'|]; [|contradiction].
             eapply Forall_impl; [|apply (ms_base _ _ _ _ _ MS)]. intros i Hi. eapply itemok_le; [|exact Hi]. lia.
          -- intros i Hi. destruct SP as [[J1 _]|[SP1 [SP2 SP3]]]; [contradiction|].
             destruct (SP3 m g g' i G G' Hi) as [Hi'|[y Hy]].
             ++ apply (ms_bval _ _ _ _ _ M); [auto|]. rewrite K6. reflexivity.
             ++ pose proof (answer_right cm self CS L 0 r SP1 m y i c Hy C) as AR. fold r1 in AR.
                pose proof (sim_maps _ _ _ _ FS m) as MS. rewrite G in MS. destruct (cs m) as [c'|]; [|contradiction].
                pose proof (ms_base _ _ _ _ _ MS) as BB. rewrite Forall_forall in BB. destruct (BB i Hi) as [_ [DI _]].
                assert (EB : eqbelow (gnext self) r1 r2) by (intros z Hz; apply E2; lia).
                rewrite <- (val_eq _ i r1 r2 DI EB). destruct DI as [DK _]. rewrite <- (DK _ _ EB). auto.
      + pose proof (sim_maps _ _ _ _ S1 m) as M. rewrite (NM m G) in M. destruct (cm m); [contradiction|auto]. }
  set (conds := tl (merge_conds x (Datatypes.S (length others)))) in *.
  assert (PRE : forall m l, In m ms -> maps_of m others conds = Ok l -> exists g c, gmaps st0 m = Some g /\ glayers g = [] /\
     cm0 m = Some c /\ Forall (other_ok c (gnext st0)) l /\ Forall (item_known r2 c) l).
  { intros m l Hm HL. cbn [st0 gmaps gnext]. destruct (gmaps self m) as [g|] eqn:G; [|apply DOM in Hm; congruence].
    destruct (CM m g G) as [g' [G' [K1 [K2 _]]]]. destruct (S2 m g' G') as [c [C M]].
    exists g, (if (j =? 0)%nat then c else forget c). split; [auto|]. split; [eapply FLT; eauto|]. split; [unfold cm0; rewrite C; auto|].
    assert (AL : alike c (if (j =? 0)%nat then c else forget c)) by (destruct (j =? 0)%nat; reflexivity).
    split; apply Forall_forall; intros o Ho; destruct (maps_of_in _ _ _ _ HL o Ho) as [n [so [N1 [N2 N3]]]].
    - eapply alike_ok; [exact AL|]. pose proof (nth_error_In _ _ N1) as IO. rewrite Forall_forall in OTH.
      destruct (OTH so IO) as [MC [[ro [co [uo FO]]] LO]]. specialize (MC m). rewrite G, N2 in MC. destruct MC as [_ [X1 [X2 _]]].
      pose proof (sim_maps _ _ _ _ FO m) as MO. rewrite N2 in MO. destruct (co m) as [c'|]; [|contradiction]. split.
      + rewrite <- (ms_ks _ _ _ _ _ M), <- (ms_vs _ _ _ _ _ M), <- K1, <- K2, X1, X2.
        eapply Forall_impl; [|apply (ms_base _ _ _ _ _ MO)]. intros i Hi. eapply itemok_le; [|exact Hi]. lia.
      + destruct (conds_tl _ _ _ _ N3) as [_ [-> _]]. intros q1 q2 E. cbn [evalb evalv]. destruct (E x) as [-> _]; [lia|]. reflexivity.
    - eapply alike_known; [exact AL|]. intros MC i Hi. destruct (conds_tl _ _ _ _ N3) as [LN [_ EN]]. rewrite EN in MC.
      apply merge_conds_eval in MC; [|auto]. rewrite SEL in MC. assert (j = Datatypes.S n) by lia. subst j. cbn [nth_error] in NJ.
      rewrite N1 in NJ. injection NJ as ->. rewrite N2 in G'. injection G' as <-.
      symmetry. apply (ms_bval _ _ _ _ _ M); [auto|]. destruct (CM m g G) as [g2 [G2 [_ [_ [_ [_ [_ X]]]]]]].
      rewrite N2 in G2. injection G2 as <-. rewrite X. reflexivity. }
  destruct (merge_maps_sim s k SOK KOK fuel others conds ms st0 r2 cm0 uk st' ND S0 PRE H)
    as [r3 [cm3 [E3 [L3 [S3 [K3 [O3 Q3]]]]]]].
  exists r3. split; [|split].
  - constructor; [apply (sim_cs _ _ _ _ S3)|apply (sim_dep _ _ _ _ S3)|apply (sim_n _ _ _ _ S3)|]. intros m.
    pose proof (sim_maps _ _ _ _ S3 m) as M3. specialize (K3 m). unfold cm0 in K3.
    destruct (cm m) as [c|] eqn:C.
    + destruct (cm3 m) as [c3|] eqn:C3; [|contradiction]. destruct (gmaps st' m) as [g3|] eqn:G3; [|contradiction].
      destruct K3 as [AL IN]. assert (AL' : alike c3 c) by (destruct (j =? 0)%nat; unfold alike in *; rewrite <- AL; reflexivity).
      eapply msim_seen; [exact M3|exact AL'|]. intros q Hq P.
      assert (P3 : snd (ccont c3 q) = true).
      { destruct c, c3. unfold alike, forget in AL'. cbn in AL'. injection AL' as -> -> -> -> ->. exact P. }
      destruct j as [|n].
      * apply (ms_seen _ _ _ _ _ M3); auto. 
      * pose proof (sim_maps _ _ _ _ S1 m) as MI. rewrite C in MI. destruct (gmaps st m) as [gi|] eqn:GI; [|contradiction].
        destruct (gmaps self m) as [g|] eqn:G; [|rewrite (NM m G) in GI; discriminate].
        destruct (CM m g G) as [gi' [GI' [_ [_ [_ [_ [_ FI]]]]]]]. rewrite GI in GI'. injection GI' as <-.
        destruct (ms_seen _ _ _ _ _ MI q Hq P) as [X|[i [Hi Ei]]]; [auto|]. rewrite FI in Hi. cbn [pure_known] in Hi.
        assert (DI : dep (gnext st) (ik i)).
        { pose proof (ms_base _ _ _ _ _ MI) as BB. rewrite Forall_forall in BB. apply (BB i Hi). }
        assert (E12 : ev r2 (ik i) = q) by (rewrite <- Ei; symmetry; apply DI; intros z Hz; apply E2; lia).
        assert (E13 : ev r3 (ik i) = q).
        { rewrite <- E12. symmetry. apply DI. intros z Hz. apply E3. cbn. lia. }
        assert (Hm : In m ms) by (apply DOM; congruence). cbn [nth_error] in NJ.
        destruct (maps_done _ _ _ _ _ _ H m Hm) as [l HL].
        { assert (XC : exists mc, nth_error conds n = Some mc).
           { destruct (nth_error conds n) eqn:X; [eauto|]. apply nth_error_None in X. unfold conds in X.
             pose proof (merge_conds_length x (Datatypes.S (length others))) as Y. destruct (merge_conds x (Datatypes.S (length others))); cbn in *; lia. }
           destruct XC as [mc XC]. destruct (maps_of_get _ _ _ _ _ _ _ HL NJ XC) as [go [GO IO]]. rewrite GI in GO. injection GO as <-.
           destruct (Q3 m l Hm HL) as [[Q1 Q2]|Q].
           - right. exists i. split; [|auto]. pose proof (Q2 _ IO) as QE. cbn [fst] in QE. rewrite Q1, QE in G3. injection G3 as <-.
              rewrite FI. exact Hi.
           - apply (ms_seen _ _ _ _ _ M3); [|auto]. rewrite <- E12. eapply Q; eauto. }
    + destruct (cm3 m); [contradiction|]. exact M3.
  - cbn [evalv]. destruct (E3 x) as [<- _]; [cbn; lia|]. exact SEL.
  - intros y Hy N0. destruct (E3 y) as [<- <-]; [cbn; lia|]. apply AG; auto.
Qed.
End Merged.

(** ** What the merged state answers *)

Section Answers.
Variable s : solver.
Variable k : claripy.
Hypothesis SOK : solver_ok s.

(** The answers to equal keys are equal. *)
Definition settled (r : env) (g : gmap) : Prop :=
  forall a b, In a (gitems g ++ [gunk g]) -> In b (gitems g ++ [gunk g]) -> ev r (ik a) = ev r (ik b) -> val r a = val r b.

Lemma read_settled : forall fuel st m g key st' v p, gmaps st m = Some g -> flat g ->
  get s k fuel st m key None BTrue None = Ok (st', (v, p)) ->
  forall r i, holds r (gcs st') -> settled r g -> has r g i -> ev r key = ev r (ik i) ->
  eb r p = eb r (ip i) /\ (eb r p = true -> ev r v = ev r (iv i)).
Proof.
  intros fuel st m g key st' v p G F H r i Hr PA HS EK.
  destruct (get_flat s k SOK _ _ _ _ _ _ _ _ G F H) as [g' [_ [_ [_ C]]]].
  destruct HS as [[EE P]|[EF [j [Hj [Ej Vj]]]]].
  - destruct C as [[_ ->]|[EF _]]; [|congruence]. cbn [evalb]. rewrite P. split; [auto|discriminate].
  - destruct C as [[C _]|[_ [j' [_ [_ [_ [_ VV]]]]]]]; [congruence|].
    specialize (VV r Hr PA j Hj). rewrite Vj in VV.
    assert (V2 : (ev r v, eb r p) = val r i) by (apply VV; congruence). unfold val in V2. injection V2 as V2 V3. auto.
Qed.

Lemma get_others : forall fuel st m g key st' v p, gmaps st m = Some g -> flat g ->
  get s k fuel st m key None BTrue None = Ok (st', (v, p)) -> forall y, y <> m -> gmaps st' y = gmaps st y.
Proof.
  intros fuel st m g key st' v p G [FL FI] H y NE.
  assert (CO : coherent (glayers g) (gitems g)) by (rewrite FL; exact I).
  assert (SG : single (glayers g)) by (rewrite FL; constructor).
  destruct (get_cases s k _ _ _ _ _ _ _ _ G CO SG FI H) as [[EE [-> ->]]|[[EE [_ [g1 [i [Sm [Co [GE [-> [-> ->]]]]]]]]]|[EE [_ [g1 [g2 [fits [st0 X]]]]]]]].
  - reflexivity.
  - apply set_map_other. exact NE.
  - cbv zeta in X. destruct X as [WV [Sm [G0 [OE [C0 [O0 [Z0 [Co0 [same [-> SA]]]]]]]]]].
    cbn [add_cs]. change (gmaps (set_map st0 m g2) y = gmaps st y). rewrite set_map_other by exact NE. apply O0. exact NE.
Qed.
Lemma merge_right_others : forall fuel m mc items st st' g, gmaps st m = Some g -> flat g ->
  merge_right s k fuel st m mc items = Ok st' -> forall y, y <> m -> gmaps st' y = gmaps st y.
Proof.
  intros fuel m mc. induction items as [|i items IH]; intros st st' g G F H y NE; cbn [merge_right] in H; [injection H as <-; auto|].
  apply bindr_ok in H as [[st1 [v p]] [H1 H]]. cbn [fst snd] in H.
  destruct (get_flat s k SOK _ _ _ _ _ _ _ _ G F H1) as [g1 [G1 [GR1 _]]].
  rewrite (IH (add_cs st1 _) _ g1 G1 (proj1 GR1) H y NE). apply (get_others _ _ _ _ _ _ _ _ G F H1 y NE).
Qed.
Lemma merge_others_others : forall fuel m others st st' g, gmaps st m = Some g -> flat g ->
  merge_others s k fuel st m others = Ok st' -> forall y, y <> m -> gmaps st' y = gmaps st y.
Proof.
  intros fuel m. induction others as [|[o mc] others IH]; intros st st' g G F H y NE; cbn [merge_others] in H; [injection H as <-; auto|].
  rewrite G in H. destruct (items_diff (gitems g) (gitems o)) as [[ol both] onr] eqn:DE.
  apply bindr_ok in H as [st1 [H1 H]]. apply bindr_ok in H as [st2 [H2 H]].
  destruct (merge_left_flat s k _ _ _ _ _ _ _ _ m (proj2 F) H1) as [_ E1]. rewrite G in E1.
  destruct (merge_left_flat s k _ _ _ _ _ _ _ _ y (proj2 F) H1) as [_ E1y].
  destruct (merge_right_flat s k SOK _ _ _ _ _ _ g E1 F H2) as [g2 [G2 [GR2 _]]].
  rewrite (IH _ _ g2 G2 (proj1 GR2) H y NE), (merge_right_others _ _ _ _ _ _ _ E1 F H2 y NE). exact E1y.
Qed.

Lemma merge_base_state : forall fuel st m g others st',
  gmaps st m = Some g -> flat g -> merge_base s k fuel st m others = Ok st' ->
  mono st st' /\ (forall y, y <> m -> gmaps st' y = gmaps st y) /\
  exists g', gmaps st' m = Some g' /\ flat g' /\
    forall r, holds r (gcs st') -> settled r g' /\ forall i, of_state r g others i -> has r g' i.
Proof.
  intros fuel st m g others st' G F H.
  unfold merge_base in H. apply bindr_ok in H as [st1 [H1 H]].
  destruct (merge_others_flat s k SOK _ _ _ _ _ _ G F H1) as [g1 [G1 [GR1 [M1 K1]]]]. rewrite G1 in H.
  set (st2 := add_cs st1 (pairs (gitems g1) (gunk g1))) in *.
  destruct (is_not_overfull s k st2 m 0) as [st3 fits] eqn:OE. injection H as <-.
  assert (X : exists g3, st3 = set_map st2 m g3 /\ same_map g1 g3).
  { unfold is_not_overfull in OE. change (gmaps st2 m) with (gmaps st1 m) in OE. rewrite G1 in OE.
    destruct (known_items_spec g1) as [gg [Ek [Sgg _]]]; [rewrite (proj1 (proj1 GR1)); exact I|]. rewrite Ek in OE.
    destruct (definitely_true s _ _); injection OE as <- _; eauto. }
  destruct X as [g3 [-> Sm]]. pose proof (flat_same _ _ (proj1 GR1) Sm) as GR3.
  split; [|split].
  - eapply mono_trans; [exact M1|]. split; [|cbn; lia]. cbn [add_cs set_map gcs st2]. intros c Hc. apply in_or_app. left. apply in_or_app. left. exact Hc.
  - intros y NE. change (gmaps (set_map st2 m g3) y = gmaps st y). rewrite set_map_other by exact NE. exact (merge_others_others _ _ _ _ _ _ G F H1 y NE).
  - exists g3. split; [apply set_map_same|]. split; [apply GR3|]. intros r Hr.
    cbn [add_cs gcs] in Hr. apply holds_app in Hr as [Hr _]. cbn [set_map st2 add_cs gcs] in Hr. apply holds_app in Hr as [Hr1 HP].
    split.
    + pose proof (pairs_spec r _ _ HP) as PA. pose proof Sm as [_ [_ [E3 [_ [E5 _]]]]]. unfold settled. rewrite <- E3, <- E5. exact PA.
    + intros i WI. apply (has_grown r g1 g3); [exact GR3|apply GR1|]. destruct WI as [[o [mc [Hin [MC Hi]]]]|[Hi NE]]; [eapply K1; eauto|].
      right. rewrite (grown_empty _ _ GR1 F). split; [auto|]. exists i. split; [apply in_or_app; left; apply GR1; auto|auto].
Qed.

Lemma merge_map_state : forall fuel st m g others st',
  gmaps st m = Some g -> flat g -> merge_map s k fuel st m others = Ok st' ->
  mono st st' /\ (forall y, y <> m -> gmaps st' y = gmaps st y) /\
  exists g', gmaps st' m = Some g' /\ flat g' /\
    ((g' = g /\ forall o mc, In (o, mc) others -> o = g) \/
     forall r, holds r (gcs st') -> settled r g' /\ forall i, of_state r g others i -> has r g' i).
Proof.
  intros fuel st m g others st' G F H. unfold merge_map in H. rewrite G in H.
  destruct (forallb (fun o => gmap_eqb g (fst o)) others) eqn:FA.
  - injection H as <-. split; [apply mono_refl|]. split; [auto|]. exists g. split; [auto|]. split; [auto|]. left. split; [auto|].
    intros o mc Ho. rewrite forallb_forall in FA. destruct (gmap_eqb_eq _ _ (FA _ Ho)) as [E _]. cbn [fst] in E. auto.
  - rewrite (proj1 F) in H. destruct (merge_base_state _ _ _ _ _ _ G F H) as [A [B [g' [C [D E]]]]].
    split; [exact A|]. split; [exact B|]. exists g'. auto.
Qed.

Lemma merge_maps_state : forall fuel others conds ms st st', NoDup ms ->
  (forall m g, gmaps st m = Some g -> flat g) -> merge_maps s k fuel st others conds ms = Ok st' ->
  mono st st' /\ (forall y, ~ In y ms -> gmaps st' y = gmaps st y) /\
  forall m g, In m ms -> gmaps st m = Some g -> exists l g', maps_of m others conds = Ok l /\ gmaps st' m = Some g' /\ flat g' /\
    ((g' = g /\ forall o mc, In (o, mc) l -> o = g) \/
     forall r, holds r (gcs st') -> settled r g' /\ forall i, of_state r g l i -> has r g' i).
Proof.
  intros fuel others conds. induction ms as [|m ms IH]; intros st st' ND FL H; cbn [merge_maps] in H.
  - injection H as <-. split; [apply mono_refl|]. split; [auto|]. intros m g [].
  - inversion ND as [|? ? NI ND']; subst. apply bindr_ok in H as [l [HL H]]. apply bindr_ok in H as [st1 [H1 H]].
    destruct (gmaps st m) as [g|] eqn:G; [|unfold merge_map in H1; rewrite G in H1; discriminate].
    destruct (merge_map_state _ _ _ _ _ _ G (FL m g G) H1) as [M1 [O1 [g1 [G1 [F1 C1]]]]].
    assert (FL1 : forall x gx, gmaps st1 x = Some gx -> flat gx).
    { intros x gx Gx. destruct (N.eq_dec x m) as [->|NE]; [rewrite G1 in Gx; injection Gx as <-; exact F1|]. rewrite O1 in Gx by exact NE. eauto. }
    destruct (IH st1 st' ND' FL1 H) as [M2 [O2 C2]]. split; [eapply mono_trans; eauto|]. split.
    + intros y NY. cbn [In] in NY. rewrite O2 by tauto. apply O1. intros ->. tauto.
    + intros m' g' [<-|Hm] G'.
      * rewrite G in G'. injection G' as <-. exists l, g1. split; [exact HL|]. split; [rewrite O2 by exact NI; exact G1|]. split; [exact F1|].
        destruct C1 as [C1|C1]; [left; exact C1|right]. intros r Hr. apply C1. eapply holds_mono; eauto.
      * apply C2; [exact Hm|]. rewrite O1; [exact G'|]. intros ->. contradiction.
Qed.

Lemma merge_states_reads : forall fuel x self others ms st', NoDup ms ->
  (forall m g, gmaps self m = Some g -> flat g) -> merge_states s k fuel x self others ms = Ok st' ->
  forall j st m o i, nth_error (self :: others) j = Some st -> In m ms -> gmaps self m <> None -> gmaps st m = Some o ->
  In i (gitems o) -> is_definitely_empty o 0 = false ->
  (forall r, holds r (gcs st) -> settled r o) ->
  forall fuel' key st'' v p r, get s k fuel' st' m key None BTrue None = Ok (st'', (v, p)) -> holds r (gcs st'') ->
  ev r (BVS (flag_width (S (length others))) x) = N.of_nat j -> ev r key = ev r (ik i) ->
  holds r (gcs st) /\ eb r p = eb r (ip i) /\ (eb r p = true -> ev r v = ev r (iv i)).
Proof.
  intros fuel x self others ms st' ND FL H j st m o i NJ Hm DM GO Hi NE SE fuel' key st'' v p r GE Hr SEL EK.
  unfold merge_states in H. set (st0 := mkGst _ _ _ _) in H. set (conds := tl _) in H.
  destruct (merge_maps_state fuel others conds ms st0 st' ND FL H) as [M0 [_ C]].
  destruct (gmaps self m) as [g|] eqn:G; [|congruence]. destruct (C m g Hm G) as [l [g' [HL [G' [F' C']]]]].
  pose proof (get_mono s k _ _ _ _ _ _ _ _ _ GE) as M1. pose proof (holds_mono _ _ _ M1 Hr) as Hr1. pose proof (holds_mono _ _ _ M0 Hr1) as Hr0.
  cbn [evalv] in SEL. assert (LJ : (j < S (length others))%nat).
  { change (S (length others)) with (length (self :: others)). apply nth_error_Some. congruence. }
  assert (HJ : holds r (gcs st)).
  { cbn [st0 gcs] in Hr0. apply merge_states_constraints_sel in Hr0 as [n [Ln [En Hn]]]. rewrite map_length in *.
    assert (n = j) by lia. subst n. change (gcs self :: map gcs others) with (map gcs (self :: others)) in Hn.
    rewrite (nth_indep _ [] (gcs st)) in Hn by (rewrite map_length; exact LJ). rewrite map_nth in Hn.
    rewrite (nth_error_nth _ _ st NJ) in Hn. exact Hn. }
  split; [exact HJ|].
  assert (OF : of_state r g l i \/ False).
  { left. destruct j as [|j]; cbn [nth_error] in NJ.
    - injection NJ as <-. right. rewrite G in GO. injection GO as <-. auto.
    - left. assert (XC : exists mc, nth_error conds j = Some mc).
      { destruct (nth_error conds j) eqn:X; [eauto|]. apply nth_error_None in X. unfold conds in X.
        pose proof (merge_conds_length x (S (length others))) as Y. destruct (merge_conds x (S (length others))); cbn in *; lia. }
      destruct XC as [mc XC]. destruct (maps_of_get _ _ _ _ _ _ _ HL NJ XC) as [go [GG IO]]. rewrite GO in GG. injection GG as <-.
      exists o, mc. split; [exact IO|]. split; [|exact Hi]. destruct (conds_tl _ _ _ _ XC) as [Lj [_ ->]].
      apply merge_conds_eval; assumption. }
  destruct OF as [OF|[]]. destruct C' as [[-> EQ]|C'].
  - assert (o = g).
    { destruct j as [|j]; cbn [nth_error] in NJ; [injection NJ as <-; congruence|].
      assert (XC : exists mc, nth_error conds j = Some mc).
      { destruct (nth_error conds j) eqn:X; [eauto|]. apply nth_error_None in X. unfold conds in X.
        pose proof (merge_conds_length x (S (length others))) as Y. destruct (merge_conds x (S (length others))); cbn in *; lia. }
      destruct XC as [mc XC]. destruct (maps_of_get _ _ _ _ _ _ _ HL NJ XC) as [go [GG IO]]. rewrite GO in GG. injection GG as <-. eauto. }
    subst o. apply (read_settled _ _ _ _ _ _ _ _ G' F' GE r i Hr); [apply SE; exact HJ| |exact EK].
    right. split; [exact NE|]. exists i. split; [apply in_or_app; left; exact Hi|auto].
  - destruct (C' r Hr1) as [S1 H1]. apply (read_settled _ _ _ _ _ _ _ _ G' F' GE r i Hr S1 (H1 i OF) EK).
Qed.

(** Reading a map that has not been written to keeps it settled; a new map is. *)
Lemma get_settled : forall fuel st m g key st' v p, gmaps st m = Some g -> flat g ->
  get s k fuel st m key None BTrue None = Ok (st', (v, p)) -> forall r, holds r (gcs st') -> settled r g ->
  exists g', gmaps st' m = Some g' /\ flat g' /\ settled r g'.
Proof.
  intros fuel st m g key st' v p G F H r Hr PA. pose proof F as [FL FI].
  destruct (get_flat s k SOK _ _ _ _ _ _ _ _ G F H) as [g' [G' [GR _]]]. exists g'. split; [exact G'|]. split; [apply GR|].
  assert (CO : coherent (glayers g) (gitems g)) by (rewrite FL; exact I).
  assert (SG : single (glayers g)) by (rewrite FL; constructor).
  destruct (get_cases s k _ _ _ _ _ _ _ _ G CO SG FI H) as [[EE [-> ->]]|[[EE [_ [g1 [i [Sm [Co [GE [-> [-> ->]]]]]]]]]|[EE [_ [g1 [g2 [fits [st0 X]]]]]]]].
  - change (gmaps (bump st 1) m) with (gmaps st m) in G'. rewrite G in G'. injection G' as <-. exact PA.
  - rewrite set_map_same in G'. injection G' as <-. destruct Sm as [_ [_ [E3 [_ [E5 _]]]]]. unfold settled. rewrite <- E3, <- E5. exact PA.
  - cbv zeta in X. destruct X as [WV [Sm [G0 [OE [C0 [O0 [Z0 [Co0 [same [-> SA]]]]]]]]]].
    rewrite FL in SA. cbn [pure_known] in SA.
    change (gmaps (set_map st0 m g2) m = Some g') in G'. rewrite set_map_same in G'. injection G' as <-.
    assert (E2 : gitems g2 = gitems g ++ [mkItem key v p] /\ gunk g2 = gunk g).
    { unfold is_not_overfull in OE. rewrite G0 in OE. destruct (known_items_spec _ Co0) as [gg [Ek [Sgg _]]]. rewrite Ek in OE.
      assert (Hgg : g2 = gg).
      { destruct (definitely_true s (gcs st0) _); injection OE as A _;
        apply (f_equal (fun f => f m)) in A; cbn in A; rewrite N.eqb_refl in A; congruence. }
      subst gg. rename Sgg into Q2.
      destruct Q2 as [_ [_ [E3 [_ [E5 _]]]]], Sm as [_ [_ [D3 [_ [D5 _]]]]]. cbn [add_item gitems gunk] in E3, E5. split; congruence. }
    destruct E2 as [E2 E2u].
    assert (NW : forall j, In j (gitems g ++ [gunk g]) -> ev r key = ev r (ik j) -> (ev r v, eb r p) = val r j).
    { intros j Hj Ej. specialize (SA j Hj). cbn [add_cs gcs] in Hr. apply holds_app in Hr as [_ Hr]. apply holds_app in Hr as [Hr _].
      specialize (Hr _ SA). rewrite BImp_true in Hr. cbn [evalb] in Hr. rewrite N.eqb_eq in Hr. specialize (Hr Ej). apply andb_prop in Hr as [S1 S2].
      apply N.eqb_eq in S1. apply eqb_prop in S2. unfold val. congruence. }
    assert (IN : forall j, In j (gitems g2 ++ [gunk g2]) -> j = mkItem key v p \/ In j (gitems g ++ [gunk g])).
    { intros j Hj. rewrite E2, E2u, !in_app_iff in Hj. cbn [In] in Hj. rewrite in_app_iff. cbn [In]. intuition. }
    intros a b Ha Hb E. destruct (IN a Ha) as [->|Ha'], (IN b Hb) as [->|Hb']; cbn [ik] in E.
    + reflexivity.
    + apply (NW b Hb' E).
    + symmetry. apply (NW a Ha' (eq_sym E)).
    + apply PA; assumption.
Qed.
End Answers.
