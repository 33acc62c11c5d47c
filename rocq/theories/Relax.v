(** * The relaxed starting states of invariant inference

    What a packet leaves behind is among what the next iteration starts from: [Infer.havoc]
    and [Infer.assume_all] (tool/klint/ghostmaps.py 914-937) on the simulation of GhostSim. *)

From Coq Require Import NArith List Bool Lia Arith.
From Verif Require Import Expr Solver KMerge Wt GhostMap GhostSpec GhostFacts GhostSim GhostHist Infer InferFacts GhostExt.
Import ListNotations.
Open Scope N_scope.

(** The contents of a real map, with no key accessed yet. *)
Definition unread (c : cmap) : cmap := mkC (cks c) (cvs c) (clw c) (ccont c) (csize c) [].

Section Relax.
Variable s : solver.
Variable k : claripy.
Variable fuel : nat.
Hypothesis KOK : claripy_ok k.

Lemma sim_maps_ext : forall r st st' cm cm' uk uk', gcs st' = gcs st -> gnext st' = gnext st ->
  (forall m, gmaps st' m = gmaps st m) -> (forall m, cm' m = cm m) -> (forall m c, cm m = Some c -> uk' m = uk m) ->
  sim r st cm uk -> sim r st' cm' uk'.
Proof.
  intros r st st' cm cm' uk uk' E1 E2 E3 E4 E5 [A B C D]. constructor; rewrite ?E1, ?E2; auto.
  intros m. rewrite E3, E4. specialize (D m). destruct (gmaps st m), (cm m) eqn:CM; auto. rewrite (E5 m _ CM). exact D.
Qed.

(** ** Assuming an invariant *)
Lemma forall_with_sim : forall r st cm uk m inv st' res c,
  sim r st cm uk -> cm m = Some c -> invok (cks c) (cvs c) (gnext st) inv ->
  forall_with s k fuel st m inv = Ok (st', res) ->
  (forall q, q < 2 ^ cks c -> eb (setKVP r q (ccont c q)) inv = true) ->
  exists r', eqbelow (gnext st) r r' /\ gnext st <= gnext st' /\ sim r' st' cm uk /\
    eb r' res = true /\ depb (gnext st') res.
Proof.
  intros r st cm uk m inv st' res c S Hc [I1 [I2 I3]] H ALL.
  destruct (sim_get _ _ _ _ _ _ S Hc) as [g [G M]].
  unfold forall_with in H. rewrite G in H.
  pose proof (sim_n _ _ _ _ S) as N2.
  destruct (is_definitely_empty g 0) eqn:EE.
  - injection H as <- <-. exists r. split; [apply eqbelow_refl|]. split; [lia|]. split; [exact S|]. split; [reflexivity|auto with depdb].
  - destruct (known_items_spec g (ms_coh _ _ _ _ _ M)) as [g1 [E1 [Sm Co]]]. rewrite E1 in H.
    pose proof (msim_same _ _ _ _ _ _ Sm Co M) as M1.
    set (known := pure_known (glayers g) (gitems g)) in *.
    rewrite (inv_items_plain s k fuel (gks g) (gvs g) inv known _ I1) in H. cbn [bindr] in H.
    set (st1 := set_map st m g1) in *.
    assert (G1 : gmaps st1 m = Some g1) by apply set_map_same.
    destruct (overfull_sim s k KOK r (gnext st) st1 m g1 c (uk m) G1 M1) as [g2 [fits [OE [Sm2 [Co2 [FT FD]]]]]].
    rewrite OE in H. unfold inv_call in H at 1. rewrite (emb_plain _ _ _ inv I1) in H. cbn [bindr] in H.
    pose proof (msim_same _ _ _ _ _ _ Sm2 Co2 M1) as M2.
    set (st3 := set_map st1 m g2) in *.
    change (gnext st3) with (gnext st) in H. set (n := gnext st) in *.
    set (U := substb (item_subst (gks g) (gvs g) (gunk g)) inv) in *.
    set (KRs := map (fun i => substb (item_subst (gks g) (gvs g) i) inv) known) in *.
    set (UNK := BAndL (map (fun i => BNe (ik (gunk g)) (ik i)) known)) in *.
    set (ct := BIff (BoolS n) (BAnd (BAndL KRs) (BImp fits (BImp UNK U)))) in *.
    destruct (add_inv s k fuel (add_cs (bump st3 1) [ct]) m (BImp (BoolS n) inv)) as [st6| |] eqn:AI; try discriminate H.
    cbn [bindr] in H. injection H as <- <-.
    set (r' := updvb r n (0, true)). pose proof (updvb_eqbelow r n (0, true)) as EB. fold r' in EB.
    assert (RB : eb r' (BoolS n) = true) by (cbn; rewrite N.eqb_refl; reflexivity).
    assert (IS : kv_sized (gks g) (gvs g) inv = true) by (rewrite (ms_ks _ _ _ _ _ M), (ms_vs _ _ _ _ _ M); auto).
    assert (SE : forall i, In i (known ++ [gunk g]) -> forall r0, eb r0 (substb (item_subst (gks g) (gvs g) i) inv) =
                  eb (setKVP r0 (ev r0 (ik i)) (val r0 i)) inv).
    { intros i Hi r0. destruct (known_right r n g c (uk m) i M Hi) as [_ [[W1 W2] _]]. apply inv_subst_eval; auto. }
    assert (VAL : forall i, In i (known ++ [gunk g]) -> eb r (substb (item_subst (gks g) (gvs g) i) inv) = true).
    { intros i Hi. rewrite SE by auto. destruct (known_right r n g c (uk m) i M Hi) as [V [[W _] _]]. rewrite <- V. apply ALL.
      rewrite <- (ms_ks _ _ _ _ _ M), <- W. apply evalv_lt. }
    assert (CT : eb r (BAnd (BAndL KRs) (BImp fits (BImp UNK U))) = true).
    { cbn [evalb]. apply andb_true_iff. split.
      - apply BAndL_true. intros x Hx. apply in_map_iff in Hx as [i [<- Hi]]. apply VAL, in_or_app. auto.
      - apply BImp_true. intros _. apply BImp_true. intros _. apply VAL, in_or_app. right. left. auto. }
    assert (PKD : forall i, In i (known ++ [gunk g]) -> depb n (substb (item_subst (gks g) (gvs g) i) inv)).
    { intros i Hi r1 r2 E12. rewrite !SE by auto. destruct (known_right r n g c (uk m) i M Hi) as [_ [_ [DI _]]].
      rewrite (proj1 DI r1 r2 E12), (val_eq _ _ _ _ DI E12). apply I3. apply setKVP_eqbelow. auto. }
    assert (CD : depb n (BAnd (BAndL KRs) (BImp fits (BImp UNK U)))).
    { apply depb_BAnd.
      - apply depb_BAndL. apply Forall_forall. intros x Hx. apply in_map_iff in Hx as [i [<- Hi]]. apply PKD, in_or_app. auto.
      - apply depb_BImp; [auto|]. apply depb_BImp.
        + apply depb_BAndL. apply Forall_forall. intros x Hx. apply in_map_iff in Hx as [i [<- Hi]]. apply depb_BNe.
          * apply (ms_unk _ _ _ _ _ M).
          * destruct (known_right r n g c (uk m) i M) as [_ [_ [DI _]]]; [apply in_or_app; auto|apply DI].
        + apply PKD, in_or_app. right. left. auto. }
    assert (S5 : sim r' (add_cs (bump st3 1) [ct]) cm uk).
    { constructor.
      - cbn [add_cs gcs]. apply holds_app. split.
        + change (gcs (bump st3 1)) with (gcs st). eapply holds_dep; [apply (sim_dep _ _ _ _ S)|exact EB|apply (sim_cs _ _ _ _ S)].
        + intros x [<-|[]]. unfold ct. cbn [evalb]. apply eqb_true_iff.
          change (ebool r' n) with (eb r' (BoolS n)). rewrite RB. rewrite <- CT at 1. apply CD. auto.
      - change (gnext (add_cs (bump st3 1) [ct])) with (n + 1). cbn [add_cs gcs].
        change (gcs (bump st3 1)) with (gcs st). apply Forall_app. split.
        + eapply Forall_depb_le; [|apply (sim_dep _ _ _ _ S)]. unfold n. lia.
        + constructor; [|constructor]. unfold ct. apply depb_BIff; [apply depb_BoolS; lia|]. eapply depb_le; [|exact CD]. lia.
      - change (gnext (add_cs (bump st3 1) [ct])) with (n + 1). lia.
      - intros x. change (gnext (add_cs (bump st3 1) [ct])) with (n + 1).
        change (gmaps (add_cs (bump st3 1) [ct]) x) with (gmaps st3 x). unfold st3, st1. cbn [set_map gmaps].
        destruct (N.eqb_spec x m) as [->|NE].
        + rewrite Hc. eapply msim_mono; [exact EB| |exact M2]. lia.
        + pose proof (sim_maps _ _ _ _ S x) as Q. destruct (gmaps st x), (cm x); auto. eapply msim_mono; [exact EB| |exact Q]. unfold n. lia. }
    destruct (add_inv_sim s k r' (add_cs (bump st3 1) [ct]) cm uk fuel m (BImp (BoolS n) inv) st6 c g2 S5 Hc) as [S6 [N6 _]].
    + apply set_map_same.
    + split; [cbn; auto|]. split.
      * apply kv_sized_imp; [reflexivity|]. auto.
      * change (gnext (add_cs (bump st3 1) [ct])) with (n + 1). apply depb_BImp; [apply depb_BoolS; lia|].
        eapply depb_le; [|exact I3]. unfold n. lia.
    + intros q Hq T. apply BImp_true. intros _. rewrite <- (ALL q Hq). apply I3.
      apply eqbelow_sym. apply setKVP_eqbelow. auto.
    + exact AI.
    + exists r'. split; [exact EB|]. rewrite N6. change (gnext (add_cs (bump st3 1) [ct])) with (n + 1).
      split; [lia|]. split; [exact S6|]. split; [exact RB|]. apply depb_BoolS. lia.
Qed.

Lemma add_cs_sim : forall r st cm uk l, sim r st cm uk -> holds r l -> Forall (depb (gnext st)) l -> sim r (add_cs st l) cm uk.
Proof.
  intros r st cm uk l [A B C D] H F. constructor; auto.
  - cbn [add_cs gcs]. apply holds_app. auto.
  - cbn [add_cs gcs gnext]. apply Forall_app. auto.
Qed.

(** What a relaxed invariant says of a real map: of every key, or (guessed) of every present key. *)
Definition item_true (r : env) (C : N -> N * bool) (ks : N) (i : item_inv) : Prop :=
  match i with
  | IConj e => forall q, q < 2 ^ ks -> eb (setKVP r q (C q)) e = true
  | IGuess p => forall q, q < 2 ^ ks -> snd (C q) = true -> eb (setKVP r q (C q)) p = true
  end.
Definition item_exp (i : item_inv) : bexp := match i with IConj e => e | IGuess p => p end.

Lemma item_true_dep : forall r r' C ks n i, depb n (item_exp i) -> eqbelow n r r' -> item_true r C ks i -> item_true r' C ks i.
Proof.
  intros r r' C ks n [e|p] D E H; cbn in *; intros; [rewrite <- (H q) by auto|rewrite <- (H q) by auto];
    apply D, eqbelow_sym, setKVP_eqbelow; auto.
Qed.

Lemma assume_items_sim : forall m c cm uk invs r st st',
  sim r st cm uk -> cm m = Some c ->
  Forall (fun i => invok (cks c) (cvs c) (gnext st) (item_exp i) /\ item_true r (ccont c) (cks c) i) invs ->
  assume_items s k fuel m invs st = Ok st' ->
  exists r', eqbelow (gnext st) r r' /\ gnext st <= gnext st' /\ sim r' st' cm uk.
Proof.
  intros m c cm uk. induction invs as [|i invs IH]; intros r st st' S Hc F H; cbn [assume_items] in H.
  - injection H as <-. exists r. split; [apply eqbelow_refl|]. split; [lia|exact S].
  - inversion F as [|? ? [IO IT] F']; subst.
    assert (X : exists st1 b r1, match i with IConj e => forall_with s k fuel st m e | IGuess p => forall_ s k fuel st m p end = Ok (st1, b) /\
              eqbelow (gnext st) r r1 /\ gnext st <= gnext st1 /\ sim r1 st1 cm uk /\ eb r1 b = true /\ depb (gnext st1) b).
    { destruct i as [e|p]; cbn [item_exp item_true] in IO, IT.
      - destruct (forall_with s k fuel st m e) as [[st1 b]| |] eqn:E; try discriminate H.
        destruct (forall_with_sim r st cm uk m e st1 b c S Hc IO E IT) as [r1 [A1 [A2 [A3 [A4 A5]]]]].
        exists st1, b, r1. auto 10.
      - destruct (forall_ s k fuel st m p) as [[st1 b]| |] eqn:E; try discriminate H.
        destruct (forall_sim s k KOK r st cm uk fuel m p st1 b c true S Hc IO E) as [r1 [g [g' [A1 [A2 [A3 [A4 [A5 [A6 _]]]]]]]]].
        + split; auto.
        + left. exact IT.
        + exists st1, b, r1. auto 10. }
    destruct X as [st1 [b [r1 [E [A1 [A2 [A3 [A4 A5]]]]]]]]. rewrite E in H. cbn [bindr] in H.
    assert (S1 : sim r1 (add_cs st1 [b]) cm uk).
    { apply add_cs_sim; [exact A3| |constructor; [exact A5|constructor]]. intros x [<-|[]]. exact A4. }
    destruct (IH r1 (add_cs st1 [b]) st' S1 Hc) as [r2 [B1 [B2 B3]]]; [|exact H|].
    + eapply Forall_impl; [|exact F']. intros j [[J1 [J2 J3]] JT]. cbn [add_cs gnext]. split.
      * split; [auto|]. split; [auto|]. eapply depb_le; eauto.
      * eapply item_true_dep; eauto.
    + exists r2. cbn [add_cs gnext] in B1, B2. split; [|split; [lia|exact B3]].
      eapply eqbelow_trans; [exact A1|]. eapply eqbelow_le; eauto.
Qed.

(** The size of a real map; 0 if there is none. *)
Definition size_of (cm : N -> option cmap) (m : N) : N := match cm m with Some c => csize c | None => 0 end.

Lemma len_of_sim : forall r st cm uk m, sim r st cm uk -> ev r (len_of st m) = size_of cm m /\ dep (gnext st) (len_of st m).
Proof.
  intros r st cm uk m S. pose proof (sim_maps _ _ _ _ S m) as M. unfold len_of, size_of.
  destruct (gmaps st m), (cm m); try contradiction.
  - split; [apply (ms_size _ _ _ _ _ M)|apply (ms_len _ _ _ _ _ M)].
  - split; [reflexivity|apply dep_BVV].
Qed.

Lemma assume_lens_sim : forall r st cm uk m os, sim r st cm uk ->
  (forall o, In o os -> size_of cm m <= size_of cm o) -> sim r (assume_lens m os st) cm uk.
Proof.
  intros r st cm uk m os S H. unfold assume_lens. apply add_cs_sim; [exact S| |].
  - intros x Hx. apply in_map_iff in Hx as [o [<- Ho]]. cbn [evalb]. apply N.leb_le.
    rewrite (proj1 (len_of_sim _ _ _ _ m S)), (proj1 (len_of_sim _ _ _ _ o S)). auto.
  - apply Forall_forall. intros x Hx. apply in_map_iff in Hx as [o [<- Ho]]. apply depb_BUle; eapply len_of_sim; eauto.
Qed.

Lemma assume_all_sim : forall cm uk items lens relevant r st st',
  sim r st cm uk ->
  (forall m, In m relevant -> exists c, cm m = Some c /\
     (forall i, In i (match assoc items m with Some l => l | None => [] end) ->
        invok (cks c) (cvs c) (gnext st) (item_exp i) /\ item_true r (ccont c) (cks c) i) /\
     (forall o, In o (match assoc lens m with Some l => l | None => [] end) -> size_of cm m <= size_of cm o)) ->
  assume_all s k fuel relevant items lens st = Ok st' ->
  exists r', eqbelow (gnext st) r r' /\ gnext st <= gnext st' /\ sim r' st' cm uk.
Proof.
  intros cm uk items lens. induction relevant as [|m relevant IH]; intros r st st' S OKM H; cbn [assume_all] in H.
  - injection H as <-. exists r. split; [apply eqbelow_refl|]. split; [lia|exact S].
  - destruct (OKM m (or_introl eq_refl)) as [c [Hc [HI HL]]].
    destruct (assume_items s k fuel m _ st) as [st1| |] eqn:E; cbn [bindr] in H; try discriminate.
    destruct (assume_items_sim m c cm uk _ r st st1 S Hc (proj2 (Forall_forall _ _) HI) E) as [r1 [A1 [A2 A3]]].
    pose proof (assume_lens_sim r1 st1 cm uk m _ A3 HL) as S1.
    destruct (IH r1 _ st' S1) as [r2 [B1 [B2 B3]]]; [|exact H|].
    + intros m' Hm'. destruct (OKM m' (or_intror Hm')) as [c' [Hc' [HI' HL']]]. exists c'. split; [exact Hc'|]. split; [|exact HL'].
      intros i Hi. destruct (HI' i Hi) as [[J1 [J2 J3]] JT]. cbn [assume_lens add_cs gnext]. split.
      * split; [auto|]. split; [auto|]. eapply depb_le; eauto.
      * eapply item_true_dep; eauto.
    + exists r2. cbn [assume_lens add_cs gnext] in B1, B2. split; [|split; [lia|exact B3]].
      eapply eqbelow_trans; [exact A1|]. eapply eqbelow_le; eauto.
Qed.

(** ** Forgetting a map's contents *)
Lemma raw_new_sim' : forall r st cm uk m ks vs len C n u,
  sim r st cm uk -> u < 2 ^ ks -> (forall q, fst (C q) < 2 ^ vs) ->
  dep (gnext st) len -> ev r len = n -> card ks C n ->
  exists r', eqbelow (gnext st) r r' /\ gnext st <= gnext (raw_new st m ks vs len) /\
    sim r' (raw_new st m ks vs len) (upd cm m (Some (mkC ks vs (width len) C n []))) (upd uk m u).
Proof.
  intros r st cm uk m ks vs len C n u S U V D E K.
  set (st0 := mkGst (gcs st) (gnext st) (fun x => if x =? m then None else gmaps st x) (gsz st)).
  assert (S0 : sim r st0 (upd cm m None) (upd uk m u)).
  { destruct S as [A B Cn Dm]. constructor; auto. intros x. cbn [st0 gmaps gnext]. unfold upd.
    destruct (N.eqb_spec x m); [exact I|]. apply Dm. }
  destruct (raw_new_sim r st0 _ _ m ks vs len C n S0) as [r' [E' [L' S']]]; auto.
  { unfold upd. rewrite N.eqb_refl. exact U. }
  exists r'. split; [exact E'|]. split; [exact L'|].
  eapply sim_maps_ext; [| | | | |exact S']; try reflexivity.
  - intros x. cbn. destruct (N.eqb_spec x m); reflexivity.
  - intros x. symmetry. apply upd_upd.
Qed.

(** The maps after forgetting: [cm1] for the changed ones, [cm] for the others. *)
Definition mix {A} (relevant : list N) (f g : N -> A) (m : N) : A := if memN m relevant then f m else g m.

Lemma havoc_sim : forall lens cm1 uk1 relevant r st cm uk st',
  sim r st cm uk ->
  (forall m, In m relevant -> exists c c1, cm m = Some c /\ cm1 m = Some c1 /\
     cks c1 = cks c /\ cvs c1 = cvs c /\ clw c1 = clw c /\ cseen c1 = [] /\ uk1 m < 2 ^ cks c /\
     (forall q, fst (ccont c1 q) < 2 ^ cvs c) /\ csize c1 < 2 ^ clw c /\ card (cks c) (ccont c1) (csize c1) /\
     (assoc lens m = None -> csize c1 = csize c)) ->
  havoc relevant lens st = Ok st' ->
  exists r', eqbelow (gnext st) r r' /\ gnext st <= gnext st' /\
    sim r' st' (mix relevant cm1 cm) (mix relevant uk1 uk).
Proof.
  intros lens cm1 uk1. induction relevant as [|m relevant IH]; intros r st cm uk st' S OKM H; cbn [havoc] in H.
  - injection H as <-. exists r. split; [apply eqbelow_refl|]. split; [lia|exact S].
  - destruct (OKM m (or_introl eq_refl)) as [c [c1 [Hc [Hc1 [E1 [E2 [E3 [E4 [U [V [SZ [K LN]]]]]]]]]]]].
    destruct (sim_get _ _ _ _ _ _ S Hc) as [g [G M]]. rewrite G in H.
    assert (X : exists st1 len r1, match assoc lens m with None => (st, len_at g 0) | Some _ => (bump st 1, BVS (width (len_at g 0)) (gnext st)) end = (st1, len) /\
       eqbelow (gnext st) r r1 /\ gnext st <= gnext st1 /\ sim r1 st1 cm uk /\ width len = clw c /\ dep (gnext st1) len /\ ev r1 len = csize c1).
    { destruct (assoc lens m) eqn:A.
      - set (r1 := updvb r (gnext st) (csize c1, true)). pose proof (updvb_eqbelow r (gnext st) (csize c1, true)) as EB. fold r1 in EB.
        exists (bump st 1), (BVS (width (len_at g 0)) (gnext st)), r1. split; [reflexivity|]. split; [exact EB|]. split; [cbn; lia|].
        pose proof (sim_n _ _ _ _ S) as N2.
        split; [|split; [apply (ms_lw _ _ _ _ _ M)|split; [apply dep_BVS; cbn; lia|]]].
        + destruct S as [A1 A2 A3 A4]. constructor.
          * eapply holds_dep; [exact A2|exact EB|exact A1].
          * eapply Forall_depb_le; [|exact A2]. cbn. lia.
          * cbn. lia.
          * intros x. cbn [bump gmaps gnext]. specialize (A4 x). destruct (gmaps st x), (cm x); auto. eapply msim_mono; [exact EB| |exact A4]. lia.
        + cbn [evalv r1 updvb ebv fst]. rewrite N.eqb_refl, (ms_lw _ _ _ _ _ M). apply wrap_small. exact SZ.
      - exists st, (len_at g 0), r. split; [reflexivity|]. split; [apply eqbelow_refl|]. split; [lia|]. split; [exact S|].
        split; [apply (ms_lw _ _ _ _ _ M)|]. split; [apply (ms_len _ _ _ _ _ M)|]. rewrite (LN eq_refl). apply (ms_size _ _ _ _ _ M). }
    destruct X as [st1 [len [r1 [EQ [A1 [A2 [A3 [A4 [A5 A6]]]]]]]]]. rewrite EQ in H.
    rewrite (ms_ks _ _ _ _ _ M), (ms_vs _ _ _ _ _ M) in H.
    destruct (raw_new_sim' r1 st1 cm uk m (cks c) (cvs c) len (ccont c1) (csize c1) (uk1 m) A3 U V A5 A6 K) as [r2 [B1 [B2 B3]]].
    assert (EC : mkC (cks c) (cvs c) (width len) (ccont c1) (csize c1) [] = c1).
    { rewrite A4, <- E1, <- E2, <- E3, <- E4. destruct c1; reflexivity. }
    rewrite EC in B3.
    destruct (IH r2 _ _ _ st' B3) as [r3 [D1 [D2 D3]]]; [|exact H|].
    + intros m' Hm'. destruct (OKM m' (or_intror Hm')) as [c' [c1' [Hc' [Hc1' R]]]]. unfold upd at 1. destruct (N.eqb_spec m' m) as [->|NE].
      * exists c1, c1'. rewrite Hc in Hc'. injection Hc' as <-. rewrite Hc1 in Hc1'. injection Hc1' as <-.
        rewrite E1, E2, E3. repeat split; auto.
      * exists c', c1'. auto.
    + exists r3. split; [|split; [lia|]].
      * eapply eqbelow_trans; [exact A1|]. eapply eqbelow_le; [|eapply eqbelow_trans; [exact B1|eapply eqbelow_le; [|exact D1]; lia]]. lia.
      * eapply sim_maps_ext; [| | | | |exact D3]; try reflexivity.
        -- intros x. unfold mix, upd. cbn [memN existsb]. fold (memN x relevant).
           destruct (N.eqb_spec x m) as [->|NE]; cbn [orb]; [|reflexivity]. destruct (memN m relevant); auto.
        -- intros x c0 _. unfold mix, upd. cbn [memN existsb]. fold (memN x relevant).
           destruct (N.eqb_spec x m) as [->|NE]; cbn [orb]; [|reflexivity]. destruct (memN m relevant); auto.
Qed.

(** ** What the loop hands over *)
Hypothesis SOK : solver_ok s.
Definition no_guesses (_ : N) (_ : list N) (_ : list gst) : list bexp := [].

Lemma infer_loop_items : forall relevant anc ancv states prev ks vs todo ch items lens,
  infer_loop s k fuel no_guesses relevant anc ancv states prev todo = Ok (ch, items, lens) ->
  (forall m ga e, In m todo -> gmaps anc m = Some ga -> In e (ginvs ga) -> plain (ks m) (vs m) e) ->
  (forall m st, In m todo -> In st states -> map_sized (ks m) (vs m) m st /\ clean_state st) ->
  forall m, In m todo -> exists ga ch1 es, gmaps anc m = Some ga /\
    flatten_items s k fuel m ancv states (ginvs ga) = Ok (ch1, es, states) /\ assoc items m = Some (map IConj es) /\
    (assoc lens m = None -> forall st r, In st states -> holds r (gcs st) -> ev r (len_of st m) = ev r (len_of anc m)).
Proof.
  induction todo as [|m0 todo IH]; intros ch items lens H PL OK m Hm; [destruct Hm|].
  cbn [infer_loop] in H. destruct (gmaps anc m0) as [ga|] eqn:G; [|discriminate].
  destruct (flatten_items s k fuel m0 ancv states (ginvs ga)) as [[[c1 e1] st1]| |] eqn:E1; cbn [bindr] in H; try discriminate.
  assert (S1 : st1 = states).
  { eapply (flatten_items_plain s SOK k fuel (ks m0) (vs m0)); [exact E1| |].
    - apply Forall_forall. intros e He. eapply PL; [left; reflexivity|exact G|exact He].
    - intros st0 Hs0. apply OK; [left; reflexivity|exact Hs0]. }
  subst st1.
  assert (S2 : (if c1 then get_items_invariants s k fuel no_guesses m0 relevant states anc else Ok ([], states)) = Ok ([], states)).
  { destruct c1; reflexivity. }
  rewrite S2 in H. cbn [bindr] in H.
  match type of H with (let '(_, _) := ?x in _) = _ => destruct x as [ch2 ls] eqn:X end.
  destruct (infer_loop s k fuel no_guesses relevant anc ancv states prev todo) as [[[c3 it] l3]| |] eqn:E3; cbn [bindr] in H; try discriminate.
  assert (HI : items = (m0, map IConj e1) :: it) by (cbn [map] in H; rewrite app_nil_r in H; congruence).
  assert (HL : lens = match ls with Some l => (m0, l) :: l3 | None => l3 end) by congruence. subst items lens.
  unfold assoc. cbn [find fst snd]. destruct (N.eqb_spec m0 m) as [->|NM].
  - exists ga, c1, e1. split; [exact G|]. split; [exact E1|]. split; [reflexivity|].
    destruct ls as [l|]; [cbn [find fst]; rewrite N.eqb_refl; discriminate|]. intros _ st r Hst HR.
    destruct (assoc prev m) as [old|]; [congruence|].
    unfold get_length_invariants in X. destruct (forallb _ states) eqn:FB in X; [|congruence].
    rewrite forallb_forall in FB. specialize (FB st Hst). rewrite (definitely_true_spec s SOK) in FB. specialize (FB r HR).
    cbn [evalb] in FB. apply N.eqb_eq in FB. exact FB.
  - destruct Hm as [E|Hm]; [contradiction|].
    destruct (IH c3 it l3 eq_refl) with (m := m) as [ga' [ch1 [es [A1 [A2 [A3 A4]]]]]]; auto.
    + intros; eapply PL; eauto; right; auto.
    + intros; apply OK; auto; right; auto.
    + exists ga', ch1, es. split; [exact A1|]. split; [exact A2|]. split; [exact A3|]. intros L. apply A4.
      destruct ls as [l|]; [|exact L]. cbn [find fst] in L. destruct (N.eqb_spec m0 m); [contradiction|exact L].
Qed.

(** All symbols below [n]. *)
Definition below (n : N) (e : bexp) : Prop :=
  (forall z, In z (fst (names_b e)) -> z < n) /\ (forall z, In z (snd (names_b e)) -> z < n).
Lemma below_depb : forall n e, below n e -> depb n e.
Proof.
  intros n e [A B] r1 r2 E. apply evalb_agree. split.
  - intros x w Hx. destruct (E x) as [-> _]; [apply A; exact (in_map fst _ _ Hx)|reflexivity].
  - intros x Hx. apply E. apply B. exact Hx.
Qed.

(** What exploring a path does to a map: it reads items, learns invariants, adds writes. *)
Lemma untouched_sim : forall r ra n n' g g' c c' u, msim ra n g c u -> msim r n' g' c' u -> eqbelow n ra r ->
  ext g g' -> glayers g = [] -> glayers g' = [] -> msim ra n g (unread c') u.
Proof.
  intros r ra n n' g g' c c' u M M' E [X1 [X2 [X3 [X4 [X5 [X6 _]]]]]] L L'.
  assert (E' : eqbelow n r ra) by (apply eqbelow_sym; exact E).
  destruct M as [A1 A2 A3 A4 A5 A6 A7 A8 A9 A10 B1 B2 B3 B4 B5 B6 B7 B8 B9 B10].
  assert (LA : len_at g 0 = len_at g' 0) by (unfold len_at; rewrite L, L'; cbn; congruence).
  constructor; cbn [unread cks cvs clw ccont csize cseen]; auto.
  - rewrite <- X1. apply (ms_ks _ _ _ _ _ M').
  - rewrite <- X2. apply (ms_vs _ _ _ _ _ M').
  - rewrite LA. apply (ms_lw _ _ _ _ _ M').
  - apply (ms_val _ _ _ _ _ M').
  - rewrite L. discriminate.
  - intros i Hi _. rewrite Forall_forall in A6. destruct (A6 i Hi) as [_ [DI _]].
    rewrite (proj1 DI _ _ E), (val_eq _ _ _ _ DI E). apply (ms_bval _ _ _ _ _ M'); [apply X5; exact Hi|rewrite L'; reflexivity].
  - destruct A9 as [_ [DI _]]. rewrite (val_eq _ _ _ _ DI E), <- X3. apply (ms_uval _ _ _ _ _ M').
  - intros inv Hi q Hq _. rewrite Forall_forall in A10. destruct (A10 inv Hi) as [_ [_ D]].
    rewrite <- (ms_inv _ _ _ _ _ M' inv (X6 _ Hi) q); [|rewrite X1; exact Hq|rewrite L'; reflexivity]. apply D, setKVP_eqbelow, E.
  - rewrite (A8 _ _ E), LA. apply (ms_size _ _ _ _ _ M').
  - apply (ms_card _ _ _ _ _ M').
  - intros q [].
Qed.

(** A starting state: nothing written yet; invariants without lookups, over the state's own symbols and
    true of every absent key; constraints over the state's own symbols. *)
Definition start (objs : list N) (st : gst) : Prop :=
  (forall c, In c (gcs st) -> below (gnext st) c) /\
  forall m g, In m objs -> gmaps st m = Some g -> glayers g = [] /\
    forall e, In e (ginvs g) -> nolkb e = true /\ kv_sized (gks g) (gvs g) e = true /\ below (gnext st) e /\
      forall r q v, eb (setKVP r q (v, false)) e = true.

Lemma mapM1 : forall A B (f : A -> res B) a l, mapM f [a] = Ok l -> exists b, f a = Ok b /\ l = [b].
Proof. intros A B f a l H. cbn in H. destruct (f a); cbn in H; try discriminate. injection H as <-. eauto. Qed.

Lemma Forall2_in_r : forall A B (P : A -> B -> Prop) l l' b, Forall2 P l l' -> In b l' -> exists a, In a l /\ P a b.
Proof.
  intros A B P l l' b F. induction F as [|x y l l' H F IH]; intros Hb; [destruct Hb|].
  destruct Hb as [<-|Hb]; [exists x; split; [left|]; auto|]. destruct (IH Hb) as [a [Ha Pa]]. exists a. split; [right|]; auto.
Qed.

Lemma havoc_maps : forall lens rel a st', havoc rel lens a = Ok st' -> forall m, In m rel -> gmaps a m = None -> False.
Proof.
  intros lens. induction rel as [|x rel IH]; intros a st' HV m Hm G; [destruct Hm|]. cbn [havoc] in HV.
  destruct (gmaps a x) as [gx|] eqn:GX; [|discriminate]. destruct Hm as [->|Hm]; [congruence|].
  destruct (N.eq_dec x m) as [->|NE]; [congruence|].
  destruct (assoc lens x) in HV; (eapply IH; [exact HV|exact Hm|]); unfold raw_new; rewrite set_map_other by auto; exact G.
Qed.

Definition changed (objs : list N) (a : gst) (states : list gst) : list N := filter (fun m => existsb (changed_in m a) states) objs.


(** ** Contents a relaxed state covers *)

Definition unreads (cm : N -> option cmap) (m : N) : option cmap := option_map unread (cm m).

Lemma sim_unreads : forall r st cm uk, sim r st cm uk -> sim r st (unreads cm) uk.
Proof.
  intros r st cm uk [A B C D]. constructor; auto. intros m. specialize (D m). unfold unreads.
  destruct (gmaps st m), (cm m); cbn [option_map]; auto.
  destruct D as [A1 A2 A3 A4 A5 A6 A7 A8 A9 A10 B1 B2 B3 B4 B5 B6 B7 B8 B9 B10].
  constructor; cbn [unread cks cvs clw ccont csize cseen]; auto. intros q [].
Qed.

Definition items_of (items : list (N * list item_inv)) (m : N) : list item_inv := match assoc items m with Some l => l | None => [] end.
Definition bounds_of (lens : list (N * list N)) (m : N) : list N := match assoc lens m with Some l => l | None => [] end.

(** [cm] are contents the state relaxed from [a] allows, where [cmx] are contents [a] allows. *)
Record fits (ra : env) (a : gst) (uk : N -> N) (rel : list N) (items : list (N * list item_inv)) (lens : list (N * list N))
  (cmx cm : N -> option cmap) : Prop := {
  ft_sim : sim ra a cmx uk;
  ft_other : forall m, memN m rel = false -> cm m = cmx m;
  ft_rel : forall m, In m rel -> exists c c1, cmx m = Some c /\ cm m = Some c1 /\
     cks c1 = cks c /\ cvs c1 = cvs c /\ clw c1 = clw c /\ cseen c1 = [] /\
     (forall q, fst (ccont c1 q) < 2 ^ cvs c) /\ csize c1 < 2 ^ clw c /\ card (cks c) (ccont c1) (csize c1) /\
     (assoc lens m = None -> csize c1 = csize c) /\
     (forall i, In i (items_of items m) -> invok (cks c) (cvs c) (gnext a) (item_exp i) /\ item_true ra (ccont c1) (cks c) i) /\
     (forall o, In o (bounds_of lens m) -> size_of cm m <= size_of cm o) }.

Lemma memN_In : forall m l, memN m l = true <-> In m l.
Proof.
  intros m l. unfold memN. rewrite existsb_exists. split.
  - intros [x [Hx E]]. apply N.eqb_eq in E. subst. exact Hx.
  - intros H. exists m. split; [exact H|apply N.eqb_refl].
Qed.

Lemma relax_covers : forall ra a uk rel items lens cmx cm uk1 sth b,
  fits ra a uk rel items lens cmx cm -> havoc rel lens a = Ok sth -> assume_all s k fuel rel items lens sth = Ok b ->
  (forall m c, In m rel -> cm m = Some c -> uk1 m < 2 ^ cks c) ->
  exists rb, eqbelow (gnext a) ra rb /\ gnext a <= gnext b /\ sim rb b cm (mix rel uk1 uk).
Proof.
  intros ra a uk rel items lens cmx cm uk1 sth b [S OT RL] HV AA UK.
  destruct (havoc_sim lens cm uk1 rel ra a cmx uk sth S) as [rh [H1 [H2 H3]]]; [|exact HV|].
  { intros m Hm. destruct (RL m Hm) as [c [c1 [C0 [C1 [E1 [E2 [E3 [E4 [V [Z [K [LN _]]]]]]]]]]]].
    exists c, c1. do 6 (split; [assumption|]). split; [rewrite <- E1; eauto|]. auto. }
  assert (H4 : sim rh sth cm (mix rel uk1 uk)).
  { eapply sim_ext; [|exact H3]. intros m. unfold mix. destruct (memN m rel) eqn:ME; [reflexivity|]. symmetry. apply OT. exact ME. }
  destruct (assume_all_sim cm (mix rel uk1 uk) items lens rel rh sth b H4) as [rb [K1 [K2 K3]]]; [|exact AA|].
  2:{ exists rb. split; [|split; [lia|exact K3]]. eapply eqbelow_trans; [exact H1|]. eapply eqbelow_le; [exact H2|exact K1]. }
  intros m Hm. destruct (RL m Hm) as [c [c1 [C0 [C1 [E1 [E2 [E3 [E4 [V [Z [K [LN [IT BD]]]]]]]]]]]]].
  exists c1. split; [exact C1|]. split; [|exact BD]. intros i Hi. destruct (IT i Hi) as [[I1 [I2 I3]] I4].
  rewrite E1, E2. split.
  - split; [exact I1|]. split; [exact I2|]. eapply depb_le; eauto.
  - eapply item_true_dep; eauto.
Qed.

(** Conditions on the states explored from a starting state: sizes, and keys and values that are symbols or constants. *)
Definition ends_ok (objs : list N) (a : gst) (states : list gst) : Prop :=
  forall m st ga, In m objs -> In st states -> gmaps a m = Some ga ->
    map_sized (gks ga) (gvs ga) m st /\ clean_state st /\ simple_items m st.

(** One relaxing step. *)
Lemma next_inv : forall objs a states prev news lens,
  infer_invariants s k fuel no_guesses objs [a] states prev = Ok (Next news lens) ->
  exists b sth items, news = [b] /\
    infer_loop s k fuel no_guesses (changed objs a states) a (get_variables objs [a]) states prev (changed objs a states) = Ok (true, items, lens) /\
    havoc (changed objs a states) lens a = Ok sth /\ assume_all s k fuel (changed objs a states) items lens sth = Ok b.
Proof.
  intros objs a states prev news lens H.
  destruct (infer_next_inv _ _ _ _ _ _ _ _ _ _ _ H) as [items L].
  unfold infer_invariants in H. destruct states as [|st0 sts]; [discriminate|].
  cbv zeta in H. rewrite L in H. cbn [bindr] in H.
  match type of H with (do _ <- ?x; _) = _ => destruct x as [nn| |] eqn:MM end; cbn [bindr] in H; try discriminate.
  assert (nn = news) by congruence. subst nn. apply mapM1 in MM as [b [MB ->]].
  fold (changed objs a (st0 :: sts)) in L, MB.
  destruct (havoc (changed objs a (st0 :: sts)) lens a) as [st1| |] eqn:HV; cbn [bindr] in MB; try discriminate.
  exists b, st1, items. split; [reflexivity|]. split; [exact L|]. split; [reflexivity|exact MB].
Qed.

Lemma step_items : forall objs a states prev items lens m,
  infer_loop s k fuel no_guesses (changed objs a states) a (get_variables objs [a]) states prev (changed objs a states) = Ok (true, items, lens) ->
  start objs a -> ends_ok objs a states -> 2 <= gnext a -> In m (changed objs a states) ->
  exists ga, gmaps a m = Some ga /\
  forall i, In i (items_of items m) -> exists e e', i = IConj e' /\ In e (ginvs ga) /\ nolkb e' = true /\
    kv_sized (gks ga) (gvs ga) e' = true /\ below (gnext a) e' /\
    (forall lk r, evalb lk r e = true -> evalb lk r e' = true).
Proof.
  intros objs a states prev items lens m L [SC SM] OKS GN Hm.
  set (rel := changed objs a states) in *.
  assert (RELI : forall m, In m rel -> In m objs) by (intros x Hx; apply filter_In in Hx; tauto).
  set (g0 := mkGmap 0 0 [] [] (mkItem (BVV 0 0) (BVV 0 0) BFalse) (BVV 0 0) []).
  set (KS := fun m => gks (match gmaps a m with Some g => g | None => g0 end)).
  set (VS := fun m => gvs (match gmaps a m with Some g => g | None => g0 end)).
  assert (PL : forall m ga e, In m rel -> gmaps a m = Some ga -> In e (ginvs ga) -> plain (KS m) (VS m) e).
  { intros m' ga' e Hm' G' He. unfold KS, VS. rewrite G'. apply RELI in Hm'. destruct (SM m' ga' Hm' G') as [_ SI].
    destruct (SI e He) as [P1 [P2 _]]. split; auto. }
  assert (DOM : forall todo ch it ls, infer_loop s k fuel no_guesses rel a (get_variables objs [a]) states prev todo = Ok (ch, it, ls) ->
     forall m, In m todo -> gmaps a m <> None).
  { clear. induction todo as [|x todo IH]; intros ch it ls H m Hm; [destruct Hm|]. cbn [infer_loop] in H.
    destruct (gmaps a x) as [gx|] eqn:G; [|discriminate]. destruct Hm as [->|Hm]; [congruence|].
    destruct (flatten_items _ _ _ _ _ _ _) as [[[c1 e1] s1]| |]; cbn [bindr] in H; try discriminate.
    match type of H with bindr ?x _ = _ => destruct x as [[ex s2]| |] end; cbn [bindr] in H; try discriminate.
    match type of H with (let '(_, _) := ?x in _) = _ => destruct x end.
    match type of H with bindr ?x _ = _ => destruct x as [[[c3 it3] l3]| |] eqn:E3 end; cbn [bindr] in H; try discriminate.
    eapply IH; eauto. }
  assert (OK : forall m st, In m rel -> In st states -> map_sized (KS m) (VS m) m st /\ clean_state st).
  { intros m' st' Hm' Hs'. pose proof (DOM _ _ _ _ L m' Hm') as NN. unfold KS, VS. destruct (gmaps a m') as [g'|] eqn:G'; [|congruence].
    destruct (OKS m' st' g' (RELI _ Hm') Hs' G') as [O1 [O2 _]]. auto. }
  destruct (infer_loop_items _ _ _ _ _ KS VS _ _ _ _ L PL OK m Hm) as [ga [ch1 [es [G [F2 [F3 _]]]]]].
  exists ga. split; [exact G|]. unfold items_of. rewrite F3. intros i Hi. apply in_map_iff in Hi as [e' [<- He']].
  assert (KSm : KS m = gks ga) by (unfold KS; rewrite G; reflexivity). assert (VSm : VS m = gvs ga) by (unfold VS; rewrite G; reflexivity).
  assert (PLm : Forall (plain (gks ga) (gvs ga)) (ginvs ga)).
  { apply Forall_forall. intros e He. rewrite <- KSm, <- VSm. eapply PL; eauto. }
  assert (OKm : forall st, In st states -> map_sized (gks ga) (gvs ga) m st /\ clean_state st).
  { intros st' Hs'. rewrite <- KSm, <- VSm. apply OK; auto. }
  destruct (flatten_items_plain s SOK k fuel _ _ _ _ _ _ _ _ _ F2 PLm OKm) as [_ [PE CO]].
  destruct (flatten_items_grows _ _ _ _ _ _ _ _ _ _ F2) as [GR _].
  destruct (Forall2_in_r _ _ _ _ _ _ GR He') as [e [He MONO]].
  exists e, e'. split; [reflexivity|]. split; [exact He|].
  rewrite Forall_forall in PE. destruct (PE e' He') as [Q1 Q2]. split; [exact Q1|]. split; [exact Q2|]. split; [|exact MONO].
  assert (F := flatten_items_names s SOK k fuel _ _ _ _ _ _ _ _ _ F2 PLm OKm (fun st' Hs' => proj2 (proj2 (OKS m st' ga (RELI m Hm) Hs' G)))).
  destruct (Forall2_in_r _ _ _ _ _ _ F He') as [e0 [He0 [N1 N2]]].
  destruct (SM m ga (RELI m Hm) G) as [_ SI]. destruct (SI e0 He0) as [_ [_ [[B1 B2] _]]].
  split; intros z Hz.
  - apply N1 in Hz as [Hz|[->|[->|Hz]]]; [auto|lia|lia|].
    destruct (proj1 (get_variables_spec objs [a] z) Hz a (or_introl eq_refl)) as [c0 [w [Hc0 Hw]]].
    apply (proj1 (SC c0 Hc0)). exact (in_map fst _ _ Hw).
  - apply N2 in Hz as [Hz|Hz]; [auto|].
    destruct (proj1 (proj2 (get_variables_spec objs [a] z)) Hz a (or_introl eq_refl)) as [c0 [Hc0 Hw]].
    apply (proj2 (SC c0 Hc0)). exact Hw.
Qed.

(** A relaxed state allows the contents the state before allowed. *)
Lemma relax_grows : forall objs a states prev items lens ra cm uk,
  infer_loop s k fuel no_guesses (changed objs a states) a (get_variables objs [a]) states prev (changed objs a states) = Ok (true, items, lens) ->
  start objs a -> ends_ok objs a states -> sim ra a cm uk ->
  (forall m o, In o (bounds_of lens m) -> size_of cm m <= size_of cm o) ->
  fits ra a uk (changed objs a states) items lens (unreads cm) (unreads cm).
Proof.
  intros objs a states prev items lens ra cm uk L ST OKS S BD. pose proof ST as [SC SM].
  constructor; [apply sim_unreads; exact S|reflexivity|]. intros m Hm.
  destruct (step_items objs a states prev items lens m L ST OKS (sim_n _ _ _ _ S) Hm) as [ga [G IT]].
  pose proof (sim_maps _ _ _ _ S m) as M. rewrite G in M. unfold unreads at 1 2. destruct (cm m) as [c|] eqn:C; [|destruct M].
  assert (Hobj : In m objs) by (apply filter_In in Hm; tauto). destruct (SM m ga Hobj G) as [LY SI].
  exists (unread c), (unread c). cbn [option_map unread cks cvs clw ccont csize cseen].
  do 6 (split; [reflexivity|]). split; [apply (ms_val _ _ _ _ _ M)|].
  split; [rewrite <- (ms_size _ _ _ _ _ M), <- (ms_lw _ _ _ _ _ M); apply evalv_lt|]. split; [apply (ms_card _ _ _ _ _ M)|].
  split; [auto|]. split.
  - intros i Hi. destruct (IT i Hi) as [e [e' [-> [He [Q1 [Q2 [Q3 MONO]]]]]]]. cbn [item_exp item_true]. split.
    + split; [exact Q1|]. split; [rewrite <- (ms_ks _ _ _ _ _ M), <- (ms_vs _ _ _ _ _ M); exact Q2|apply below_depb; exact Q3].
    + intros q Hq. apply MONO. apply (ms_inv _ _ _ _ _ M e He q); [rewrite (ms_ks _ _ _ _ _ M); exact Hq|rewrite LY; reflexivity].
  - intros o Ho. specialize (BD m o Ho). unfold size_of, unreads in *. destruct (cm m), (cm o); exact BD.
Qed.


(** At a fixpoint, a map without bounds kept from before has the length it started with. *)
Lemma infer_loop_fixed_len : forall relevant anc ancv states prev ks vs todo items lens,
  infer_loop s k fuel no_guesses relevant anc ancv states prev todo = Ok (false, items, lens) ->
  (forall m ga e, In m todo -> gmaps anc m = Some ga -> In e (ginvs ga) -> plain (ks m) (vs m) e) ->
  (forall m st, In m todo -> In st states -> map_sized (ks m) (vs m) m st /\ clean_state st) ->
  forall m, In m todo -> assoc prev m = None ->
  forall st r, In st states -> holds r (gcs st) -> ev r (len_of st m) = ev r (len_of anc m).
Proof.
  induction todo as [|m0 todo IH]; intros items lens H PL OK m Hm AP st r Hst HR; [destruct Hm|].
  cbn [infer_loop] in H. destruct (gmaps anc m0) as [ga|] eqn:G; [|discriminate].
  destruct (flatten_items s k fuel m0 ancv states (ginvs ga)) as [[[c1 e1] st1]| |] eqn:E1; cbn [bindr] in H; try discriminate.
  assert (S1 : st1 = states).
  { eapply (flatten_items_plain s SOK k fuel (ks m0) (vs m0)); [exact E1| |].
    - apply Forall_forall. intros e He. eapply PL; [left; reflexivity|exact G|exact He].
    - intros st0 Hs0. apply OK; [left; reflexivity|exact Hs0]. }
  subst st1.
  assert (S2 : (if c1 then get_items_invariants s k fuel no_guesses m0 relevant states anc else Ok ([], states)) = Ok ([], states)).
  { destruct c1; reflexivity. }
  rewrite S2 in H. cbn [bindr] in H.
  match type of H with (let '(_, _) := ?x in _) = _ => destruct x as [ch2 ls] eqn:X end.
  destruct (infer_loop s k fuel no_guesses relevant anc ancv states prev todo) as [[[c3 it] l3]| |] eqn:E3; cbn [bindr] in H; try discriminate.
  assert (F : c1 || ch2 || c3 = false) by congruence.
  apply orb_false_iff in F as [F F3]. apply orb_false_iff in F as [F1 F2]. subst.
  destruct (N.eq_dec m0 m) as [->|NM].
  - rewrite AP in X. unfold get_length_invariants in X. destruct (forallb _ states) eqn:FB in X; [|congruence].
    rewrite forallb_forall in FB. specialize (FB st Hst). rewrite (definitely_true_spec s SOK) in FB. specialize (FB r HR).
    cbn [evalb] in FB. apply N.eqb_eq in FB. exact FB.
  - destruct Hm as [E|Hm]; [contradiction|]. eapply (IH it l3 eq_refl); eauto.
    + intros; eapply PL; eauto; right; auto.
    + intros; apply OK; auto; right; auto.
Qed.

(** A map whose length is forgotten gets a symbol as its length. *)
Lemma havoc_len : forall lens relevant a st' m, havoc relevant lens a = Ok st' -> In m relevant -> assoc lens m <> None ->
  exists g w x, gmaps st' m = Some g /\ glen g = BVS w x.
Proof.
  intros lens. induction relevant as [|m0 relevant IH]; intros a st' m H Hm NA; [destruct Hm|]. cbn [havoc] in H.
  destruct (gmaps a m0) as [g|] eqn:G; [|discriminate].
  destruct (memN m relevant) eqn:ME.
  - apply memN_In in ME. destruct (assoc lens m0) in H; eapply IH; eauto.
  - destruct Hm as [->|Hm]; [|apply memN_In in Hm; congruence].
    destruct (assoc lens m) as [l|]; [|congruence]. destruct (havoc_other _ _ _ _ H) as [_ [_ O]]. rewrite (O m ME).
    unfold raw_new. cbn [set_map gmaps]. rewrite N.eqb_refl. do 3 eexists. split; reflexivity.
Qed.

Lemma card_empty : forall ks C q, card ks C 0 -> q < 2 ^ ks -> snd (C q) = false.
Proof.
  intros ks C q [l [_ [I L]]] Hq. destruct (snd (C q)) eqn:P; [|reflexivity].
  assert (Hin : In q l) by (apply I; auto). destruct l; [destruct Hin|discriminate L].
Qed.

(** What a packet explored from a relaxed state that is a fixpoint leaves is again among what that state allows. *)
Lemma fixpoint_keeps : forall objs a states prev items lens sth b out ra uk cmx cm rb ukb r st cm1,
  infer_loop s k fuel no_guesses (changed objs a states) a (get_variables objs [a]) states prev (changed objs a states) = Ok (true, items, lens) ->
  havoc (changed objs a states) lens a = Ok sth -> assume_all s k fuel (changed objs a states) items lens sth = Ok b ->
  start objs a -> ends_ok objs a states -> start objs b -> ends_ok objs b out ->
  infer_invariants s k fuel no_guesses objs [b] out lens = Ok Fixpoint_ ->
  (forall m, In m (changed objs a states) <-> In m (changed objs b out)) ->
  fits ra a uk (changed objs a states) items lens cmx cm -> eqbelow (gnext a) ra rb -> gnext a <= gnext b ->
  sim rb b cm ukb -> (forall m, memN m (changed objs a states) = false -> ukb m = uk m) ->
  In st out -> sim r st cm1 ukb -> eqbelow (gnext b) rb r -> sext b st ->
  (forall m c, cm m = Some c -> In m objs) ->
  (forall m c1 c, cm1 m = Some c1 -> cm m = Some c -> clw c1 = clw c) ->
  exists cmx', fits ra a uk (changed objs a states) items lens cmx' (unreads cm1).
Proof.
  intros objs a states prev items lens sth b out ra uk cmx cm rb ukb r st cm1 L HV AA SA EA SB EB FX SAME FT ER GN S UKE Hst S1 ER1 SX DOM SHP.
  set (rel := changed objs a states) in *. pose proof FT as [FS FO FR].
  destruct (assume_all_sext s k fuel items lens rel sth b AA) as [SXB INV].
  destruct (havoc_other rel lens a sth HV) as [_ [_ HO]].
  assert (ERA : eqbelow (gnext a) ra r) by (eapply eqbelow_trans; [exact ER|eapply eqbelow_le; eauto]).
  assert (NE : out <> []) by (intros ->; destruct Hst).
  destruct (infer_fix_inv _ _ _ _ _ _ _ _ _ FX NE) as [items' [lens' LF]]. fold (changed objs b out) in LF.
  (* a map of the relaxed state *)
  assert (MB : forall m c, cm m = Some c -> exists gb g c1, gmaps b m = Some gb /\ gmaps st m = Some g /\ cm1 m = Some c1 /\
     msim rb (gnext b) gb c (ukb m) /\ msim r (gnext st) g c1 (ukb m) /\ ext gb g /\ glayers gb = [] /\
     cks c1 = cks c /\ cvs c1 = cvs c /\ clw c1 = clw c).
  { intros m c Hc. destruct (sim_get _ _ _ _ _ _ S Hc) as [gb [G M]]. destruct (sext_get _ _ m gb SX G) as [g [Gs XG]].
    pose proof (sim_maps _ _ _ _ S1 m) as Q. rewrite Gs in Q. destruct (cm1 m) as [c1|] eqn:C1; [|destruct Q].
    exists gb, g, c1. do 6 (split; [auto; fail|]). split; [apply (proj2 SB m gb (DOM m c Hc) G)|].
    destruct XG as [X1 [X2 _]]. split; [|split].
    - rewrite <- (ms_ks _ _ _ _ _ M), <- (ms_ks _ _ _ _ _ Q). exact X1.
    - rewrite <- (ms_vs _ _ _ _ _ M), <- (ms_vs _ _ _ _ _ Q). exact X2.
    - eapply SHP; eauto. }
  assert (MN : forall m, cm m = None -> cm1 m = None).
  { intros m Hm. pose proof (sim_maps _ _ _ _ S m) as Q. rewrite Hm in Q. destruct (gmaps b m) eqn:G; [destruct Q|].
    destruct SX as [_ [_ SX]]. specialize (SX m). rewrite G in SX. destruct (gmaps st m) eqn:Gs; [destruct SX|].
    pose proof (sim_maps _ _ _ _ S1 m) as Q1. rewrite Gs in Q1. destruct (cm1 m); [destruct Q1|reflexivity]. }
  assert (PLB : forall m ga e, In m (changed objs b out) -> gmaps b m = Some ga -> In e (ginvs ga) ->
     plain (gks (match gmaps b m with Some g => g | None => ga end)) (gvs (match gmaps b m with Some g => g | None => ga end)) e).
  { intros m ga e Hm G He. rewrite G. apply filter_In in Hm as [Hm _]. destruct (proj2 SB m ga Hm G) as [_ SI].
    destruct (SI e He) as [P1 [P2 _]]. split; auto. }
  exists (fun m => if memN m rel then cmx m else unreads cm1 m).
  constructor.
  - pose proof FS as [A1 A2 A3 A4]. constructor; auto. intros m. specialize (A4 m). destruct (memN m rel) eqn:ME; [exact A4|].
    rewrite <- (FO m ME) in A4. destruct (gmaps a m) as [ga|] eqn:Ga, (cm m) as [c|] eqn:C; try contradiction.
    + destruct (MB m c C) as [gb [g [c1 [Gb [Gs [C1 [M [M1 [XG [LB [E1 [E2 E3]]]]]]]]]]]].
      unfold unreads. rewrite C1. cbn [option_map].
      assert (XA : ext ga gb).
      { destruct (sext_get _ _ m ga SXB) as [gb' [Gb' X]]; [rewrite (HO m ME); exact Ga|]. congruence. }
      rewrite (UKE m ME) in M1.
      assert (LG : glayers g = []).
      { assert (CI : changed_in m b st = false).
        { destruct (changed_in m b st) eqn:CI; [|reflexivity]. exfalso.
          assert (X : In m (changed objs b out)) by (apply filter_In; split; [eapply DOM; eauto|]; apply existsb_exists; eauto).
          apply SAME in X. fold rel in X. apply memN_In in X. congruence. }
        unfold changed_in, map_version in CI. rewrite Gb, Gs in CI. apply negb_false_iff, Nat.eqb_eq in CI. unfold version in CI.
        rewrite LB in CI. destruct (glayers g); [reflexivity|discriminate]. }
      eapply untouched_sim; [exact A4|exact M1|exact ERA|eapply ext_trans; eauto|apply XA; exact LB|exact LG].
    + unfold unreads. rewrite (MN m C). exact I.
  - intros m ME. rewrite ME. reflexivity.
  - intros m Hm. assert (ME : memN m rel = true) by (apply memN_In; exact Hm). rewrite ME.
    destruct (FR m Hm) as [c [c0 [CX [C0 [F1 [F2 [F3 [F4 [F5 [F6 [F7 [F8 [F9 F10]]]]]]]]]]]]].
    destruct (MB m c0 C0) as [gb [g [c1 [Gb [Gs [C1 [M [M1 [XG [LB [E1 [E2 E3]]]]]]]]]]]].
    assert (Hb : In m (changed objs b out)) by (apply SAME; exact Hm).
    assert (Hobj : In m objs) by (apply filter_In in Hm; tauto).
    assert (OKB : forall m' st', In m' (changed objs b out) -> In st' out ->
       map_sized (gks (match gmaps b m' with Some g => g | None => gb end)) (gvs (match gmaps b m' with Some g => g | None => gb end)) m' st' /\ clean_state st').
    { intros m' st' Hm' Hs'. apply SAME in Hm'. fold rel in Hm'. destruct (FR m' Hm') as [c' [c0' [_ [C0' _]]]].
      destruct (MB m' c0' C0') as [gb' [_ [_ [Gb' _]]]]. rewrite Gb'.
      destruct (EB m' st' gb' (DOM m' c0' C0') Hs' Gb') as [O1 [O2 _]]. auto. }
    assert (LNF : assoc lens m = None -> csize c1 = csize c).
    { intros AL. rewrite <- (F8 AL).
      assert (Q : ev r (len_of st m) = ev r (len_of b m)).
      { eapply (infer_loop_fixed_len _ _ _ _ _ (fun m' => gks (match gmaps b m' with Some g => g | None => gb end)) (fun m' => gvs (match gmaps b m' with Some g => g | None => gb end))); eauto.
        - intros m' ga' e Hm' G' He. specialize (PLB m' ga' e Hm' G' He). rewrite G' in *. exact PLB.
        - apply (sim_cs _ _ _ _ S1). }
      destruct (len_of_sim _ _ _ _ m S1) as [Z1 _]. destruct (len_of_sim _ _ _ _ m S) as [Z2 Z3].
      rewrite Z1, <- (Z3 _ _ ER1), Z2 in Q. unfold size_of in Q. rewrite C1, C0 in Q. exact Q. }
    exists c, (unread c1). split; [exact CX|]. unfold unreads at 1. rewrite C1. split; [reflexivity|].
    cbn [unread cks cvs clw ccont csize cseen].
    split; [congruence|]. split; [congruence|]. split; [congruence|]. split; [reflexivity|].
    split; [rewrite <- F2, <- E2; apply (ms_val _ _ _ _ _ M1)|].
    split; [rewrite <- F3, <- E3, <- (ms_size _ _ _ _ _ M1), <- (ms_lw _ _ _ _ _ M1); apply evalv_lt|].
    split; [rewrite <- F1, <- E1; apply (ms_card _ _ _ _ _ M1)|]. split; [exact LNF|]. split.
    + intros i Hi. destruct (F9 i Hi) as [IO _]. split; [exact IO|].
      destruct (step_items objs a states prev items lens m L SA EA (sim_n _ _ _ _ FS) Hm) as [ga [Ga IT]].
      destruct (IT i Hi) as [e [e' [-> [He [Q1 [Q2 [Q3 MONO]]]]]]]. cbn [item_true].
      intros q Hq. transitivity (eb (setKVP r q (ccont c1 q)) e').
      { apply (below_depb _ _ Q3), setKVP_eqbelow. exact ERA. }
      destruct (proj2 SA m ga Hobj Ga) as [_ SI]. destruct (SI e He) as [_ [_ [_ AB]]].
      destruct (ccont c1 q) as [v p] eqn:CQ. destruct p; [|apply MONO, AB].
      destruct (INV m e' Hm Hi) as [[gb' [Gb' LZ]]|[x [gb' [Gb' [IN HX]]]]].
      { intros gb' Gb'. rewrite Gb in Gb'. injection Gb' as <-. exact LB. }
      * exfalso. rewrite Gb in Gb'. injection Gb' as <-.
        assert (AL : assoc lens m = None).
        { destruct (assoc lens m) eqn:AL; [|reflexivity]. exfalso.
          destruct (havoc_len lens rel a sth m HV Hm) as [gh [w [x [Gh LH]]]]; [congruence|].
          destruct (sext_get _ _ m gh SXB Gh) as [gb' [Gb' X]]. rewrite Gb in Gb'. injection Gb' as <-.
          destruct X as [_ [_ [_ [X4 _]]]]. rewrite X4, LH in LZ. discriminate. }
        assert (Z : csize c1 = 0).
        { rewrite (LNF AL), <- (F8 AL), <- (ms_size _ _ _ _ _ M). unfold len_at. rewrite LB. cbn. rewrite LZ. apply wrap_0. }
        pose proof (ms_card _ _ _ _ _ M1) as CC. rewrite Z in CC.
        assert (P : snd (ccont c1 q) = false) by (apply (card_empty (cks c1)); [exact CC|congruence]).
        rewrite CQ in P. discriminate.
      * rewrite Gb in Gb'. injection Gb' as <-.
        assert (BX : eb r (BoolS x) = true) by (apply (sim_cs _ _ _ _ S1), SX, HX).
        assert (HI : eb (setKVP r q (v, true)) (BImp (BoolS x) e') = true).
        { destruct (top r (glayers g) q) as [vp|] eqn:T.
          - assert (PLm : Forall (plain (gks gb) (gvs gb)) (ginvs gb)).
            { apply Forall_forall. intros e0 He0. specialize (PLB m gb e0 Hb Gb He0). rewrite Gb in PLB. exact PLB. }
            assert (OKm : forall st', In st' out -> map_sized (gks gb) (gvs gb) m st' /\ clean_state st').
            { intros st' Hs'. specialize (OKB m st' Hb Hs'). rewrite Gb in OKB. exact OKB. }
            destruct (infer_loop_unchanged _ _ _ _ _ _ _ _ _ _ _ _ LF m Hb) as [gb2 [st2 [Gb2 FL]]].
            rewrite Gb in Gb2. injection Gb2 as <-.
            destruct (flatten_items_plain s SOK k fuel _ _ _ _ _ _ _ _ _ FL PLm OKm) as [_ [_ CO]].
            destruct (OKm st Hst) as [[g' [Gs' [_ [_ SZ]]]] _]. rewrite Gs in Gs'. injection Gs' as <-.
            destruct (top_known r _ _ (glayers g) q vp SZ T) as [i [Hin [EI VI]]].
            pose proof (ms_top _ _ _ _ _ M1 q vp T) as TV. rewrite CQ in TV. rewrite <- TV in VI.
            rewrite <- EI, <- VI. apply (CO _ st IN Hst g i r Gs Hin (sim_cs _ _ _ _ S1)).
            unfold val in VI. congruence.
          - rewrite <- CQ. apply (ms_inv _ _ _ _ _ M1); [apply XG; exact IN| |exact T].
            rewrite (ms_ks _ _ _ _ _ M1). congruence. }
        rewrite BImp_true in HI. apply HI. cbn [evalb setKVP ebool snd]. destruct (x =? 0); [reflexivity|exact BX].
    + intros o Ho.
      assert (SZU : forall m, size_of (unreads cm1) m = size_of cm1 m) by (intros m'; unfold size_of, unreads; destruct (cm1 m'); reflexivity).
      rewrite !SZU. destruct (len_of_sim _ _ _ _ m S1) as [<- _]. destruct (len_of_sim _ _ _ _ o S1) as [<- _].
      unfold bounds_of in Ho. destruct (assoc lens m) as [l|] eqn:AL; [|destruct Ho].
      destruct (infer_loop_lengths _ SOK _ _ _ _ _ _ _ _ _ _ _ LF m l Hb AL) as [gb2 [st2 [Gb2 [FL BD]]]].
      rewrite Gb in Gb2. injection Gb2 as <-.
      assert (PLm : Forall (plain (gks gb) (gvs gb)) (ginvs gb)).
      { apply Forall_forall. intros e0 He0. specialize (PLB m gb e0 Hb Gb He0). rewrite Gb in PLB. exact PLB. }
      assert (OKm : forall st', In st' out -> map_sized (gks gb) (gvs gb) m st' /\ clean_state st').
      { intros st' Hs'. specialize (OKB m st' Hb Hs'). rewrite Gb in OKB. exact OKB. }
      destruct (flatten_items_plain s SOK k fuel _ _ _ _ _ _ _ _ _ FL PLm OKm) as [-> _].
      apply (BD o st r Ho Hst (sim_cs _ _ _ _ S1)).
Qed.

End Relax.

(** ** Packets *)

(** A packet's fields are fresh symbols of a starting state, after the results of start-up. *)
Fixpoint fields (n : N) (ws : list N) : list (bv * bexp) :=
  match ws with [] => [] | w :: ws => (BVS w n, BoolS n) :: fields (n + 1) ws end.
Definition packet_state (a : gst) (rs0 : list (bv * bexp)) (ws : list N) : sst :=
  (bump a (N.of_nat (length ws)), rs0 ++ fields (gnext a) ws).

(** Real runs of packets create no map and keep the width of the lengths. *)
Lemma crun_shape : forall inp nin sz uk os cm cr cm' cr', forallb no_new os = true -> crun inp nin sz uk (cm, cr) os (cm', cr') ->
  forall m c', cm' m = Some c' -> exists c, cm m = Some c /\ clw c' = clw c.
Proof.
  intros inp nin sz uk. induction os as [|o os IH]; intros cm cr cm' cr' NN H m c' Hc.
  - inversion H; subst. eauto.
  - cbn [forallb] in NN. apply andb_prop in NN as [N1 N2]. inversion H as [|? ? [cm1 cr1] ? ? G CS CR]; subst.
    destruct (IH _ _ _ _ N2 CR m c' Hc) as [c1 [C1 E1]].
    inversion CS; subst; try discriminate N1; try (eauto; fail);
    unfold upd in C1; destruct (N.eqb_spec m m0) as [->|NE]; try (exists c1; auto; fail);
    injection C1 as <-; eauto.
Qed.

Section Run.
Variable s : solver.
Variable k : claripy.
Variable fuel : nat.
Variable nin : N.
Variable inp : env.
Variable sz : N.
Hypothesis SOK : solver_ok s.
Hypothesis KOK : claripy_ok k.
Hypothesis NIN : 2 <= nin.

Lemma hsim_run_eq : forall uk os r st rs cm cr st' rs' cm' cr',
  hsim nin inp sz uk r st rs cm cr -> srun s k fuel nin (st, rs) os = Ok (st', rs') ->
  stays_unfolded s k fuel nin (st, rs) os ->
  crun inp nin sz uk (cm, cr) os (cm', cr') ->
  exists r', eqbelow (gnext st) r r' /\ gnext st <= gnext st' /\ hsim nin inp sz uk r' st' rs' cm' cr'.
Proof.
  intros uk. induction os as [|o os IH]; intros r st rs cm cr st' rs' cm' cr' HS H U C; cbn [srun stays_unfolded] in *.
  - injection H as <- <-. inversion C; subst. exists r. split; [apply eqbelow_refl|]. split; [lia|exact HS].
  - destruct (sstep s k fuel nin (st, rs) o) as [[st1 rs1]| |] eqn:E; try discriminate H. cbn [bindr] in H.
    destruct U as [U1 U2]. inversion C as [|? ? [cm1 cr1] ? ? G CS CR]; subst.
    destruct (hsim_step s k fuel nin inp sz uk SOK KOK NIN r st rs cm cr o st1 rs1 cm1 cr1 HS E U1 G CS) as [r1 [E1 [L1 HS1]]].
    destruct (IH _ _ _ _ _ _ _ _ _ HS1 H U2 CR) as [r2 [E2 [L2 HS2]]]. exists r2.
    split; [eapply eqbelow_trans; [exact E1|eapply eqbelow_le; eauto]|]. split; [lia|exact HS2].
Qed.

Lemma packet_hsim : forall uk ws vs r a rs cm cr, hsim nin inp sz uk r a rs cm cr ->
  Forall2 (fun w v => fst v < 2 ^ w) ws vs ->
  exists r', eqbelow (gnext a) r r' /\
    hsim nin inp sz uk r' (bump a (N.of_nat (length ws))) (rs ++ fields (gnext a) ws) cm (cr ++ vs).
Proof.
  intros uk ws vs r a rs cm cr HS F. revert r a rs cr HS. induction F as [|w v ws vs B F IH]; intros r a rs cr HS.
  - exists r. split; [apply eqbelow_refl|]. cbn [fields length]. rewrite !app_nil_r.
    replace (bump a (N.of_nat 0)) with a; [exact HS|]. destruct a; unfold bump; cbn. rewrite N.add_0_r. reflexivity.
  - pose proof (updvb_eqbelow r (gnext a) v) as EB. set (r1 := updvb r (gnext a) v) in *.
    pose proof (h_sim _ _ _ _ _ _ _ _ _ HS) as SM. pose proof (sim_n _ _ _ _ SM) as N2.
    assert (HS1 : hsim nin inp sz uk r1 (bump a 1) (rs ++ [(BVS w (gnext a), BoolS (gnext a))]) cm (cr ++ [v])).
    { eapply hsim_next; [exact NIN|exact HS|exact EB|cbn; lia|reflexivity| | | | | |].
      - destruct SM as [A1 A2 A3 A4]. constructor.
        + eapply holds_dep; [exact A2|exact EB|exact A1].
        + eapply Forall_depb_le; [|exact A2]. cbn. lia.
        + cbn. lia.
        + intros x. cbn [bump gmaps gnext]. specialize (A4 x). destruct (gmaps a x), (cm x); auto. eapply msim_mono; [exact EB| |exact A4]. lia.
      - cbn [fst snd evalv evalb r1 updvb ebv ebool]. rewrite N.eqb_refl. rewrite wrap_small by exact B. destruct v; reflexivity.
      - apply dep_BVS. cbn. lia.
      - apply depb_BoolS. cbn. lia.
      - cbn [fst]. unfold cleanv. cbn. repeat split; auto; try (intros; repeat match goal with H : _ \/ _ |- _ => destruct H end; try contradiction; try (injection H as <- <-); subst; lia).
      - cbn [snd]. unfold cleanb. cbn. repeat split; auto; try (intros; repeat match goal with H : _ \/ _ |- _ => destruct H end; try contradiction; subst; lia). }
    destruct (IH _ _ _ _ HS1) as [r2 [E2 HS2]]. exists r2.
    split; [eapply eqbelow_trans; [exact EB|eapply eqbelow_le; [|exact E2]]; cbn; lia|].
    cbn [fields length]. rewrite <- !app_assoc in HS2. cbn [app] in HS2.
    replace (bump a (N.of_nat (S (length ws)))) with (bump (bump a 1) (N.of_nat (length ws))); [exact HS2|].
    destruct a; unfold bump; cbn. f_equal. lia.
Qed.

(** What is asked of a starting state of the search: nothing was written to its maps yet; its invariants have no lookups, are about
    its own symbols and hold of absent keys; the states explored from it are of the same sizes and write items whose keys
    and values are symbols or constants; the bounds on lengths learned from them hold of the starting state too. *)
Definition well_started (objs : list N) (f : handler) (x : gst) (p : list (N * list N)) : Prop :=
  forall l, f x = Ok l -> start objs x /\ ends_ok objs x l /\
    forall y lens, infer_invariants s k fuel no_guesses objs [x] l p = Ok (Next [y] lens) ->
    forall m o r, In o (bounds_of lens m) -> holds r (gcs x) -> ev r (len_of x m) <= ev r (len_of x o).

Lemma uk_bound : forall r st cm uk m c, sim r st cm uk -> cm m = Some c -> uk m < 2 ^ cks c.
Proof.
  intros r st cm uk m c S Hc. destruct (sim_get _ _ _ _ _ _ S Hc) as [g [G M]].
  rewrite <- (ms_ukey _ _ _ _ _ M), <- (ms_ks _ _ _ _ _ M). destruct (ms_unk _ _ _ _ _ M) as [[W _] _]. rewrite <- W. apply evalv_lt.
Qed.

Lemma relax_hsim : forall uk ra a rs cmx cr rel items lens cm uk1 sth b,
  hsim nin inp sz uk ra a rs cmx cr -> fits ra a uk rel items lens cmx cm ->
  havoc rel lens a = Ok sth -> assume_all s k fuel rel items lens sth = Ok b ->
  (forall m, memN m rel = false -> uk1 m = uk m) -> (forall m c, In m rel -> cm m = Some c -> uk1 m < 2 ^ cks c) ->
  exists rb, eqbelow (gnext a) ra rb /\ gnext a <= gnext b /\ hsim nin inp sz uk1 rb b rs cm cr.
Proof.
  intros uk ra a rs cmx cr rel items lens cm uk1 sth b [H1 H2 H3 H4 H5] FT HV AA UO UI.
  destruct (relax_covers s k fuel KOK ra a uk rel items lens cmx cm uk1 sth b FT HV AA UI) as [rb [E [L S]]].
  exists rb. split; [exact E|]. split; [exact L|]. constructor.
  - eapply sim_maps_ext; [| | | | |exact S]; try reflexivity. intros m c _. unfold mix. destruct (memN m rel) eqn:ME; [reflexivity|apply UO; exact ME].
  - eapply eqbelow_trans; [exact H2|]. eapply eqbelow_le; [exact H3|exact E].
  - lia.
  - eapply rsim_mono; eauto.
  - destruct (assume_all_sext s k fuel items lens rel sth b AA) as [[Z _] _]. destruct (havoc_other rel lens a sth HV) as [Z2 _]. congruence.
Qed.

Lemma size_unreads : forall cm m, size_of (unreads cm) m = size_of cm m.
Proof. intros cm m. unfold size_of, unreads. destruct (cm m); reflexivity. Qed.
Lemma hsim_unreads : forall uk r a rs cm cr, hsim nin inp sz uk r a rs cm cr -> hsim nin inp sz uk r a rs (unreads cm) cr.
Proof. intros uk r a rs cm cr [H1 H2 H3 H4 H5]. constructor; auto. apply sim_unreads. exact H1. Qed.

Lemma iterates_snoc : forall infer d p d1 p1 results states p2, iterates infer d p d1 p1 ->
  runs d1 = Ok results -> infer (map fst d1) results p1 = Ok (Next states p2) ->
  iterates infer d p (combine states (map snd d1)) p2.
Proof.
  intros infer d p d1 p1 results states p2 IT. induction IT; intros R I.
  - eapply it_next; eauto. apply it_here.
  - eapply it_next; eauto.
Qed.
Lemma runs_one : forall x (f : handler) results, runs [(x, f)] = Ok results -> f x = Ok results.
Proof. intros x f results H. cbn [runs] in H. destruct (f x) as [l| |]; cbn in H; try discriminate. rewrite app_nil_r in H. exact H. Qed.

(** The starting states of the search allow what start-up left. *)
Lemma search_covers : forall objs f d p d1 p1, iterates (infer_invariants s k fuel no_guesses objs) d p d1 p1 ->
  forall x a uk r rs cm cr, d = [(x, f)] -> d1 = [(a, f)] ->
  (forall y q, iterates (infer_invariants s k fuel no_guesses objs) [(x, f)] p [(y, f)] q -> well_started objs f y q) ->
  hsim nin inp sz uk r x rs cm cr -> exists r', hsim nin inp sz uk r' a rs (unreads cm) cr.
Proof.
  intros objs f d p d1 p1 IT. induction IT as [d p|d p results states p' d2 p2 R I IT IH]; intros x a uk r rs cm cr -> E1 WS HS.
  - injection E1 as <-. exists r. apply hsim_unreads. exact HS.
  - subst d2. apply runs_one in R. cbn [map fst snd] in I, IT, IH.
    destruct (next_inv s k fuel objs x results p states p' I) as [b [sth [items [-> [L [HV AA]]]]]].
    cbn [combine] in *. destruct (WS x p (it_here (infer_invariants s k fuel no_guesses objs) [(x, f)] p) results R) as [ST [EO BD]].
    pose proof (h_sim _ _ _ _ _ _ _ _ _ HS) as S.
    assert (FT : fits r x uk (changed objs x results) items p' (unreads cm) (unreads cm)).
    { eapply relax_grows; eauto. intros m o Ho. destruct (len_of_sim _ _ _ _ m S) as [<- _]. destruct (len_of_sim _ _ _ _ o S) as [<- _].
      eapply BD; eauto. apply (sim_cs _ _ _ _ S). }
    destruct (relax_hsim uk r x rs (unreads cm) cr (changed objs x results) items p' (unreads cm) uk sth b) as [rb [_ [_ HB]]]; auto using hsim_unreads.
    { intros m c _ Hc. eapply uk_bound; [apply sim_unreads; exact S|exact Hc]. }
    destruct (IH b a uk rb rs (unreads cm) cr eq_refl eq_refl) as [r' HR]; [|exact HB|].
    + intros y q Q. apply WS. eapply it_next; [|exact I|exact Q]. cbn [runs]. rewrite R. cbn. rewrite app_nil_r. reflexivity.
    + exists r'. destruct HR as [Z1 Z2 Z3 Z4 Z5]. constructor; auto. eapply sim_ext; [|exact Z1].
      intros m. unfold unreads. destruct (cm m); reflexivity.
Qed.

(** A packet handled on real maps: the fields [vs], of widths [ws], and the path [os], one of those explored from [b]; [st] and [rs] are
    that path's final state and results, and [uk'] the witness keys this packet does not write. *)
Definition handled (b : gst) (rs0 : list (bv * bexp)) (cr0 : list (N * bool)) (uk : N -> N) (rel : list N) (out : list gst)
  (cm : N -> option cmap) (st : gst) (rs : list (bv * bexp)) (cm' : N -> option cmap) (cr' : list (N * bool)) : Prop :=
  exists ws vs os uk', Forall2 (fun w v => fst v < 2 ^ w) ws vs /\ forallb no_new os = true /\
    srun s k fuel nin (packet_state b rs0 ws) os = Ok (st, rs) /\ stays_unfolded s k fuel nin (packet_state b rs0 ws) os /\ In st out /\
    (forall m, ~ In m rel -> uk' m = uk m) /\ (forall m c, In m rel -> cm m = Some c -> uk' m < 2 ^ cks c) /\
    crun inp nin sz uk' (cm, cr0 ++ vs) os (cm', cr').

(** What the real maps hold after start-up left [cm0] and any number of packets. *)
Inductive after (b : gst) (rs0 : list (bv * bexp)) (cr0 : list (N * bool)) (uk : N -> N) (rel : list N) (out : list gst)
  (cm0 : N -> option cmap) : (N -> option cmap) -> Prop :=
| after_start : after b rs0 cr0 uk rel out cm0 (unreads cm0)
| after_packet : forall cm st rs cm' cr', after b rs0 cr0 uk rel out cm0 cm ->
    handled b rs0 cr0 uk rel out cm st rs cm' cr' -> after b rs0 cr0 uk rel out cm0 (unreads cm').

Lemma handled_covered : forall b rs0 cr0 uk rel out cm st rs cm' cr' ra a items lens cmx sth,
  handled b rs0 cr0 uk rel out cm st rs cm' cr' ->
  hsim nin inp sz uk ra a rs0 cmx cr0 -> fits ra a uk rel items lens cmx cm ->
  havoc rel lens a = Ok sth -> assume_all s k fuel rel items lens sth = Ok b ->
  exists rb r ukb, eqbelow (gnext a) ra rb /\ gnext a <= gnext b /\ sim rb b cm ukb /\
    (forall m, memN m rel = false -> ukb m = uk m) /\ eqbelow (gnext b) rb r /\ sext b st /\
    hsim nin inp sz ukb r st rs cm' cr' /\ In st out /\
    (forall m c', cm' m = Some c' -> exists c, cm m = Some c /\ clw c' = clw c).
Proof.
  intros b rs0 cr0 uk rel out cm st rs cm' cr' ra a items lens cmx sth (ws & vs & os & uk' & F & NN & SR & SU & IO & UO & UI & CR) HS FT HV AA.
  assert (UO' : forall m, memN m rel = false -> uk' m = uk m).
  { intros m ME. apply UO. intros Hm. apply memN_In in Hm. congruence. }
  destruct (relax_hsim uk ra a rs0 cmx cr0 rel items lens cm uk' sth b HS FT HV AA UO' UI) as [rb [E1 [L1 HB]]].
  destruct (packet_hsim uk' ws vs rb b rs0 cm cr0 HB F) as [rp [E2 HP]]. unfold packet_state in *.
  destruct (hsim_run_eq uk' os rp _ _ _ _ st rs cm' cr' HP SR SU CR) as [r [E3 [L3 HR]]].
  exists rb, r, uk'. split; [exact E1|]. split; [exact L1|]. split; [apply (h_sim _ _ _ _ _ _ _ _ _ HB)|]. split; [exact UO'|].
  split. { eapply eqbelow_trans; [exact E2|]. eapply eqbelow_le; [|exact E3]. cbn. lia. }
  split. { eapply sext_trans; [apply sext_bump|]. eapply srun_sext; eauto. }
  split; [exact HR|]. split; [exact IO|]. exact (crun_shape inp nin sz uk' os cm (cr0 ++ vs) cm' cr' NN CR).
Qed.

Lemma after_covered : forall objs f x a ends prev b lens out uk r0 rs0 cm0 cr0,
  iterates (infer_invariants s k fuel no_guesses objs) [(x, f)] [] [(a, f)] prev ->
  f a = Ok ends -> infer_invariants s k fuel no_guesses objs [a] ends prev = Ok (Next [b] lens) ->
  f b = Ok out -> infer_invariants s k fuel no_guesses objs [b] out lens = Ok Fixpoint_ ->
  (forall y q, iterates (infer_invariants s k fuel no_guesses objs) [(x, f)] [] [(y, f)] q -> well_started objs f y q) ->
  (forall m, In m (changed objs a ends) <-> In m (changed objs b out)) ->
  (forall m c, cm0 m = Some c -> In m objs) ->
  hsim nin inp sz uk r0 x rs0 cm0 cr0 ->
  forall cm, after b rs0 cr0 uk (changed objs a ends) out cm0 cm ->
  forall st rs cm' cr', handled b rs0 cr0 uk (changed objs a ends) out cm st rs cm' cr' ->
  exists r ukb, hsim nin inp sz ukb r st rs cm' cr'.
Proof.
  intros objs f x a ends prev b lens out uk r0 rs0 cm0 cr0 IT FA NX FB FX WS SAME DOM HS.
  destruct (search_covers objs f _ _ _ _ IT x a uk r0 rs0 cm0 cr0 eq_refl eq_refl WS HS) as [ra HA].
  destruct (WS a prev IT ends FA) as [SA [EA BD]].
  assert (ITB : iterates (infer_invariants s k fuel no_guesses objs) [(x, f)] [] [(b, f)] lens).
  { apply (iterates_snoc _ _ _ _ _ ends [b] lens IT); [|exact NX]. cbn [runs]. rewrite FA. cbn. rewrite app_nil_r. reflexivity. }
  destruct (WS b lens ITB out FB) as [SB [EB _]].
  destruct (next_inv s k fuel objs a ends prev [b] lens NX) as [b' [sth [items [EQ [L [HV AA]]]]]]. injection EQ as <-.
  set (rel := changed objs a ends) in *.
  pose proof (h_sim _ _ _ _ _ _ _ _ _ HA) as SMA.
  assert (FT0 : fits ra a uk rel items lens (unreads (unreads cm0)) (unreads (unreads cm0))).
  { eapply relax_grows; eauto. intros m o Ho. destruct (len_of_sim _ _ _ _ m SMA) as [<- _]. destruct (len_of_sim _ _ _ _ o SMA) as [<- _].
    eapply BD; eauto. apply (sim_cs _ _ _ _ SMA). }
  assert (KEY : forall cm, after b rs0 cr0 uk rel out cm0 cm ->
    (exists cmx, hsim nin inp sz uk ra a rs0 cmx cr0 /\ fits ra a uk rel items lens cmx cm) /\ forall m c, cm m = Some c -> In m objs).
  { intros cm AF. induction AF as [|cm st rs cm' cr' AF [[cmx [HX FT]] DM] HD].
    - split.
      + exists (unreads cm0). split; [exact HA|]. destruct FT0 as [F1 F2 F3]. constructor; auto.
        intros m Hm. destruct (F3 m Hm) as [c [c1 Z]]. exists c, c1.
        assert (UU : forall m, unreads (unreads cm0) m = unreads cm0 m) by (intros z; unfold unreads; destruct (cm0 z); reflexivity).
        assert (SS : forall z, size_of (unreads (unreads cm0)) z = size_of (unreads cm0) z) by (intros z; apply size_unreads).
        rewrite UU in Z. destruct Z as [Z1 [Z2 [Z3 [Z4 [Z5 [Z6 [Z7 [Z8 [Z9 [Z10 [Z11 Z12]]]]]]]]]]].
        repeat (split; [assumption|]). intros o Ho. rewrite <- !SS. apply Z12. exact Ho.
      + intros m c Hc. unfold unreads in Hc. destruct (cm0 m) eqn:C0; [eauto|discriminate].
    - destruct (handled_covered _ _ _ _ _ _ _ _ _ _ _ ra a items lens cmx sth HD HX FT HV AA) as
        [rb [r [ukb [E1 [L1 [S1 [U1 [E2 [SX [HR [IO SH]]]]]]]]]]].
      destruct (fixpoint_keeps s k fuel SOK objs a ends prev items lens sth b out ra uk cmx cm rb ukb r st cm') as [cmx' FT']; auto.
      + apply (h_sim _ _ _ _ _ _ _ _ _ HR).
      + intros m c1 c C1 C. destruct (SH m c1 C1) as [c2 [C2 E]]. congruence.
      + split.
        * exists cmx'. split; [|exact FT']. destruct HX as [Y1 Y2 Y3 Y4 Y5]. constructor; auto. apply (ft_sim _ _ _ _ _ _ _ _ FT').
        * intros m c Hc. unfold unreads in Hc. destruct (cm' m) as [c'|] eqn:C'; [|discriminate]. destruct (SH m c' C') as [c2 [C2 _]]. eauto. }
  intros cm AF st rs cm' cr' HD. destruct (KEY cm AF) as [[cmx [HX FT]] _].
  destruct (handled_covered _ _ _ _ _ _ _ _ _ _ _ ra a items lens cmx sth HD HX FT HV AA) as
    [rb [r [ukb [E1 [L1 [S1 [U1 [E2 [SX [HR [IO SH]]]]]]]]]]]. eauto.
Qed.
End Run.

(** ** Guessed invariants *)

Section Guess.
Variable s : solver.
Variable k : claripy.
Variable fuel : nat.
Hypothesis SOK : solver_ok s.
Hypothesis KOK : claripy_ok k.

(** A predicate that is false of the contents is false of a key that was accessed or of the witness key. *)
Definition witnessed (r : env) (c : cmap) (u : N) (p : bexp) : Prop :=
  (forall q, q < 2 ^ cks c -> snd (ccont c q) = true -> holds_at r (ccont c) p q) \/
  (exists q, q < 2 ^ cks c /\ (In q (cseen c) \/ q = u) /\ snd (ccont c q) = true /\ ~ holds_at r (ccont c) p q).

Lemma witnessed_eq : forall r r' n c u p ks vs, eqbelow n r r' -> invok ks vs n p -> witnessed r c u p -> witnessed r' c u p.
Proof.
  intros r r' n c u p ks vs E [_ [_ D]] W.
  assert (Q : forall q, holds_at r (ccont c) p q <-> holds_at r' (ccont c) p q).
  { intros q. unfold holds_at. rewrite (D _ _ (setKVP_eqbelow n r r' q (ccont c q) E)). tauto. }
  destruct W as [W|[q [W0 [W1 [W2 W3]]]]]; [left; intros q L P; apply Q; auto|right; exists q; rewrite <- Q; auto].
Qed.

Lemma forall_kept : forall r st cm uk m p st1 b c, sim r st cm uk -> cm m = Some c -> invok (cks c) (cvs c) (gnext st) p ->
  witnessed r c (uk m) p -> forall_ s k fuel st m p = Ok (st1, b) ->
  (exists r1, eqbelow (gnext st) r r1 /\ gnext st <= gnext st1 /\ sim r1 st1 cm uk) /\ map_version st1 m = map_version st m /\
  (definitely_true s (gcs st1) b = true -> forall q, q < 2 ^ cks c -> snd (ccont c q) = true -> holds_at r (ccont c) p q).
Proof.
  intros r st cm uk m p st1 b c S Hc IV W F.
  assert (VE : forall g g', gmaps st m = Some g -> gmaps st1 m = Some g' -> Forall2 same_layer (glayers g) (glayers g') ->
    map_version st1 m = map_version st m).
  { intros g g' G G' SL. unfold map_version, version. rewrite G, G'. clear -SL. induction SL; cbn; auto. }
  destruct W as [W|[q [W0 [W1 [W2 W3]]]]].
  - destruct (forall_sim s k KOK r st cm uk fuel m p st1 b c true S Hc IV F) as [r1 [g [g1 [E1 [L1 [_ [S1 [_ [_ [_ [G [G1 [_ SL]]]]]]]]]]]]].
    + split; [intros _; exact W|reflexivity].
    + left. exact W.
    + split; [eauto|]. split; [eapply VE; eauto|]. intros _. exact W.
  - destruct (forall_sim s k KOK r st cm uk fuel m p st1 b c false S Hc IV F) as [r1 [g [g1 [E1 [L1 [_ [S1 [V1 [_ [_ [G [G1 [_ SL]]]]]]]]]]]]].
    + split; [discriminate|]. intros H. exfalso. apply W3. apply H; assumption.
    + right. eauto.
    + split; [eauto|]. split; [eapply VE; eauto|]. intros D. exfalso. pose proof (proj1 (definitely_true_spec s SOK _ _) D r1 (sim_cs _ _ _ _ S1)) as X. congruence.
Qed.

(** One guess: every state is as before, or a forall was evaluated in it, with a result that is certain if the guess is kept. *)
Lemma all_true_inv : forall m anc p states b states', all_true s k fuel m anc p states = Ok (b, states') ->
  Forall2 (fun st st' => (st' = st /\ (b = true -> changed_in m anc st = false)) \/
    exists e, changed_in m anc st = true /\ forall_ s k fuel st m p = Ok (st', e) /\ (b = true -> definitely_true s (gcs st') e = true)) states states'.
Proof.
  intros m anc p. induction states as [|st states IH]; intros b states' H; cbn [all_true] in H.
  - injection H as <- <-. constructor.
  - destruct (changed_in m anc st) eqn:CH.
    + destruct (forall_ s k fuel st m p) as [[st1 e]| |] eqn:F; cbn [bindr] in H; try discriminate.
      destruct (definitely_true s (gcs st1) e) eqn:D.
      * destruct (all_true s k fuel m anc p states) as [[b1 l]| |] eqn:A; cbn [bindr] in H; try discriminate. injection H as <- <-.
        constructor; [right; eauto|]. apply IH. reflexivity.
      * injection H as <- <-. constructor; [right; exists e; split; [auto|split; [auto|discriminate]]|].
        clear. induction states; constructor; auto. left. split; [reflexivity|discriminate].
    + destruct (all_true s k fuel m anc p states) as [[b1 l]| |] eqn:A; cbn [bindr] in H; try discriminate. injection H as <- <-.
      constructor; [left; auto|]. apply IH. reflexivity.
Qed.

Lemma keep_true_incl : forall m anc ps states l states', keep_true s k fuel m anc ps states = Ok (l, states') -> incl l ps.
Proof.
  intros m anc. induction ps as [|p0 ps IH]; intros states l states' H; cbn [keep_true] in H.
  - injection H as <- _. apply incl_refl.
  - destruct (all_true s k fuel m anc p0 states) as [[b states1]| |] eqn:A; cbn [bindr] in H; try discriminate.
    destruct (keep_true s k fuel m anc ps states1) as [[l2 states2]| |] eqn:K; cbn [bindr] in H; try discriminate.
    pose proof (IH _ _ _ K) as IC. injection H as <- _. destruct b; intros x Hx; cbn in *; [destruct Hx|]; auto.
Qed.
Lemma Forall2_nth_error : forall A B (P : A -> B -> Prop) l l', Forall2 P l l' -> forall j a, nth_error l j = Some a ->
  exists b, nth_error l' j = Some b /\ P a b.
Proof.
  intros A B P l l' F. induction F as [|x y l l' H F IH]; intros [|j] a E; cbn in *; try discriminate; [injection E as <-; eauto|auto].
Qed.

Lemma keep_true_holds : forall m anc ps states l states', keep_true s k fuel m anc ps states = Ok (l, states') ->
  forall j st r cm uk c, nth_error states j = Some st -> changed_in m anc st = true -> sim r st cm uk -> cm m = Some c ->
  (forall p, In p ps -> invok (cks c) (cvs c) (gnext st) p /\ witnessed r c (uk m) p) ->
  forall p, In p l -> forall q, q < 2 ^ cks c -> snd (ccont c q) = true -> holds_at r (ccont c) p q.
Proof.
  intros m anc. induction ps as [|p0 ps IH]; intros states l states' H j st r cm uk c NE CH S Hc W p Hp; cbn [keep_true] in H.
  - injection H as <- _. destruct Hp.
  - destruct (all_true s k fuel m anc p0 states) as [[b states1]| |] eqn:A; cbn [bindr] in H; try discriminate.
    destruct (keep_true s k fuel m anc ps states1) as [[l2 states2]| |] eqn:K; cbn [bindr] in H; try discriminate.
    assert (EL : l = if b then p0 :: l2 else l2) by congruence. clear H.
    pose proof (all_true_inv _ _ _ _ _ _ A) as F2.
    destruct (Forall2_nth_error _ _ _ _ _ F2 _ _ NE) as [st1 [NE1 [[E1 B1]|[e [_ [FA D]]]]]].
    + subst st1. destruct b; [rewrite B1 in CH by reflexivity; discriminate|]. subst l.
      eapply IH; eauto. intros p' Hp'. apply W. right. exact Hp'.
    + destruct (W p0 (or_introl eq_refl)) as [IV WT].
      destruct (forall_kept r st cm uk m p0 st1 e c S Hc IV WT FA) as [[r1 [E1 [L1 S1]]] [VR T]].
      assert (REST : In p l2 -> forall q, q < 2 ^ cks c -> snd (ccont c q) = true -> holds_at r (ccont c) p q).
      { intros Hp2 q Q1 Q2.
        assert (INP : In p ps) by (eapply keep_true_incl; [exact K|exact Hp2]). destruct (W p (or_intror INP)) as [[I1 [I2 I3]] _].
        unfold holds_at. rewrite (I3 _ _ (setKVP_eqbelow _ _ _ q (ccont c q) E1)).
        refine (IH states1 l2 states2 K j st1 r1 cm uk c NE1 _ S1 Hc _ p Hp2 q Q1 Q2).
        - unfold changed_in in *. rewrite VR. exact CH.
        - intros p' Hp'. destruct (W p' (or_intror Hp')) as [I W']. split; [|eapply witnessed_eq; eauto].
          destruct I as [J1 [J2 J3]]. split; [exact J1|]. split; [exact J2|]. eapply depb_le; eauto. }
      subst l. destruct b; [|exact (REST Hp)]. destruct Hp as [<-|Hp]; [apply T; apply D; reflexivity|exact (REST Hp)].
Qed.
End Guess.
