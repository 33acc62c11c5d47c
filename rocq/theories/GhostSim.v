(** * Ghost maps follow every real history

    A simulation between the model and real maps: whatever a real history does,
    some assignment of the symbols satisfies all path constraints and gives every
    result its real value. *)

From Coq Require Import NArith List Bool Lia Arith.
From Verif Require Import Expr Solver KMerge Wt GhostMap GhostSpec GhostFacts.
Import ListNotations.
Open Scope N_scope.

(** ** Expressions that do not mention KEY, VALUE or PRESENT, nor lookups *)

Definition cleanv (e : bv) : Prop :=
  nolkv e = true /\ (forall x w, In (x, w) (vvars e) -> 2 <= x) /\ (forall x, In x (vbools e) -> 1 <= x).
Definition cleanb (e : bexp) : Prop :=
  nolkb e = true /\ (forall x w, In (x, w) (bvvars e) -> 2 <= x) /\ (forall x, In x (bbools e) -> 1 <= x).
Definition clean (i : item) : Prop := cleanv (ik i) /\ cleanv (iv i) /\ cleanb (ip i).

Definition itemok (ks vs n : N) (i : item) : Prop := sized ks vs i /\ dep_item n i /\ clean i.

Lemma itemok_le : forall ks vs n m i, n <= m -> itemok ks vs n i -> itemok ks vs m i.
Proof. intros ks vs n m i L [A [B C]]. repeat split; try apply A; try apply C; eapply dep_item_le; eauto; apply B. Qed.

Lemma clean_ite : forall c a b, cleanb c -> cleanv a -> cleanv b -> cleanv (BvIte c a b).
Proof.
  intros c a b [C0 [C1 C2]] [A0 [A1 A2]] [B0 [B1 B2]]. split; [cbn; rewrite A0, B0, C0; reflexivity|].
  split; cbn [vvars vbools]; intros; repeat (apply in_app_or in H as [H|H]); eauto.
Qed.
Lemma clean_iteb : forall c a b, cleanb c -> cleanb a -> cleanb b -> cleanb (BIteB c a b).
Proof.
  intros c a b [C0 [C1 C2]] [A0 [A1 A2]] [B0 [B1 B2]]. split; [cbn; rewrite A0, B0, C0; reflexivity|].
  split; cbn [bvvars bbools]; intros; repeat (apply in_app_or in H as [H|H]); eauto.
Qed.
Lemma clean_eq : forall a b, cleanv a -> cleanv b -> cleanb (BEq a b).
Proof.
  intros a b [A0 [A1 A2]] [B0 [B1 B2]]. split; [cbn; rewrite A0, B0; reflexivity|].
  split; cbn [bvvars bbools]; intros; apply in_app_or in H as [H|H]; eauto.
Qed.
Lemma clean_BVS : forall w x, 2 <= x -> cleanv (BVS w x).
Proof.
  intros w x L. split; [reflexivity|]. split; [intros y v [E|[]]; injection E as <- <-; auto|intros y []].
Qed.
Lemma clean_BoolS : forall x, 1 <= x -> cleanb (BoolS x).
Proof.
  intros x L. split; [reflexivity|]. split; [intros y v []|intros y [E|[]]; subst y; auto].
Qed.
Lemma clean_BTrue : cleanb BTrue.
Proof. split; [reflexivity|]. split; [intros y v []|intros y []]. Qed.
Lemma clean_BFalse : cleanb BFalse.
Proof. split; [reflexivity|]. split; [intros y v []|intros y []]. Qed.
Lemma clean_BVV : forall w v, cleanv (BVV w v).
Proof. split; [reflexivity|]. split; [intros y u []|intros y []]. Qed.

#[local] Opaque cleanv cleanb.

Lemma transform1_ok : forall ks vs n kis i,
  Forall (itemok ks vs n) kis -> itemok ks vs n i -> itemok ks vs n (transform1 kis i).
Proof.
  intros ks vs n kis i F [Sz [[D1 [D2 D3]] [C1 [C2 C3]]]]. split.
  - apply transform1_sized; [|auto]. eapply Forall_impl; [|exact F]. intros a H. apply H.
  - unfold dep_item, clean. cbn [ik iv ip transform1]. clear Sz.
    induction F as [|ki kis [Sk [[E1 [E2 E3]] [G1 [G2 G3]]]] F IH]; cbn [map ite_cases ite_cases_b].
    + split; [split; [auto|split; auto]|split; [auto|split; auto]].
    + destruct IH as [[I1 [I2 I3]] [J1 [J2 J3]]]. split.
      * split; [auto|]. split; auto with depdb.
      * split; [auto|]. split; [apply clean_ite|apply clean_iteb]; auto using clean_eq.
Qed.

Lemma pure_known_ok : forall ks vs n ls base,
  Forall (fun L => Forall (itemok ks vs n) (litems L)) ls -> Forall (itemok ks vs n) base ->
  Forall (itemok ks vs n) (pure_known ls base).
Proof.
  intros ks vs n ls base F B. induction F as [|L rest FL F IH]; cbn [pure_known]; [auto|].
  apply Forall_app. split; [auto|]. apply Forall_forall. intros i Hin.
  apply in_map_iff in Hin as [j [<- Hin]]. apply filter_In in Hin as [Hin _].
  rewrite Forall_forall in IH. apply transform1_ok; auto.
Qed.

Lemma top_shape : forall r ls ls' q, Forall2 same_layer ls ls' -> top r ls q = top r ls' q.
Proof. intros r ls ls' q F. induction F as [|a b l l' [E _] F IH]; cbn [top]; [auto|]. rewrite E, IH. reflexivity. Qed.

Lemma val_eq : forall n i r1 r2, dep_item n i -> eqbelow n r1 r2 -> val r1 i = val r2 i.
Proof. intros n i r1 r2 [A [B C]] E. unfold val. rewrite (B r1 r2 E), (C r1 r2 E). reflexivity. Qed.
Lemma top_eq : forall ks vs n ls r1 r2 q, Forall (fun L => Forall (itemok ks vs n) (litems L)) ls ->
  eqbelow n r1 r2 -> top r1 ls q = top r2 ls q.
Proof.
  intros ks vs n ls r1 r2 q F E. induction F as [|L rest FL F IH]; cbn [top]; [auto|].
  assert (X : find (fun i => ev r1 (ik i) =? q) (litems L) = find (fun i => ev r2 (ik i) =? q) (litems L)).
  { induction FL as [|i l [S [[D1 [D2 D3]] C]] FL IHl]; cbn [find]; [auto|]. rewrite (D1 r1 r2 E), IHl. reflexivity. }
  rewrite X. destruct (find (fun i => ev r2 (ik i) =? q) (litems L)) as [i|] eqn:G; [|auto].
  apply find_some in G as [Hin _]. rewrite Forall_forall in FL. f_equal. eapply val_eq; [apply (FL i Hin)|auto].
Qed.

(** ** One map *)

Record msim (r : env) (n : N) (g : gmap) (c : cmap) (u : N) : Prop := {
  ms_ks : gks g = cks c;
  ms_vs : gvs g = cvs c;
  ms_lw : width (len_at g 0) = clw c;
  ms_single : single (glayers g);
  ms_coh : coherent (glayers g) (gitems g);
  ms_base : Forall (itemok (gks g) (gvs g) n) (gitems g);
  ms_lay : Forall (fun L => Forall (itemok (gks g) (gvs g) n) (litems L)) (glayers g);
  ms_len : dep n (len_at g 0);
  ms_unk : itemok (gks g) (gvs g) n (gunk g);
  ms_invs : Forall (fun inv => nolkb inv = true /\ kv_sized (gks g) (gvs g) inv = true /\ depb n inv) (ginvs g);
  ms_val : forall q, fst (ccont c q) < 2 ^ cvs c;
  ms_top : forall q v, top r (glayers g) q = Some v -> ccont c q = v;
  ms_bval : forall i, In i (gitems g) -> top r (glayers g) (ev r (ik i)) = None -> ccont c (ev r (ik i)) = val r i;
  ms_unt : top r (glayers g) u = None;
  ms_ukey : ev r (ik (gunk g)) = u;
  ms_uval : ccont c u = val r (gunk g);
  ms_inv : forall inv, In inv (ginvs g) -> forall q, q < 2 ^ gks g -> top r (glayers g) q = None ->
           eb (setKVP r q (ccont c q)) inv = true;
  ms_size : ev r (len_at g 0) = csize c;
  ms_card : card (cks c) (ccont c) (csize c);
  ms_seen : forall q, In q (cseen c) -> snd (ccont c q) = true ->
            q = u \/ exists i, In i (pure_known (glayers g) (gitems g)) /\ ev r (ik i) = q }.

Lemma msim_mono : forall r r' n n' g c u, eqbelow n r r' -> n <= n' -> msim r n g c u -> msim r' n' g c u.
Proof.
  intros r r' n n' g c u E L [A1 A2 A3 A4 A5 A6 A7 A8 A9 A10 B1 B2 B3 B4 B5 B6 B7 B8 B9 B10].
  assert (T : forall q, top r' (glayers g) q = top r (glayers g) q).
  { intros q. symmetry. eapply top_eq; eauto. }
  assert (Ek : forall i, itemok (gks g) (gvs g) n i -> ev r' (ik i) = ev r (ik i)).
  { intros i [_ [[D _] _]]. symmetry. auto. }
  assert (Ev : forall i, itemok (gks g) (gvs g) n i -> val r' i = val r i).
  { intros i [_ [D _]]. symmetry. eapply val_eq; eauto. }
  pose proof (pure_known_ok _ _ _ _ _ A7 A6) as PK. rewrite Forall_forall in PK.
  constructor; auto.
  - eapply Forall_impl; [|exact A6]. intros; eapply itemok_le; eauto.
  - eapply Forall_impl; [|exact A7]. intros a Ha. eapply Forall_impl; [|exact Ha]. intros; eapply itemok_le; eauto.
  - eapply dep_le; eauto.
  - eapply itemok_le; eauto.
  - eapply Forall_impl; [|exact A10]. intros a [? [? ?]]. repeat split; auto. eapply depb_le; eauto.
  - intros q v H. rewrite T in H. auto.
  - intros i Hin H. rewrite Forall_forall in A6. rewrite T, (Ek i (A6 i Hin)) in H. rewrite (Ek i (A6 i Hin)), (Ev i (A6 i Hin)). auto.
  - rewrite T. auto.
  - rewrite (Ek _ A9). auto.
  - rewrite (Ev _ A9). auto.
  - intros inv Hin q Hq H. rewrite T in H. rewrite Forall_forall in A10. destruct (A10 inv Hin) as [_ [_ D]].
    rewrite <- (B7 inv Hin q Hq H). apply D. apply eqbelow_sym. apply setKVP_eqbelow. auto.
  - rewrite <- B8. apply A8. apply eqbelow_sym. auto.
  - intros q Hq P. destruct (B10 q Hq P) as [|[i [Hi Ei]]]; [auto|]. right. exists i. split; [auto|].
    rewrite (Ek i (PK i Hi)). auto.
Qed.

(** Only caches differ. *)
Definition same_map (g g' : gmap) : Prop :=
  gks g = gks g' /\ gvs g = gvs g' /\ gitems g = gitems g' /\ ginvs g = ginvs g' /\ gunk g = gunk g' /\
  glen g = glen g' /\ Forall2 same_layer (glayers g) (glayers g').

Lemma same_len : forall g g', glen g = glen g' -> Forall2 same_layer (glayers g) (glayers g') -> len_at g 0 = len_at g' 0.
Proof.
  intros g g' E F. unfold len_at. cbn [skipn]. destruct F as [|a b l l' [_ S] F]; auto.
Qed.
Lemma single_shape : forall l l', Forall2 same_layer l l' -> single l -> single l'.
Proof.
  intros l l' F S. induction F as [|a b l l' [E1 E2] F IH]; [constructor|]. inversion S; subst.
  constructor; [rewrite <- E1; auto|auto]. apply IH; auto.
Qed.
Lemma layers_shape : forall (P : item -> Prop) l l', Forall2 same_layer l l' ->
  Forall (fun L => Forall P (litems L)) l -> Forall (fun L => Forall P (litems L)) l'.
Proof.
  intros P l l' F S. induction F as [|a b l l' [E1 E2] F IH]; [constructor|]. inversion S; subst.
  constructor; [rewrite <- E1; auto|auto].
Qed.

Lemma msim_same : forall r n g g' c u, same_map g g' -> coherent (glayers g') (gitems g') ->
  msim r n g c u -> msim r n g' c u.
Proof.
  intros r n g g' c u [E1 [E2 [E3 [E4 [E5 [E6 F]]]]]] Co [A1 A2 A3 A4 A5 A6 A7 A8 A9 A10 B1 B2 B3 B4 B5 B6 B7 B8 B9 B10].
  pose proof (same_len g g' E6 F) as EL.
  assert (T : forall q, top r (glayers g') q = top r (glayers g) q) by (intros; symmetry; apply top_shape; auto).
  constructor; rewrite <- ?E1, <- ?E2, <- ?E3, <- ?E4, <- ?E5, <- ?EL; auto.
  - eapply single_shape; eauto.
  - rewrite E3. auto.
  - eapply layers_shape; eauto.
  - intros q v H. rewrite T in H. auto.
  - intros i Hi H. rewrite T in H. auto.
  - rewrite T. auto.
  - intros inv Hin q Hq H. rewrite T in H. auto.
  - intros q Hq P. rewrite <- (pure_known_shape _ _ (gitems g) F). auto.
Qed.

Lemma known_items_spec : forall g, coherent (glayers g) (gitems g) ->
  exists g', known_items g 0 = (pure_known (glayers g) (gitems g), g') /\ same_map g g' /\
             coherent (glayers g') (gitems g').
Proof.
  intros g C. destruct (known_coherent _ _ C) as [ls' [E [S C']]].
  unfold known_items. cbn [skipn firstn app]. rewrite E. eexists. split; [reflexivity|].
  split; [|exact C']. repeat split; auto.
Qed.

(** Known items are right about the contents, and so is the unknown item. *)
Lemma known_right : forall r n g c u i, msim r n g c u ->
  In i (pure_known (glayers g) (gitems g) ++ [gunk g]) ->
  ccont c (ev r (ik i)) = val r i /\ itemok (gks g) (gvs g) n i.
Proof.
  intros r n g c u i M Hin. apply in_app_or in Hin as [Hin|[<-|[]]].
  - pose proof (pure_known_ok _ _ _ _ _ (ms_lay _ _ _ _ _ M) (ms_base _ _ _ _ _ M)) as PK.
    rewrite Forall_forall in PK. split; [|auto].
    assert (LS : layers_sized (gks g) (gvs g) (glayers g)).
    { eapply Forall_impl; [|apply (ms_lay _ _ _ _ _ M)]. intros a Ha. eapply Forall_impl; [|exact Ha]. intros b Hb. apply Hb. }
    assert (BS : Forall (sized (gks g) (gvs g)) (gitems g)).
    { eapply Forall_impl; [|apply (ms_base _ _ _ _ _ M)]. intros b Hb. apply Hb. }
    destruct (pure_known_val r _ _ _ _ i (ms_single _ _ _ _ _ M) LS BS Hin) as [T|[T [j [Hj [Ej Vj]]]]].
    + apply (ms_top _ _ _ _ _ M). auto.
    + rewrite <- Vj. rewrite <- Ej in *. apply (ms_bval _ _ _ _ _ M); auto.
  - split; [|apply (ms_unk _ _ _ _ _ M)]. rewrite (ms_ukey _ _ _ _ _ M). apply (ms_uval _ _ _ _ _ M).
Qed.

(** No more distinct present known keys than the size. *)
Lemma newkeys_le : forall r ks C n items seen,
  card ks C n -> (forall i, In i items -> width (ik i) = ks /\ snd (C (ev r (ik i))) = eb r (ip i)) ->
  N.of_nat (length (newkeys r seen items)) <= n.
Proof.
  intros r ks C n items seen [l [ND [Hl <-]]] H.
  assert (length (newkeys r seen items) <= length l)%nat; [|lia].
  apply NoDup_incl_length; [apply newkeys_NoDup|]. intros q Hq.
  apply newkeys_in in Hq as [_ [i [Hi [Ei Pi]]]]. apply Hl. destruct (H i Hi) as [W P].
  split; [rewrite <- Ei, <- W; apply evalv_lt|]. rewrite <- Ei, P. auto.
Qed.

(** ** All maps *)

Record sim (r : env) (st : gst) (cm : N -> option cmap) (uk : N -> N) : Prop := {
  sim_cs : holds r (gcs st);
  sim_dep : Forall (depb (gnext st)) (gcs st);
  sim_n : 2 <= gnext st;
  sim_maps : forall m, match gmaps st m, cm m with
                       | Some g, Some c => msim r (gnext st) g c (uk m)
                       | None, None => True
                       | _, _ => False
                       end }.

Lemma sim_get : forall r st cm uk m c, sim r st cm uk -> cm m = Some c ->
  exists g, gmaps st m = Some g /\ msim r (gnext st) g c (uk m).
Proof.
  intros r st cm uk m c S H. pose proof (sim_maps _ _ _ _ S m) as M. rewrite H in M.
  destruct (gmaps st m) as [g|]; [|destruct M]. eauto.
Qed.

(** Rebuild the simulation after one map, the constraints and the counter changed. *)
Lemma sim_build : forall r r' st st' cm uk m g' c',
  sim r st cm uk -> eqbelow (gnext st) r r' -> gnext st <= gnext st' ->
  holds r' (gcs st') -> Forall (depb (gnext st')) (gcs st') ->
  gmaps st' m = Some g' -> (forall x, x <> m -> gmaps st' x = gmaps st x) ->
  msim r' (gnext st') g' c' (uk m) ->
  sim r' st' (upd cm m (Some c')) uk.
Proof.
  intros r r' st st' cm uk m g' c' S E L H D G O M. constructor; auto.
  - pose proof (sim_n _ _ _ _ S). lia.
  - intros x. unfold upd. destruct (N.eqb_spec x m) as [->|NE].
    + rewrite G. auto.
    + rewrite (O x NE). pose proof (sim_maps _ _ _ _ S x) as P. destruct (gmaps st x), (cm x); auto.
      eapply msim_mono; eauto.
Qed.

Lemma Forall_depb_le : forall n m l, n <= m -> Forall (depb n) l -> Forall (depb m) l.
Proof. intros n m l L F. eapply Forall_impl; [|exact F]. intros a. apply depb_le. auto. Qed.

Definition saw (c : cmap) (q : N) : cmap := mkC (cks c) (cvs c) (clw c) (ccont c) (csize c) (q :: cseen c).

(** Accessing a key that is known (or absent) keeps the simulation. *)
Lemma msim_saw : forall r n g c u q, msim r n g c u ->
  (snd (ccont c q) = true -> q = u \/ exists i, In i (pure_known (glayers g) (gitems g)) /\ ev r (ik i) = q) ->
  msim r n g (saw c q) u.
Proof.
  intros r n g c u q [A1 A2 A3 A4 A5 A6 A7 A8 A9 A10 B1 B2 B3 B4 B5 B6 B7 B8 B9 B10] H.
  constructor; auto. intros x [<-|Hx] P; auto.
Qed.

(** Same map, one more item read. *)
Lemma msim_add_item : forall r n g c u it, msim r n g c u -> itemok (gks g) (gvs g) n it ->
  val r it = ccont c (ev r (ik it)) -> msim r n (add_item g it) (saw c (ev r (ik it))) u.
Proof.
  intros r n g c u it [A1 A2 A3 A4 A5 A6 A7 A8 A9 A10 B1 B2 B3 B4 B5 B6 B7 B8 B9 B10] I V.
  destruct (pure_known_app (glayers g) (gitems g) it) as [t Ht].
  constructor; cbn [add_item gks gvs gitems ginvs gunk glen glayers saw cks cvs clw ccont csize cseen]; auto.
  - apply coherent_app. auto.
  - apply Forall_app. auto.
  - intros i Hi T. apply in_app_or in Hi as [Hi|[<-|[]]]; auto.
  - rewrite Ht. intros q [<-|Hq] P.
    + right. destruct (known_base r (glayers g) (gitems g ++ [it]) it) as [j [Hj Ej]]; [apply in_or_app; right; left; auto|].
      rewrite Ht in Hj. exists j. auto.
    + destruct (B10 q Hq P) as [|[i [Hi Ei]]]; [auto|]. right. exists i. split; [apply in_or_app; auto|auto].
Qed.

Definition updvb (r : env) (x : N) (vp : N * bool) : env :=
  mkEnv (fun y => if y =? x then fst vp else ebv r y) (fun y => if y =? x then snd vp else ebool r y).
Lemma updvb_eqbelow : forall r x vp, eqbelow x r (updvb r x vp).
Proof. intros r x vp y L. cbn. destruct (N.eqb_spec y x); [lia|auto]. Qed.

Section SimOps.
Variable s : solver.
Variable k : claripy.
Hypothesis SOK : solver_ok s.
Hypothesis KOK : claripy_ok k.

Lemma overfull_sim : forall r n st m g c u,
  gmaps st m = Some g -> msim r n g c u ->
  exists g' e, is_not_overfull s k st m 0 = (set_map st m g', e) /\ same_map g g' /\
    coherent (glayers g') (gitems g') /\ eb r e = true /\ depb n e.
Proof.
  intros r n st m g c u G M.
  destruct (known_items_spec g (ms_coh _ _ _ _ _ M)) as [g' [E [Sm Co]]].
  unfold is_not_overfull. rewrite G, E.
  destruct (definitely_true s (gcs st) _).
  - exists g', BTrue. split; [reflexivity|]. split; [auto|]. split; [auto|]. split; [reflexivity|apply depb_BTrue].
  - exists g', (BUle (known_len k (width (len_at g 0)) [] (pure_known (glayers g) (gitems g)) (BVV (width (len_at g 0)) 0)) (len_at g 0)).
    split; [reflexivity|]. split; [auto|]. split; [auto|].
    pose proof (pure_known_ok _ _ _ _ _ (ms_lay _ _ _ _ _ M) (ms_base _ _ _ _ _ M)) as PK.
    split.
    + cbn [evalb]. apply N.leb_le. rewrite (known_len_ev k KOK) by reflexivity.
      rewrite (ms_size _ _ _ _ _ M). cbn [evalv]. rewrite wrap_0, N.add_0_l.
      assert (Q : N.of_nat (length (newkeys r (map (ev r) []) (pure_known (glayers g) (gitems g)))) <= csize c).
      { eapply newkeys_le; [apply (ms_card _ _ _ _ _ M)|]. intros i Hi.
        destruct (known_right r n g c u i M) as [V O]; [apply in_or_app; auto|]. rewrite V. split; [|reflexivity].
        rewrite <- (ms_ks _ _ _ _ _ M). apply O. }
      unfold wrap. etransitivity; [apply N.mod_le; auto|exact Q].
    + apply depb_BUle; [|apply (ms_len _ _ _ _ _ M)]. apply (known_len_dep k KOK); auto with depdb.
      eapply Forall_impl; [|exact PK]. intros a H. apply H.
Qed.

Lemma card_0 : forall ks C q, card ks C 0 -> q < 2 ^ ks -> snd (C q) = false.
Proof.
  intros ks C q [l [_ [H E]]] Hq. destruct l; [|cbn in E; lia].
  destruct (snd (C q)) eqn:X; [|auto]. exfalso. apply (H q). auto.
Qed.

Definition keyok (ks n : N) (e : bv) : Prop := width e = ks /\ dep n e /\ cleanv e.

Lemma get_sim : forall r st cm uk fuel m key st' v p c,
  sim r st cm uk -> cm m = Some c -> keyok (cks c) (gnext st) key ->
  get s k fuel st m key None BTrue None = Ok (st', (v, p)) ->
  exists r' g g', eqbelow (gnext st) r r' /\ gnext st <= gnext st' /\
    sim r' st' (upd cm m (Some (saw c (ev r key)))) uk /\
    (ev r' v, eb r' p) = ccont c (ev r key) /\
    width v = cvs c /\ dep (gnext st') v /\ depb (gnext st') p /\ cleanv v /\ cleanb p /\
    gmaps st m = Some g /\ gmaps st' m = Some g' /\
    (forall x, x <> m -> gmaps st' x = gmaps st x) /\
    Forall2 same_layer (glayers g) (glayers g') /\ gsz st' = gsz st.
Proof.
  intros r st cm uk fuel m key st' v p c S Hc [KW [KD KC]] H.
  destruct fuel as [|fuel]; [discriminate H|]. cbn [get] in H.
  destruct (sim_get _ _ _ _ _ _ S Hc) as [g [G M]]. rewrite G in H. cbn [skip_of] in H.
  pose proof (sim_n _ _ _ _ S) as N2.
  destruct (is_definitely_empty g 0) eqn:EE.
  - (* empty *)
    injection H as <- <- <-. unfold is_definitely_empty in EE. apply bv_eqb_eq in EE.
    assert (Z : csize c = 0). { rewrite <- (ms_size _ _ _ _ _ M), EE. cbn [evalv]. apply wrap_0. }
    assert (A : snd (ccont c (ev r key)) = false).
    { apply (card_0 (cks c)); [rewrite <- Z; apply (ms_card _ _ _ _ _ M)|]. rewrite <- KW. apply evalv_lt. }
    exists (updvb r (gnext st) (ccont c (ev r key))), g, g.
    pose proof (updvb_eqbelow r (gnext st) (ccont c (ev r key))) as E.
    repeat apply conj; auto.
    + cbn. lia.
    + eapply sim_build; [exact S|exact E| | | |exact G| |].
      * cbn. lia.
      * cbn. eapply holds_dep; [apply (sim_dep _ _ _ _ S)|exact E|apply (sim_cs _ _ _ _ S)].
      * cbn. eapply Forall_depb_le; [|apply (sim_dep _ _ _ _ S)]. lia.
      * auto.
      * cbn. apply msim_saw; [eapply msim_mono; [exact E| |exact M]; lia|]. rewrite A. discriminate.
    + cbn [evalv evalb updvb ebv]. rewrite N.eqb_refl. rewrite wrap_small.
      * rewrite <- A. destruct (ccont c (ev r key)); reflexivity.
      * rewrite (ms_vs _ _ _ _ _ M). apply (ms_val _ _ _ _ _ M).
    + cbn. apply (ms_vs _ _ _ _ _ M).
    + cbn. apply dep_BVS. lia.
    + apply depb_BFalse.
    + apply clean_BVS. auto.
    + apply clean_BFalse.
    + clear. induction (glayers g); constructor; [split; reflexivity|auto].
  - destruct (negb (width key =? gks g)) eqn:WK; [discriminate H|].
    destruct (known_items_spec g (ms_coh _ _ _ _ _ M)) as [g1 [E1 [Sm Co]]]. rewrite E1 in H.
    pose proof (msim_same _ _ _ _ _ _ Sm Co M) as M1.
    set (known := pure_known (glayers g) (gitems g)) in *.
    change (gcs (set_map st m g1)) with (gcs st) in H.
    change (gnext (set_map st m g1)) with (gnext st) in H.
    destruct (get_exact_match s (gcs st) key (known ++ [gunk g]) BTrue ik) as [i|] eqn:GE.
    + (* a known item *)
      injection H as <- <- <-.
      destruct (get_exact_match_sound s SOK _ _ _ _ _ _ _ GE) as [Hin Eq].
      specialize (Eq r (sim_cs _ _ _ _ S) eq_refl).
      destruct (known_right r _ g c _ i M Hin) as [V [Sz [D C]]].
      exists r, g, g1. repeat apply conj; try apply C; try apply D; try apply Sm; auto using eqbelow_refl.
      * cbn. lia.
      * eapply sim_build with (g' := g1); [exact S|apply eqbelow_refl| | | | | |].
        -- cbn. lia.
        -- apply (sim_cs _ _ _ _ S).
        -- apply (sim_dep _ _ _ _ S).
        -- apply set_map_same.
        -- intros. apply set_map_other. auto.
        -- cbn. apply msim_saw; [auto|]. intros _. apply in_app_or in Hin as [Hin|[<-|[]]].
           ++ right. exists i. destruct Sm as [_ [_ [S3 [_ [_ [_ S7]]]]]].
              rewrite <- (pure_known_shape _ _ _ S7), <- S3. auto.
           ++ left. rewrite Eq. apply (ms_ukey _ _ _ _ _ M).
      * rewrite Eq, V. reflexivity.
      * rewrite <- (ms_vs _ _ _ _ _ M). apply Sz.
      * apply set_map_same.
      * intros. apply set_map_other. auto.
    + (* a new item *)
      set (n := gnext st) in *.
      set (it := mkItem key (BVS (gvs g) n) (BoolS n)) in *.
      set (st3 := set_map (add_cs (bump (set_map st m g1) 1) []) m (add_item g1 it)) in *.
      assert (PL : inv_calls (fun st' inv => emb (get s k fuel) (item_subst (gks g) (gvs g) it) (BAnd (BoolS n) BTrue) st' inv)
                    st3 (ginvs g) = Ok (st3, map (substb (item_subst (gks g) (gvs g) it)) (ginvs g))).
      { apply inv_calls_plain. intros inv Hin st0. apply emb_plain.
        pose proof (ms_invs _ _ _ _ _ M) as FI. rewrite Forall_forall in FI. apply (FI inv Hin). }
      rewrite PL in H. cbn [bindr] in H.
      set (r' := updvb r n (ccont c (ev r key))).
      pose proof (updvb_eqbelow r n (ccont c (ev r key))) as EB. fold r' in EB.
      assert (EK : ev r' key = ev r key) by (symmetry; apply KD; auto).
      assert (M1' : msim r' (n + 1) g1 c (uk m)) by (eapply msim_mono; [exact EB| |exact M1]; lia).
      assert (EG : gks g1 = gks g /\ gvs g1 = gvs g).
      { destruct Sm as [-> [-> _]]. auto. } destruct EG as [EG1 EG2].
      assert (IT : itemok (gks g1) (gvs g1) (n + 1) it).
      { split; [|split].
        - split; cbn; [rewrite EG1; rewrite (ms_ks _ _ _ _ _ M); auto|auto].
        - split; [eapply dep_le; [|exact KD]; lia|]. split; [apply dep_BVS; lia|apply depb_BoolS; lia].
        - split; [exact KC|]. split.
          + apply clean_BVS. auto.
          + apply clean_BoolS. cbn [ip it]. lia. }
      assert (VI : val r' it = ccont c (ev r key)).
      { unfold val, it, r'. cbn [iv ip evalv evalb updvb ebv ebool]. rewrite N.eqb_refl. rewrite wrap_small.
        - destruct (ccont c (ev r key)); reflexivity.
        - rewrite (ms_vs _ _ _ _ _ M). apply (ms_val _ _ _ _ _ M). }
      assert (M2 : msim r' (n + 1) (add_item g1 it) (saw c (ev r key)) (uk m)).
      { rewrite <- EK. change key with (ik it) at 1. apply msim_add_item; auto. cbn [ik it]. rewrite EK. auto. }
      assert (G3 : gmaps st3 m = Some (add_item g1 it)) by apply set_map_same.
      destruct (overfull_sim r' (n + 1) st3 m _ _ _ G3 M2) as [g2 [fits [OE [Sm2 [Co2 [FT FD]]]]]].
      rewrite OE in H. injection H as <- <- <-.
      pose proof (msim_same _ _ _ _ _ _ Sm2 Co2 M2) as M3.
      set (same := map _ _). set (invs := map (BImp _) _).
      assert (KR : forall i, In i (known ++ [gunk g]) -> ccont c (ev r' (ik i)) = val r' i /\ itemok (gks g) (gvs g) (n + 1) i).
      { intros i Hi. apply (known_right r' (n + 1) g c (uk m) i); [eapply msim_mono; [exact EB| |exact M]; lia|auto]. }
      assert (HS : holds r' (same ++ invs ++ [fits]) /\ Forall (depb (n + 1)) (same ++ invs ++ [fits])).
      { rewrite !holds_app, !Forall_app.
        assert (SA : forall i, In i ((match glayers g with [] => known ++ [it] | _ :: _ => known end) ++ [gunk g]) ->
                     ccont c (ev r' (ik i)) = val r' i /\ itemok (gks g) (gvs g) (n + 1) i).
        { intros i Hi. apply in_app_or in Hi as [Hi|Hi].
          - assert (X : In i known \/ i = it).
            { destruct (glayers g); [apply in_app_or in Hi as [?|[<-|[]]]|]; auto. }
            destruct X as [X| ->]; [apply KR, in_or_app; auto|]. split.
            + change (ik it) with key. rewrite EK. auto.
            + rewrite <- EG1, <- EG2. exact IT.
          - apply KR, in_or_app. auto. }
        split; split.
        - intros cc Hin. apply in_map_iff in Hin as [i [<- Hi]]. apply BImp_true. intros Q. apply BEq_true in Q.
          destruct (SA i Hi) as [V _]. rewrite <- Q, EK in V. rewrite <- VI in V. unfold val in V.
          injection V as V1 V2. cbn [evalb]. rewrite andb_true_iff. split; [apply N.eqb_eq|apply eqb_true_iff]; auto.
        - split.
          + intros cc Hin. apply in_map_iff in Hin as [e [<- He]]. apply in_map_iff in He as [inv [<- Hi]].
            apply BImp_true. intros Q. rewrite BAndL_true in Q.
            pose proof (ms_invs _ _ _ _ _ M) as FI. rewrite Forall_forall in FI. destruct (FI inv Hi) as [F1 [F2 F3]].
            rewrite inv_subst_eval; [|auto|rewrite <- EG1; apply IT|rewrite <- EG2; apply IT].
            rewrite VI. cbn [ik it]. rewrite EK.
            assert (M' : msim r' (n + 1) g c (uk m)) by (eapply msim_mono; [exact EB| |exact M]; lia).
            apply (ms_inv _ _ _ _ _ M' inv Hi).
            * rewrite (ms_ks _ _ _ _ _ M), <- KW. apply evalv_lt.
            * destruct (top r' (glayers g) (ev r key)) eqn:T; [|auto]. exfalso.
              destruct (known_top r' (glayers g) (gitems g) (ev r key)) as [i [Hi' Ei]]; [congruence|].
              assert (BN : eb r' (BNe key (ik i)) = true).
              { apply Q. apply in_map_iff. exists i. split; auto. }
              apply BNe_true in BN. congruence.
          + intros cc [<-|[]]. auto.
        - apply Forall_forall. intros cc Hin. apply in_map_iff in Hin as [i [<- Hi]].
          destruct (SA i Hi) as [_ [_ [[D1 [D2 D3]] _]]].
          pose proof (dep_le n (n + 1) key ltac:(lia) KD). apply depb_BImp; [auto with depdb|].
          apply depb_BAnd; [apply depb_BEq; [apply dep_BVS; lia|auto]|apply depb_BIff; [apply depb_BoolS; lia|auto]].
        - split.
          + apply Forall_forall. intros cc Hin. apply in_map_iff in Hin as [e [<- He]]. apply in_map_iff in He as [inv [<- Hi]].
            pose proof (ms_invs _ _ _ _ _ M) as FI. rewrite Forall_forall in FI. destruct (FI inv Hi) as [F1 [F2 F3]].
            pose proof (dep_le n (n + 1) key ltac:(lia) KD).
            apply depb_BImp.
            * apply depb_BAndL. apply Forall_forall. intros d Hd. apply in_map_iff in Hd as [i [<- Hi']].
              destruct (KR i) as [_ [_ [[D1 _] _]]]; [apply in_or_app; auto|]. auto with depdb.
            * intros r1 r2 E12. rewrite !inv_subst_eval; [|auto|rewrite <- EG1; apply IT|rewrite <- EG2; apply IT|auto|rewrite <- EG1; apply IT|rewrite <- EG2; apply IT].
              destruct IT as [_ [DI _]]. rewrite (val_eq _ _ _ _ DI E12). rewrite (proj1 DI r1 r2 E12).
              apply F3. eapply eqbelow_le; [|apply setKVP_eqbelow; exact E12]. unfold n. lia.
          + auto. }
      destruct HS as [HS1 HS2].
      assert (GN : gnext (add_cs (set_map st3 m g2) (same ++ invs ++ [fits])) = n + 1) by reflexivity.
      exists r', g, g2. repeat apply conj; auto.
      * rewrite GN. lia.
      * eapply sim_build with (g' := g2); [exact S|exact EB| | | | | |].
        -- rewrite GN. unfold n. lia.
        -- cbn [add_cs gcs set_map st3 bump]. rewrite app_nil_r. apply holds_app. split; [|exact HS1].
           eapply holds_dep; [apply (sim_dep _ _ _ _ S)|exact EB|apply (sim_cs _ _ _ _ S)].
        -- rewrite GN. cbn [add_cs gcs set_map st3 bump]. rewrite app_nil_r. apply Forall_app. split; [|exact HS2].
           eapply Forall_depb_le; [|apply (sim_dep _ _ _ _ S)]. unfold n. lia.
        -- cbn. rewrite N.eqb_refl. reflexivity.
        -- intros x NE. cbn. destruct (N.eqb_spec x m); [congruence|reflexivity].
        -- rewrite GN. exact M3.
      * cbn [width]. apply (ms_vs _ _ _ _ _ M).
      * rewrite GN. apply dep_BVS. lia.
      * rewrite GN. apply depb_BoolS. lia.
      * apply clean_BVS. auto.
      * apply clean_BoolS. lia.
      * cbn. rewrite N.eqb_refl. reflexivity.
      * intros x NE. cbn. destruct (N.eqb_spec x m); [congruence|reflexivity].
      * destruct Sm as [_ [_ [_ [_ [_ [_ S7]]]]]]. destruct Sm2 as [_ [_ [_ [_ [_ [_ S8]]]]]]. cbn [add_item glayers] in S8.
        clear -S7 S8. revert S8. generalize (glayers g2). induction S7 as [|a b l l' [A1 A2] F IH]; intros l2 F2.
        -- inversion F2; constructor.
        -- inversion F2 as [|? d ? l3 [B1 B2] F3]; subst. constructor; [split; congruence|auto].
Qed.

End SimOps.
