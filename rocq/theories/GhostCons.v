(** * Every consistent assignment reads a run as a real map *)

From Coq Require Import NArith List Bool Lia Arith.
From Verif Require Import Expr Solver KMerge Wt GhostMap GhostSpec GhostFacts GhostSim GhostHist GhostTrace.
Import ListNotations.
Open Scope N_scope.

(** ** What is known of the original contents, under one assignment *)

Notation kn := (list (N * (N * bool))).

Definition klook (K : kn) (q : N) : N * bool :=
  match find (fun e => fst e =? q) K with Some e => snd e | None => (0, false) end.
Definition cont (r : env) (C0 : N -> N * bool) (ls : list layer) (q : N) : N * bool :=
  match top r ls q with Some v => v | None => C0 q end.
Definition cnt (K : kn) (C : N -> N * bool) : nat := length (filter (fun e => snd (C (fst e))) K).
(** Same presence, and the same value if present. *)
Definition obs (a b : N * bool) : Prop := snd a = snd b /\ (snd b = true -> fst a = fst b).
Definition based (r : env) (g : gmap) (q : N) : Prop := exists i, In i (gitems g) /\ ev r (ik i) = q.

Lemma obs_refl : forall a, obs a a.
Proof. split; auto. Qed.
Lemma obs_trans : forall a b c, obs a b -> obs b c -> obs a c.
Proof. intros a b c [A1 A2] [B1 B2]. split; [congruence|]. intros H. rewrite A2, B2; congruence. Qed.

Lemma klook_in : forall K q vp, NoDup (map fst K) -> In (q, vp) K -> klook K q = vp.
Proof.
  intros K q vp. unfold klook. induction K as [|[q' vp'] K IH]; cbn; intros ND Hin; [destruct Hin|].
  inversion ND as [|? ? NI ND']; subst. destruct Hin as [E|Hin].
  - injection E as -> ->. rewrite N.eqb_refl. reflexivity.
  - destruct (N.eqb_spec q' q) as [->|].
    + exfalso. apply NI. change q with (fst (q, vp)). apply in_map. auto.
    + apply IH; auto.
Qed.
Lemma klook_dom : forall K q, In q (map fst K) -> In (q, klook K q) K.
Proof.
  intros K q. unfold klook. induction K as [|[q' vp'] K IH]; cbn; intros Hin; [destruct Hin|].
  destruct (N.eqb_spec q' q) as [->|NE]; [left; reflexivity|]. destruct Hin as [E|Hin]; [contradiction|]. right. auto.
Qed.
Lemma klook_out : forall K q, ~ In q (map fst K) -> klook K q = (0, false).
Proof.
  intros K q. unfold klook. induction K as [|[q' vp'] K IH]; cbn; intros H; [reflexivity|].
  destruct (N.eqb_spec q' q) as [->|NE]; [exfalso; auto|]. apply IH. auto.
Qed.
Lemma klook_app : forall K l q, In q (map fst K) -> klook (K ++ l) q = klook K q.
Proof.
  intros K l q. unfold klook. induction K as [|[q' vp'] K IH]; cbn; intros Hin; [destruct Hin|].
  destruct (N.eqb_spec q' q) as [->|NE]; [reflexivity|]. destruct Hin as [E|Hin]; [contradiction|]. auto.
Qed.
Lemma klook_app_out : forall K l q, ~ In q (map fst K) -> klook (K ++ l) q = klook l q.
Proof.
  intros K l q. unfold klook. induction K as [|[q' vp'] K IH]; cbn; intros H; [reflexivity|].
  destruct (N.eqb_spec q' q) as [->|NE]; [exfalso; auto|]. apply IH. auto.
Qed.

Lemma cnt_ext : forall K C C', (forall q, In q (map fst K) -> snd (C q) = snd (C' q)) -> cnt K C = cnt K C'.
Proof.
  intros K C C' H. unfold cnt. f_equal. apply filter_ext_in. intros [q vp] Hin. cbn. apply H.
  change q with (fst (q, vp)). apply in_map. auto.
Qed.
Lemma cnt_app : forall K l C, cnt (K ++ l) C = (cnt K C + cnt l C)%nat.
Proof. intros. unfold cnt. rewrite filter_app, app_length. reflexivity. Qed.
Lemma cnt_upd : forall K C q v b, NoDup (map fst K) -> In q (map fst K) ->
  (cnt K (upd C q (v, b)) + (if snd (C q) then 1 else 0) = cnt K C + (if b then 1 else 0))%nat.
Proof.
  intros K C q v b. induction K as [|[q' vp'] K IH]; cbn [map In]; intros ND Hin; [destruct Hin|].
  inversion ND as [|? ? NI ND']; subst. unfold cnt. cbn [filter fst].
  destruct (N.eq_dec q' q) as [->|NE].
  - assert (E : cnt K (upd C q (v, b)) = cnt K C).
    { apply cnt_ext. intros x Hx. unfold upd. destruct (N.eqb_spec x q) as [->|]; [contradiction|reflexivity]. }
    unfold cnt in E. replace (snd (upd C q (v, b) q)) with b by (unfold upd; rewrite N.eqb_refl; reflexivity).
    destruct b, (snd (C q)); cbn [length]; rewrite E; lia.
  - destruct Hin as [?|Hin]; [contradiction|]. specialize (IH ND' Hin). unfold cnt in IH.
    replace (snd (upd C q (v, b) q')) with (snd (C q')) by (unfold upd; destruct (N.eqb_spec q' q); [contradiction|reflexivity]).
    destruct (snd (C q')); cbn [length]; lia.
Qed.
Lemma cnt_pos : forall K C q, In q (map fst K) -> snd (C q) = true -> (1 <= cnt K C)%nat.
Proof.
  intros K C q Hin P. apply in_map_iff in Hin as [[q' vp] [E Hin]]. cbn in E. subst q'.
  assert (X : In (q, vp) (filter (fun e => snd (C (fst e))) K)) by (apply filter_In; auto).
  unfold cnt. destruct (filter (fun e => snd (C (fst e))) K); [destruct X|cbn; lia].
Qed.

Lemma nodup_snoc : forall (l : list N) a, NoDup l -> ~ In a l -> NoDup (l ++ [a]).
Proof.
  intros l a ND NI. induction l as [|b l IH]; cbn; [constructor; [intros []|constructor]|].
  inversion ND as [|? ? N1 N2]; subst. constructor.
  - intros Hin. apply in_app_or in Hin as [|[->|[]]]; [auto|]. apply NI. left. auto.
  - apply IH; [auto|]. intros Hin. apply NI. right. auto.
Qed.

Record minv (r : env) (K : kn) (x : bool) (g : gmap) : Prop := {
  mi_single : single (glayers g);
  mi_coh : coherent (glayers g) (gitems g);
  mi_lsz : layers_sized (gks g) (gvs g) (glayers g);
  mi_bsz : Forall (sized (gks g) (gvs g)) (gitems g);
  mi_usz : sized (gks g) (gvs g) (gunk g);
  mi_invs : Forall (pred_ok (gks g) (gvs g)) (ginvs g);
  mi_lw : width (len_at g 0) = width (glen g);
  mi_nd : NoDup (map fst K);
  mi_base : forall i, In i (gitems g) -> exists vp, In (ev r (ik i), vp) K /\
            (top r (glayers g) (ev r (ik i)) = None -> obs (val r i) vp);
  mi_top : forall q, top r (glayers g) q <> None -> In q (map fst K);
  mi_unb : forall q vp, In (q, vp) K -> based r g q \/ (snd vp = false /\ x = true);
  mi_exact : x = true -> N.of_nat (cnt K (cont r (klook K) (glayers g))) = ev r (len_at g 0);
  mi_full : N.of_nat (cnt K (cont r (klook K) (glayers g))) <= ev r (len_at g 0);
  mi_inv0 : glayers g = [] -> forall inv, In inv (ginvs g) -> forall i, In i (gitems g) ->
            eb (setKVP r (ev r (ik i)) (val r i)) inv = true }.

(** Known items agree with the contents. *)
Lemma known_obs : forall r K x g i, minv r K x g -> In i (pure_known (glayers g) (gitems g)) ->
  In (ev r (ik i)) (map fst K) /\ obs (val r i) (cont r (klook K) (glayers g) (ev r (ik i))).
Proof.
  intros r K x g i M Hin. unfold cont.
  destruct (pure_known_val r _ _ _ _ i (mi_single _ _ _ _ M) (mi_lsz _ _ _ _ M) (mi_bsz _ _ _ _ M) Hin) as [T|[T [j [Hj [Ej Vj]]]]].
  - rewrite T. split; [apply (mi_top _ _ _ _ M); congruence|apply obs_refl].
  - rewrite T. destruct (mi_base _ _ _ _ M j Hj) as [vp [HK HO]]. rewrite Ej in *. split.
    + change (ev r (ik i)) with (fst (ev r (ik i), vp)). apply in_map. auto.
    + rewrite (klook_in _ _ _ (mi_nd _ _ _ _ M) HK). rewrite <- Vj. auto.
Qed.

Lemma newkeys_complete : forall r P items seen, (forall i, In i items -> eb r (ip i) = P (ev r (ik i))) ->
  forall i, In i items -> P (ev r (ik i)) = true -> ~ In (ev r (ik i)) seen -> In (ev r (ik i)) (newkeys r seen items).
Proof.
  intros r P. induction items as [|j items IH]; intros seen H i Hin Pi NS; [destruct Hin|]. cbn [newkeys].
  assert (X : existsb (N.eqb (ev r (ik i))) seen = false).
  { destruct (existsb (N.eqb (ev r (ik i))) seen) eqn:E; [|auto]. apply existsb_exists in E as [y [Hy Ey]].
    apply N.eqb_eq in Ey. subst y. contradiction. }
  destruct (N.eq_dec (ev r (ik j)) (ev r (ik i))) as [E|NE].
  - rewrite E, X. cbn [negb andb]. rewrite (H j (or_introl eq_refl)), E, Pi. left. auto.
  - destruct Hin as [->|Hin]; [contradiction|].
    assert (R : In (ev r (ik i)) (newkeys r (seen ++ [ev r (ik j)]) items)).
    { apply IH; auto. intros k0 Hk. apply H. right. auto. intros Hs. apply in_app_or in Hs as [?|[?|[]]]; auto. }
    destruct (negb _ && _); [right|]; auto.
Qed.
Lemma newkeys_len : forall r items seen, (length (newkeys r seen items) <= length items)%nat.
Proof.
  intros r. induction items as [|j items IH]; intros seen; cbn [newkeys length]; [lia|].
  specialize (IH (seen ++ [ev r (ik j)])). destruct (negb _ && _); cbn [length]; lia.
Qed.
Lemma pure_known_len : forall ls base, single ls -> (length (pure_known ls base) <= length base + length ls)%nat.
Proof.
  induction ls as [|L rest IH]; intros base S; cbn [pure_known length]; [lia|]. inversion S as [|? ? S1 S2]; subst.
  rewrite app_length. unfold transform_previous. rewrite map_length.
  assert (F : forall l, (length (filter (not_own (litems L)) l) <= length l)%nat).
  { induction l as [|y l IHl]; cbn; [lia|]. destruct (not_own (litems L) y); cbn; lia. }
  specialize (F (pure_known rest base)). specialize (IH base S2). lia.
Qed.

(** The number of entries present under the contents, through the known items. *)
Lemma cnt_newkeys : forall r (C : N -> N * bool) K known,
  NoDup (map fst K) ->
  (forall i, In i known -> eb r (ip i) = snd (C (ev r (ik i)))) ->
  (forall q, In q (map fst K) -> snd (C q) = true -> exists i, In i known /\ ev r (ik i) = q) ->
  (cnt K C <= length (newkeys r [] known))%nat.
Proof.
  intros r C K known ND HV HK. unfold cnt.
  rewrite <- (map_length fst). apply NoDup_incl_length.
  - clear -ND. induction K as [|[q vp] K IH]; cbn; [constructor|]. inversion ND as [|? ? NI ND']; subst.
    destruct (snd (C q)); cbn; [|auto]. constructor; [|auto]. intros Hin. apply NI.
    apply in_map_iff in Hin as [e [E Hin]]. apply filter_In in Hin as [Hin _]. rewrite <- E. apply in_map. auto.
  - intros q Hq. apply in_map_iff in Hq as [[q' vp] [E Hin]]. cbn in E. subst q'. apply filter_In in Hin as [Hin P].
    cbn in P. destruct (HK q) as [i [Hi Ei]]; [change q with (fst (q, vp)); apply in_map; auto|auto|].
    rewrite <- Ei. apply (newkeys_complete r (fun q => snd (C q))); auto. congruence.
Qed.

Section Cons.
Variable s : solver.
Variable k : claripy.
Hypothesis SOK : solver_ok s.
Hypothesis KOK : claripy_ok k.

Lemma overfull_fact : forall r st m g, gmaps st m = Some g -> coherent (glayers g) (gitems g) -> single (glayers g) ->
  N.of_nat (length (gitems g) + length (glayers g)) < 2 ^ width (len_at g 0) ->
  exists g' e, is_not_overfull s k st m 0 = (set_map st m g', e) /\ same_map g g' /\
    coherent (glayers g') (gitems g') /\
    (holds r (gcs st) -> eb r e = true ->
     N.of_nat (length (newkeys r [] (pure_known (glayers g) (gitems g)))) <= ev r (len_at g 0)).
Proof.
  intros r st m g G Co Sg SM.
  destruct (known_items_spec g Co) as [g' [E [Sm Co']]].
  pose proof (pure_known_len (glayers g) (gitems g) Sg) as PL.
  pose proof (newkeys_len r (pure_known (glayers g) (gitems g)) []) as NL.
  unfold is_not_overfull. rewrite G, E. destruct (definitely_true s (gcs st) _) eqn:D.
  - exists g', BTrue. split; [reflexivity|]. split; [auto|]. split; [auto|]. intros Hr _.
    rewrite (definitely_true_spec s SOK) in D. specialize (D r Hr). cbn [evalb evalv] in D. apply N.leb_le in D.
    rewrite wrap_small in D by lia. lia.
  - eexists g', _. split; [reflexivity|]. split; [auto|]. split; [auto|]. intros _ L.
    cbn [evalb] in L. apply N.leb_le in L. rewrite (known_len_ev k KOK) in L by reflexivity.
    cbn [evalv map] in L. rewrite wrap_0, N.add_0_l in L. rewrite wrap_small in L by lia. auto.
Qed.

(** ** The cases of a read *)

Lemma get_cases : forall fuel st m g key st' v p,
  gmaps st m = Some g -> coherent (glayers g) (gitems g) -> single (glayers g) ->
  Forall (pred_ok (gks g) (gvs g)) (ginvs g) ->
  get s k fuel st m key None BTrue None = Ok (st', (v, p)) ->
  (is_definitely_empty g 0 = true /\ st' = bump st 1 /\ p = BFalse) \/
  (is_definitely_empty g 0 = false /\ width key = gks g /\ exists g1 i,
     same_map g g1 /\ coherent (glayers g1) (gitems g1) /\
     get_exact_match s (gcs st) key (pure_known (glayers g) (gitems g) ++ [gunk g]) BTrue ik = Some i /\
     st' = set_map st m g1 /\ v = iv i /\ p = ip i) \/
  (is_definitely_empty g 0 = false /\ width key = gks g /\ exists g1 g2 fits st0,
     let it := mkItem key v p in
     let known := pure_known (glayers g) (gitems g) in
     width v = gvs g /\ same_map g g1 /\
     gmaps st0 m = Some (add_item g1 it) /\ is_not_overfull s k st0 m 0 = (set_map st0 m g2, fits) /\
     gcs st0 = gcs st /\ (forall y, y <> m -> gmaps st0 y = gmaps st y) /\ gsz st0 = gsz st /\
     coherent (glayers (add_item g1 it)) (gitems (add_item g1 it)) /\
     exists same, st' = add_cs (set_map st0 m g2)
        (same ++ map (BImp (BAndL (map (fun i => BNe key (ik i)) known)))
                     (map (substb (item_subst (gks g) (gvs g) it)) (ginvs g)) ++ [fits]) /\
     forall i, In i (known ++ [gunk g]) -> In (BImp (BEq key (ik i)) (BAnd (BEq v (iv i)) (BIff p (ip i)))) same).
Proof.
  intros fuel st m g key st' v p G Co Sg IV H.
  destruct fuel as [|fuel]; [discriminate H|]. cbn [get] in H. rewrite G in H. cbn [skip_of] in H.
  destruct (is_definitely_empty g 0) eqn:EE.
  - injection H as <- <- <-. left. auto.
  - right. destruct (N.eqb_spec (width key) (gks g)) as [W|]; [|discriminate H]. cbn [negb] in H.
    destruct (known_items_spec g Co) as [g1 [E1 [Sm Co1]]]. rewrite E1 in H.
    set (known := pure_known (glayers g) (gitems g)) in *.
    change (gcs (set_map st m g1)) with (gcs st) in H.
    change (gnext (set_map st m g1)) with (gnext st) in H.
    destruct (get_exact_match s (gcs st) key (known ++ [gunk g]) BTrue ik) as [i|] eqn:GE.
    + injection H as <- <- <-. left. split; [auto|]. split; [auto|]. exists g1, i. split; [exact Sm|]. auto.
    + right. split; [auto|]. split; [auto|]. set (n := gnext st) in *.
      set (it := mkItem key (BVS (gvs g) n) (BoolS n)) in *.
      set (st3 := set_map (add_cs (bump (set_map st m g1) 1) []) m (add_item g1 it)) in *.
      rewrite (inv_calls_plain _ (substb (item_subst (gks g) (gvs g) it))) in H.
      2:{ intros inv Hin st0. apply emb_plain. rewrite Forall_forall in IV. apply (IV inv Hin). }
      cbn [bindr] in H.
      destruct (is_not_overfull s k st3 m 0) as [st5 fits] eqn:OE.
      injection H as <- <- <-.
      assert (X : exists g2, st5 = set_map st3 m g2).
      { unfold is_not_overfull in OE. unfold st3 in OE at 1. rewrite set_map_same in OE.
        destruct (known_items (add_item g1 it) 0) as [kk g2]. destruct (definitely_true s _ _); injection OE as <- <-; eauto. }
      destruct X as [g2 ->].
      exists g1, g2, fits, st3. cbv zeta. split; [reflexivity|]. split; [auto|]. split; [apply set_map_same|].
      split; [exact OE|]. split; [cbn; apply app_nil_r|].
      split; [intros y NE; cbn; destruct (N.eqb_spec y m); [contradiction|reflexivity]|]. split; [reflexivity|].
      split; [cbn [add_item glayers gitems]; apply coherent_app; auto|].
      eexists. split; [reflexivity|]. intros i Hi. apply in_map_iff. exists i. split; [reflexivity|].
      apply in_app_or in Hi as [Hi|Hi]; apply in_or_app; [left|auto].
      cbn [skipn]. destruct (glayers g); [apply in_or_app; auto|auto].
Qed.

(** Growth of what is known. *)
Definition kext (K : kn) (x : bool) (K' : kn) (x' : bool) : Prop :=
  exists l, K' = K ++ l /\ (x = true -> x' = true /\ Forall (fun e => snd (snd e) = false) l).
Lemma kext_refl : forall K x, kext K x K x.
Proof. intros. exists []. rewrite app_nil_r. split; auto. Qed.
Lemma kext_trans : forall K x K1 x1 K2 x2, kext K x K1 x1 -> kext K1 x1 K2 x2 -> kext K x K2 x2.
Proof.
  intros K x K1 x1 K2 x2 [l [-> H]] [l' [-> H']]. exists (l ++ l'). split; [rewrite app_assoc; auto|].
  intros X. destruct (H X) as [X1 F]. destruct (H' X1) as [X2 F']. split; [auto|]. apply Forall_app. auto.
Qed.

Definition bottom (n : nat) (ls : list layer) : list layer := skipn (length ls - n) ls.
Definition covers (r : env) (K : kn) (ls : list layer) (inv : bexp) (n : nat) : Prop :=
  forall q vp, In (q, vp) K -> snd vp = true -> top r (bottom n ls) q = None -> eb (setKVP r q vp) inv = true.

Lemma bottom_same : forall r n ls ls' q, Forall2 same_layer ls ls' -> top r (bottom n ls) q = top r (bottom n ls') q.
Proof.
  intros r n ls ls' q F. apply top_shape. unfold bottom.
  assert (E : length ls = length ls') by (clear -F; induction F; cbn; auto). rewrite <- E.
  generalize (length ls - n)%nat as d. clear E. induction F as [|a b l l' S F IH]; intros [|d]; cbn; try constructor; auto.
Qed.
Lemma bottom_cons : forall n L ls, (n <= length ls)%nat -> bottom n (L :: ls) = bottom n ls.
Proof. intros n L ls H. unfold bottom. cbn [length]. replace (S (length ls) - n)%nat with (S (length ls - n)) by lia. reflexivity. Qed.
Lemma bottom_all : forall ls, bottom (length ls) ls = ls.
Proof. intros. unfold bottom. rewrite Nat.sub_diag. reflexivity. Qed.
Lemma top_bottom : forall r n ls q, top r ls q = None -> top r (bottom n ls) q = None.
Proof.
  intros r n ls q. unfold bottom. generalize (length ls - n)%nat as d. induction ls as [|L ls IH]; intros [|d] H; cbn [skipn]; auto.
  apply IH. cbn [top] in H. destruct (find _ _); [discriminate|auto].
Qed.

(** What a read does to a map. *)
Record gstep (r : env) (K : kn) (x : bool) (g : gmap) (K' : kn) (x' : bool) (g' : gmap) : Prop := {
  gs_ext : kext K x K' x';
  gs_inv : minv r K' x' g';
  gs_lay : Forall2 same_layer (glayers g) (glayers g');
  gs_ks : gks g' = gks g; gs_vs : gvs g' = gvs g; gs_unk : gunk g' = gunk g; gs_invs : ginvs g' = ginvs g;
  gs_glen : glen g' = glen g; gs_len : len_at g' 0 = len_at g 0;
  gs_cov : forall inv n, In inv (ginvs g) -> covers r K (glayers g) inv n -> covers r K' (glayers g') inv n }.

Lemma same_map_len : forall g g', same_map g g' -> len_at g' 0 = len_at g 0.
Proof. intros g g' [_ [_ [_ [_ [_ [E F]]]]]]. symmetry. apply same_len; auto. Qed.

Lemma minv_same : forall r K x g g', same_map g g' -> coherent (glayers g') (gitems g') -> minv r K x g -> minv r K x g'.
Proof.
  intros r K x g g' Sm Co [A1 A2 A3 A4 A5 A6 A7 A8 A9 B1 B2 B3 B4 B5].
  pose proof (same_map_len _ _ Sm) as EL. destruct Sm as [E1 [E2 [E3 [E4 [E5 [E6 F]]]]]].
  assert (T : forall q, top r (glayers g') q = top r (glayers g) q) by (intros; symmetry; apply top_shape; auto).
  assert (EC : cnt K (cont r (klook K) (glayers g')) = cnt K (cont r (klook K) (glayers g))).
  { apply cnt_ext. intros q _. unfold cont. rewrite T. reflexivity. }
  constructor; rewrite <- ?E1, <- ?E2, <- ?E3, <- ?E4, <- ?E5, <- ?E6, ?EL, ?EC; auto.
  - eapply single_shape; eauto.
  - rewrite E3. auto.
  - eapply layers_shape; eauto.
  - intros i Hi. rewrite T. auto.
  - intros q. rewrite T. auto.
  - intros q vp Hin. unfold based. rewrite <- E3. apply B2 in Hin. auto.
  - intros EL'. rewrite EL' in F. inversion F. apply B5. auto.
Qed.

Lemma get_gstep : forall fuel r st m g key st' v p K x,
  gmaps st m = Some g -> minv r K x g -> key_ok s st g key ->
  get s k fuel st m key None BTrue None = Ok (st', (v, p)) ->
  holds r (gcs st') -> sizes_fit st' ->
  exists K' x' g',
    gstep r K x g K' x' g' /\
    incl (gcs st) (gcs st') /\ gsz st' = gsz st /\ gmaps st' m = Some g' /\
    (forall y, y <> m -> gmaps st' y = gmaps st y) /\
    In (ev r key) (map fst K') /\
    obs (ev r v, eb r p) (cont r (klook K') (glayers g) (ev r key)) /\
    (glayers g = [] -> is_definitely_empty g 0 = false -> forall inv, In inv (ginvs g) ->
       eb (setKVP r (ev r key) (ev r v, eb r p)) inv = true).
Proof.
  intros fuel r st m g key st' v p K x G M [KW KU] H HR SF.
  set (q := ev r key).
  assert (RF : forall l : list layer, Forall2 same_layer l l).
  { induction l; constructor; [split; reflexivity|auto]. }
  destruct (get_cases _ _ _ _ _ _ _ _ G (mi_coh _ _ _ _ M) (mi_single _ _ _ _ M) (mi_invs _ _ _ _ M) H)
    as [[EE [-> ->]]|[[EE [_ [g1 [i [Sm [Co [GE [-> [-> ->]]]]]]]]]|[EE [_ [g1 [g2 [fits [st0 X]]]]]]]].
  - (* structurally empty *)
    unfold is_definitely_empty in EE. apply bv_eqb_eq in EE.
    assert (Z : ev r (len_at g 0) = 0) by (rewrite EE; cbn [evalv]; apply wrap_0).
    pose proof (mi_full _ _ _ _ M) as FU. rewrite Z in FU.
    assert (AB : forall y, In y (map fst K) -> snd (cont r (klook K) (glayers g) y) = false).
    { intros y Hy. destruct (snd (cont r (klook K) (glayers g) y)) eqn:P; [|auto]. pose proof (cnt_pos _ _ _ Hy P). lia. }
    destruct (in_dec N.eq_dec q (map fst K)) as [IN|OUT].
    + exists K, true, g. split; [|split; [apply incl_refl|]].
      * constructor; auto.
        -- exists []. rewrite app_nil_r. auto.
        -- destruct M as [A1 A2 A3 A4 A5 A6 A7 A8 A9 B1 B2 B3 B4 B5]. constructor; auto.
           ++ intros y vp Hy. destruct (B2 y vp Hy) as [|[? ?]]; auto.
           ++ intros _. rewrite Z. lia.
      * split; [reflexivity|]. split; [exact G|]. split; [auto|]. split; [auto|]. split.
        -- split; cbn [snd evalb]; [symmetry; apply AB; auto|]. rewrite AB by auto. discriminate.
        -- intros _ E2. unfold is_definitely_empty in E2. rewrite EE in E2. cbn [width] in E2.
           rewrite (proj2 (bv_eqb_eq _ _) eq_refl) in E2. discriminate.
    + set (K' := K ++ [(q, (0, false))]).
      assert (TN : top r (glayers g) q = None).
      { destruct (top r (glayers g) q) eqn:T; [|auto]. exfalso. apply OUT. apply (mi_top _ _ _ _ M). congruence. }
      assert (LK : forall y, In y (map fst K) -> klook K' y = klook K y) by (intros; apply klook_app; auto).
      assert (LQ : klook K' q = (0, false)).
      { unfold K'. rewrite klook_app_out by auto. unfold klook. cbn. rewrite N.eqb_refl. reflexivity. }
      assert (EC : cnt K' (cont r (klook K') (glayers g)) = cnt K (cont r (klook K) (glayers g))).
      { unfold K' at 1. rewrite cnt_app.
        replace (cnt [(q, (0, false))] (cont r (klook K') (glayers g))) with O.
        - rewrite Nat.add_0_r. apply cnt_ext. intros y Hy. unfold cont. rewrite LK by auto. reflexivity.
        - unfold cnt. cbn [filter fst]. unfold cont. rewrite TN, LQ. reflexivity. }
      exists K', true, g. split; [|split; [apply incl_refl|]].
      * constructor; auto.
        -- exists [(q, (0, false))]. split; [reflexivity|]. auto.
        -- destruct M as [A1 A2 A3 A4 A5 A6 A7 A8 A9 B1 B2 B3 B4 B5]. constructor; rewrite ?EC; auto.
           ++ unfold K'. rewrite map_app. cbn [map fst]. apply nodup_snoc; auto.
           ++ intros i Hi. destruct (A9 i Hi) as [vp [V1 V2]]. exists vp. split; [apply in_or_app; auto|auto].
           ++ intros y Hy. unfold K'. rewrite map_app. apply in_or_app. auto.
           ++ intros y vp Hy. apply in_app_or in Hy as [Hy|[Hy|[]]].
              ** destruct (B2 y vp Hy) as [|[? ?]]; auto.
              ** injection Hy as <- <-. auto.
           ++ intros _. rewrite Z. lia.
        -- intros inv n _ CV y vp Hy P T. apply in_app_or in Hy as [Hy|[Hy|[]]]; [eapply CV; eauto|].
           injection Hy as <- <-. discriminate P.
      * split; [reflexivity|]. split; [exact G|]. split; [auto|]. split; [unfold K'; rewrite map_app; apply in_or_app; right; left; auto|]. split.
        -- unfold cont. rewrite TN, LQ. split; cbn [snd evalb]; [auto|discriminate].
        -- intros _ E2. unfold is_definitely_empty in E2. rewrite EE in E2. cbn [width] in E2.
           rewrite (proj2 (bv_eqb_eq _ _) eq_refl) in E2. discriminate.
  - (* a known item *)
    change (gcs (set_map st m g1)) with (gcs st) in HR.
    destruct (get_exact_match_sound s SOK _ _ _ _ _ _ _ GE) as [Hin Eq].
    assert (IK : In i (pure_known (glayers g) (gitems g))).
    { apply in_app_or in Hin as [|[<-|[]]]; [auto|]. exfalso.
      assert (definitely_true s (gcs st) (BEq key (ik (gunk g))) = true); [|congruence].
      apply (definitely_true_spec s SOK). intros r0 H0. cbn [evalb]. apply N.eqb_eq. apply Eq; auto. }
    specialize (Eq r HR eq_refl). fold q in Eq.
    destruct (known_obs r K x g i M IK) as [D O]. rewrite <- Eq in *.
    pose proof Sm as Sm'. destruct Sm' as [E1 [E2 [E3 [E4 [E5 [E6 F]]]]]].
    exists K, x, g1. split; [|split; [apply incl_refl|]].
    + constructor; auto.
      * apply kext_refl.
      * eapply minv_same; eauto.
      * apply same_map_len. auto.
      * intros inv n _ CV y vp Hy P T. eapply CV; eauto. rewrite (bottom_same r n _ _ y F). auto.
    + split; [reflexivity|]. split; [apply set_map_same|]. split; [intros; apply set_map_other; auto|]. split; [auto|]. split; [exact O|].
      intros EL _ inv Hinv. rewrite EL in IK. cbn [pure_known] in IK.
      pose proof (mi_inv0 _ _ _ _ M EL inv Hinv i IK) as I0. rewrite <- Eq in I0. exact I0.
  - (* a new item *)
    cbv zeta in X. destruct X as [WV [Sm [G0 [OE [C0 [O0 [Z0 [Co0 [same [-> SA]]]]]]]]]].
    set (it := mkItem key v p) in *. set (known := pure_known (glayers g) (gitems g)) in *.
    pose proof Sm as Sm'. destruct Sm' as [E1 [E2 [E3 [E4 [E5 [E6 F]]]]]].
    assert (Sm0 : same_map (add_item g it) (add_item g1 it)).
    { unfold same_map, add_item. cbn. rewrite E3. auto 10. }
    change (gcs (add_cs (set_map st0 m g2) _)) with
      (gcs st0 ++ same ++ map (BImp (BAndL (map (fun i => BNe key (ik i)) known)))
         (map (substb (item_subst (gks g) (gvs g) it)) (ginvs g)) ++ [fits]) in HR.
    rewrite C0 in HR. rewrite !holds_app in HR. destruct HR as [HR [HS [HI HF]]].
    (* sizes *)
    assert (Sg1 : single (glayers (add_item g1 it))) by (cbn [add_item glayers]; eapply single_shape; [exact F|apply (mi_single _ _ _ _ M)]).
    assert (LE : len_at (add_item g1 it) 0 = len_at g 0) by (apply same_map_len in Sm; exact Sm).
    destruct (overfull_fact r st0 m (add_item g1 it) G0 Co0 Sg1) as [g2' [e' [OE' [Sm2 [Co2 FT]]]]].
    { rewrite LE, (mi_lw _ _ _ _ M).
      assert (Gx : gmaps (add_cs (set_map st0 m g2) (same ++ map (BImp (BAndL (map (fun i => BNe key (ik i)) known)))
         (map (substb (item_subst (gks g) (gvs g) it)) (ginvs g)) ++ [fits])) m = Some g2) by apply set_map_same.
      specialize (SF m g2 Gx).
      assert (Q : same_map (add_item g1 it) g2).
      { unfold is_not_overfull in OE. rewrite G0 in OE. destruct (known_items_spec _ Co0) as [gg [Ek [Sgg _]]]. rewrite Ek in OE.
        assert (Hgg : g2 = gg).
        { destruct (definitely_true s (gcs st0) _); injection OE as A _; 
          apply (f_equal (fun f => f m)) in A; cbn in A; rewrite N.eqb_refl in A; congruence. }
        rewrite Hgg. auto. }
      destruct Q as [_ [_ [Q3 [_ [_ [Q6 Q7]]]]]]. rewrite <- Q3, <- Q6 in SF. cbn [add_item gitems glayers glen] in *.
      replace (glen g) with (glen g1) by auto.
      assert (LL : length (glayers g1) = length (glayers g2)) by (clear -Q7; induction Q7; cbn; auto).
      rewrite LL. auto. }
    rewrite OE in OE'. injection OE' as EG EF.
    assert (g2 = g2') by (apply (f_equal (fun f => f m)) in EG; cbn in EG; rewrite N.eqb_refl in EG; congruence).
    subst g2' e'.
    assert (FT' : N.of_nat (length (newkeys r [] (pure_known (glayers g) (gitems g ++ [it])))) <= ev r (len_at g 0)).
    { rewrite <- LE. replace (pure_known (glayers g) (gitems g ++ [it])) with
        (pure_known (glayers (add_item g1 it)) (gitems (add_item g1 it))).
      - apply FT; [rewrite C0; auto|]. apply HF. left. auto.
      - cbn [add_item glayers gitems]. rewrite <- E3. symmetry. apply pure_known_shape. auto. }
    clear FT.
    assert (SAME : forall i, In i (known ++ [gunk g]) -> q = ev r (ik i) -> val r it = val r i).
    { intros i Hi Eqi. specialize (HS _ (SA i Hi)). rewrite BImp_true in HS. cbn [evalb] in HS.
      rewrite N.eqb_eq in HS. specialize (HS Eqi). apply andb_prop in HS as [S1 S2].
      apply N.eqb_eq in S1. apply eqb_prop in S2. unfold val. cbn [iv ip it]. congruence. }
    assert (INVS : (forall i, In i known -> ev r (ik i) <> q) -> forall inv, In inv (ginvs g) -> eb (setKVP r q (val r it)) inv = true).
    { intros NK inv Hinv.
      assert (Hc : In (BImp (BAndL (map (fun i => BNe key (ik i)) known)) (substb (item_subst (gks g) (gvs g) it) inv))
        (map (BImp (BAndL (map (fun i => BNe key (ik i)) known))) (map (substb (item_subst (gks g) (gvs g) it)) (ginvs g)))).
      { apply in_map, in_map. auto. }
      specialize (HI _ Hc). rewrite BImp_true in HI.
      assert (U : eb r (BAndL (map (fun i => BNe key (ik i)) known)) = true).
      { apply BAndL_true. intros y Hy. apply in_map_iff in Hy as [i [<- Hi]]. apply BNe_true. intros E. apply (NK i Hi). auto. }
      specialize (HI U). pose proof (mi_invs _ _ _ _ M) as IV. rewrite Forall_forall in IV. destruct (IV inv Hinv) as [_ KV].
      rewrite inv_subst_eval in HI by (auto; cbn [ik iv it]; auto). exact HI. }
    pose proof M as M0. destruct M as [A1 A2 A3 A4 A5 A6 A7 A8 A9 B1 B2 B3 B4 B5].
    (* items of the extended map *)
    assert (KV : forall C : N -> N * bool,
       (forall y, top r (glayers g) y <> None -> C y = cont r (klook K) (glayers g) y) ->
       (forall j, In j (gitems g) -> top r (glayers g) (ev r (ik j)) = None -> obs (val r j) (C (ev r (ik j)))) ->
       (top r (glayers g) q = None -> obs (val r it) (C q)) ->
       forall i, In i (pure_known (glayers g) (gitems g ++ [it])) -> obs (val r i) (C (ev r (ik i)))).
    { intros C H1 H2 H3 i Hi.
      assert (SZ : Forall (sized (gks g) (gvs g)) (gitems g ++ [it])).
      { apply Forall_app. split; [auto|]. constructor; [split; cbn; auto|constructor]. }
      destruct (pure_known_val r (gks g) (gvs g) _ _ i A1 A3 SZ Hi) as [T|[T [j [Hj [Ej Vj]]]]].
      - rewrite H1 by congruence. unfold cont. rewrite T. apply obs_refl.
      - rewrite <- Ej in *. rewrite <- Vj. apply in_app_or in Hj as [Hj|[<-|[]]]; [apply H2; auto|apply H3; exact T]. }
    assert (COUNT : forall KK (C : N -> N * bool), NoDup (map fst KK) ->
       (forall y, top r (glayers g) y <> None -> C y = cont r (klook K) (glayers g) y) ->
       (forall j, In j (gitems g) -> top r (glayers g) (ev r (ik j)) = None -> obs (val r j) (C (ev r (ik j)))) ->
       (top r (glayers g) q = None -> obs (val r it) (C q)) ->
       (forall y, In y (map fst KK) -> snd (C y) = true -> y = q \/ top r (glayers g) y <> None \/ based r g y) ->
       N.of_nat (cnt KK C) <= ev r (len_at g 0)).
    { intros KK C NDK H1 H2 H3 H4.
      assert (CN : (cnt KK C <= length (newkeys r [] (pure_known (glayers g) (gitems g ++ [it]))))%nat); [|lia].
      apply cnt_newkeys; auto.
      - intros i Hi. apply (KV C H1 H2 H3 i Hi).
      - intros y Hy PY. destruct (H4 y Hy PY) as [->|[T|[i [Hi Ei]]]].
        + destruct (known_base r (glayers g) (gitems g ++ [it]) it) as [j [Hj Ej]]; [apply in_or_app; right; left; auto|]. eauto.
        + apply known_top. auto.
        + destruct (known_base r (glayers g) (gitems g ++ [it]) i) as [j [Hj Ej]]; [apply in_or_app; auto|]. exists j. split; [auto|congruence]. }
    assert (OLD : forall j, In j (gitems g) -> top r (glayers g) (ev r (ik j)) = None ->
       obs (val r j) (cont r (klook K) (glayers g) (ev r (ik j)))).
    { intros j Hj T. destruct (A9 j Hj) as [vp [V1 V2]]. unfold cont. rewrite T, (klook_in _ _ _ A8 V1). auto. }
    assert (UNB : forall y, In y (map fst K) -> snd (cont r (klook K) (glayers g) y) = true ->
       y = q \/ top r (glayers g) y <> None \/ based r g y).
    { intros y Hy P. unfold cont in P. destruct (top r (glayers g) y) eqn:T; [right; left; congruence|].
      destruct (B2 _ _ (klook_dom _ _ Hy)) as [|[AB _]]; [auto|congruence]. }
    (* in exact mode an item at a new position is absent *)
    assert (NEWABS : forall KK, x = true -> top r (glayers g) q = None -> ~ based r g q ->
       NoDup (map fst KK) -> In q (map fst KK) ->
       (forall y, In y (map fst KK) -> y = q \/ In y (map fst K)) ->
       cnt KK (upd (cont r (klook K) (glayers g)) q (0, false)) = cnt K (cont r (klook K) (glayers g)) ->
       eb r p = false).
    { intros KK XT T NB ND IN SUB EQ. destruct (eb r p) eqn:P; [|auto]. exfalso.
      set (C := cont r (klook K) (glayers g)) in *. set (C' := upd C q (val r it)).
      assert (CN : N.of_nat (cnt KK C') <= ev r (len_at g 0)).
      { apply COUNT; auto.
        - intros y Ty. unfold C', upd. destruct (N.eqb_spec y q) as [->|]; [congruence|reflexivity].
        - intros j Hj Tj. unfold C', upd. destruct (N.eqb_spec (ev r (ik j)) q) as [E|]; [exfalso; apply NB; exists j; auto|]. apply OLD; auto.
        - intros _. unfold C', upd. rewrite N.eqb_refl. apply obs_refl.
        - intros y Hy. unfold C', upd. destruct (N.eqb_spec y q) as [->|NE]; [auto|].
          intros PY. destruct (SUB y Hy) as [|Hy']; [auto|]. apply UNB; auto. }
      pose proof (cnt_upd KK (upd C q (0, false)) q (ev r v) true ND IN) as CU.
      assert (E : cnt KK (upd (upd C q (0, false)) q (ev r v, true)) = cnt KK C').
      { apply cnt_ext. intros y _. unfold C', upd. destruct (y =? q); [cbn; auto|reflexivity]. }
      rewrite E, EQ in CU. unfold upd in CU at 1. rewrite N.eqb_refl in CU. cbn [snd] in CU.
      specialize (B3 XT). lia. }
    assert (G2 : gmaps (add_cs (set_map st0 m g2) (same ++ map (BImp (BAndL (map (fun i => BNe key (ik i)) known)))
         (map (substb (item_subst (gks g) (gvs g) it)) (ginvs g)) ++ [fits])) m = Some g2) by apply set_map_same.
    assert (INCL : incl (gcs st) (gcs (add_cs (set_map st0 m g2) (same ++ map (BImp (BAndL (map (fun i => BNe key (ik i)) known)))
         (map (substb (item_subst (gks g) (gvs g) it)) (ginvs g)) ++ [fits])))).
    { intros c Hc. cbn [add_cs gcs]. apply in_or_app. left. change (gcs (set_map st0 m g2)) with (gcs st0). rewrite C0. auto. }
    assert (OTH : forall y, y <> m -> gmaps (add_cs (set_map st0 m g2) (same ++ map (BImp (BAndL (map (fun i => BNe key (ik i)) known)))
         (map (substb (item_subst (gks g) (gvs g) it)) (ginvs g)) ++ [fits])) y = gmaps st y).
    { intros y NE. cbn [add_cs gmaps]. rewrite set_map_other by auto. auto. }
    (* the extended map with its caches *)
    assert (SMA : same_map (add_item g it) g2).
    { destruct Sm0 as [S1 [S2 [S3 [S4 [S5 [S6 S7]]]]]]. destruct Sm2 as [T1 [T2 [T3 [T4 [T5 [T6 T7]]]]]].
      unfold same_map. repeat split; try congruence. clear -S7 T7. revert T7. generalize (glayers g2).
      induction S7 as [|a e l l' [Y1 Y2] Fl IH]; intros l2 F2; [inversion F2; constructor|].
      inversion F2 as [|? d ? l3 [Z1 Z2] F3]; subst. constructor; [split; congruence|auto]. }
    pose proof SMA as SMA'. destruct SMA' as [R1 [R2 [R3 [R4 [R5 [R6 R7]]]]]]. cbn [add_item gks gvs gitems ginvs gunk glen glayers] in R1, R2, R3, R4, R5, R6, R7.
    assert (IV0 : glayers g = [] -> forall inv, In inv (ginvs g) -> eb (setKVP r q (val r it)) inv = true).
    { intros EL inv Hinv.
      destruct (existsb (fun i => ev r (ik i) =? q) known) eqn:EX.
      - apply existsb_exists in EX as [i [Hi Ei]]. apply N.eqb_eq in Ei.
        rewrite (SAME i) by (auto using in_or_app; apply in_or_app; auto). rewrite <- Ei.
        apply B5; auto. unfold known in Hi. rewrite EL in Hi. exact Hi.
      - apply INVS; [|auto]. intros i Hi Ei. assert (existsb (fun i => ev r (ik i) =? q) known = true); [|congruence].
        apply existsb_exists. exists i. split; [auto|apply N.eqb_eq; auto]. }
    assert (MIN : forall K' x', kext K x K' x' -> NoDup (map fst K') -> In q (map fst K') ->
       (forall y vp, In (y, vp) K' -> In (y, vp) K \/ y = q) ->
       (top r (glayers g) q = None -> obs (val r it) (klook K' q)) ->
       (x' = true -> x = true) ->
       (x' = true -> N.of_nat (cnt K' (cont r (klook K') (glayers g))) = ev r (len_at g 0)) ->
       N.of_nat (cnt K' (cont r (klook K') (glayers g))) <= ev r (len_at g 0) ->
       minv r K' x' g2).
    { intros K' x' [l [-> KX]] ND' INQ SUB VQ XX EX FU.
      apply (minv_same r _ x' (add_item g it) g2 SMA Co2). constructor; cbn [add_item gks gvs gitems ginvs gunk glen glayers]; auto.
      - apply coherent_app. auto.
      - apply Forall_app. split; [auto|]. constructor; [split; cbn; auto|constructor].
      - intros i Hi. apply in_app_or in Hi as [Hi|[<-|[]]].
        + destruct (A9 i Hi) as [vp [V1 V2]]. exists vp. split; [apply in_or_app; auto|auto].
        + exists (klook (K ++ l) q). split; [apply klook_dom; auto|exact VQ].
      - intros y Ty. rewrite map_app. apply in_or_app. left. auto.
      - intros y vp Hy. destruct (SUB y vp Hy) as [Hy'| ->].
        + destruct (B2 y vp Hy') as [[i [Hi Ei]]|[AB XT]].
          * left. exists i. split; [apply in_or_app; auto|auto].
          * right. split; [auto|]. destruct (KX XT). auto.
        + left. exists it. split; [apply in_or_app; right; left; auto|reflexivity].
      - intros EL inv Hinv i Hi. apply in_app_or in Hi as [Hi|[<-|[]]]; [apply B5; auto|]. apply IV0; auto. }
    assert (FIN : forall K' x', kext K x K' x' -> minv r K' x' g2 -> In q (map fst K') ->
       obs (val r it) (cont r (klook K') (glayers g) q) ->
       (forall y vp, In (y, vp) K' -> In (y, vp) K \/ (vp = val r it /\ y = q /\ forall inv, In inv (ginvs g) -> eb (setKVP r q (val r it)) inv = true)) ->
       exists K' x' g', gstep r K x g K' x' g' /\
       incl (gcs st) (gcs (add_cs (set_map st0 m g2) (same ++ map (BImp (BAndL (map (fun i => BNe key (ik i)) known)))
         (map (substb (item_subst (gks g) (gvs g) it)) (ginvs g)) ++ [fits]))) /\
       gsz (add_cs (set_map st0 m g2) (same ++ map (BImp (BAndL (map (fun i => BNe key (ik i)) known)))
         (map (substb (item_subst (gks g) (gvs g) it)) (ginvs g)) ++ [fits])) = gsz st /\
       gmaps (add_cs (set_map st0 m g2) (same ++ map (BImp (BAndL (map (fun i => BNe key (ik i)) known)))
         (map (substb (item_subst (gks g) (gvs g) it)) (ginvs g)) ++ [fits])) m = Some g' /\
       (forall y, y <> m -> gmaps (add_cs (set_map st0 m g2) (same ++ map (BImp (BAndL (map (fun i => BNe key (ik i)) known)))
         (map (substb (item_subst (gks g) (gvs g) it)) (ginvs g)) ++ [fits])) y = gmaps st y) /\
       In (ev r key) (map fst K') /\
       obs (ev r v, eb r p) (cont r (klook K') (glayers g) (ev r key)) /\
       (glayers g = [] -> is_definitely_empty g 0 = false -> forall inv, In inv (ginvs g) ->
         eb (setKVP r (ev r key) (ev r v, eb r p)) inv = true)).
    { intros K' x' KX M' INQ OB SUB. exists K', x', g2.
      split; [|split; [exact INCL|split; [exact Z0|split; [exact G2|split; [exact OTH|split; [exact INQ|split; [exact OB|]]]]]]].
      - constructor; auto.
        + rewrite (same_map_len _ _ SMA). reflexivity.
        + intros inv n Hinv CV y vp Hy P T. destruct (SUB y vp Hy) as [Hy'|[-> [-> IH]]].
          * eapply CV; eauto. rewrite (bottom_same r n _ _ y R7). auto.
          * apply IH. auto.
      - intros EL _ inv Hinv. apply (IV0 EL inv Hinv). }
    clear INCL OTH G2.
    destruct (in_dec N.eq_dec q (map fst K)) as [IN|OUT].
    + (* the key had been accessed *)
      assert (VQ : top r (glayers g) q = None -> obs (val r it) (klook K q)).
      { intros T. destruct (existsb (fun i => ev r (ik i) =? q) (gitems g)) eqn:EX.
        - apply existsb_exists in EX as [i [Hi Ei]]. apply N.eqb_eq in Ei.
          destruct (known_base r (glayers g) (gitems g) i Hi) as [j [Hj Ej]].
          rewrite (SAME j); [|apply in_or_app; auto|congruence].
          destruct (known_obs r K x g j M0 Hj) as [_ O]. unfold cont in O. rewrite Ej, Ei, T in O. auto.
        - assert (NB : ~ based r g q).
          { intros [i [Hi Ei]]. assert (existsb (fun i => ev r (ik i) =? q) (gitems g) = true); [|congruence].
            apply existsb_exists. exists i. split; [auto|apply N.eqb_eq; auto]. }
          destruct (B2 _ _ (klook_dom _ _ IN)) as [?|[AB XT]]; [contradiction|].
          assert (P : eb r p = false).
          { apply (NEWABS K); auto. apply cnt_ext. intros y _. unfold upd.
            destruct (N.eqb_spec y q) as [->|]; [|reflexivity]. unfold cont. rewrite T. auto. }
          split; cbn [snd val it ip]; [congruence|]. rewrite AB. discriminate. }
      assert (MK : minv r K x g2) by (apply MIN; auto using kext_refl).
      apply (FIN K x); auto using kext_refl.
      unfold cont. destruct (top r (glayers g) q) eqn:T; [|apply VQ; auto].
        destruct (known_top r (glayers g) (gitems g) q) as [i [Hi Ei]]; [congruence|].
        rewrite (SAME i); [|apply in_or_app; auto|auto].
        destruct (known_obs r K x g i M0 Hi) as [_ O]. unfold cont in O. rewrite Ei, T in O. auto.
    + (* a key not accessed before *)
      assert (TN : top r (glayers g) q = None).
      { destruct (top r (glayers g) q) eqn:T; [|auto]. exfalso. apply OUT. apply B1. congruence. }
      assert (NK : forall i, In i known -> ev r (ik i) <> q).
      { intros i Hi E. apply OUT. rewrite <- E. apply (known_obs r K x g i M0 Hi). }
      assert (NB : ~ based r g q).
      { intros [i [Hi Ei]]. destruct (A9 i Hi) as [vp [V1 _]]. apply OUT. rewrite <- Ei.
        change (ev r (ik i)) with (fst (ev r (ik i), vp)). apply in_map. auto. }
      set (K' := K ++ [(q, val r it)]).
      assert (LK : forall y, In y (map fst K) -> klook K' y = klook K y) by (intros; apply klook_app; auto).
      assert (LQ : klook K' q = val r it).
      { unfold K'. rewrite klook_app_out by auto. unfold klook. cbn [find fst]. rewrite N.eqb_refl. reflexivity. }
      assert (ND' : NoDup (map fst K')).
      { unfold K'. rewrite map_app. apply nodup_snoc; auto. }
      assert (INQ : In q (map fst K')) by (unfold K'; rewrite map_app; apply in_or_app; right; left; auto).
      assert (EC : cnt K' (cont r (klook K') (glayers g)) = (cnt K (cont r (klook K) (glayers g)) + (if eb r p then 1 else 0))%nat).
      { unfold K' at 1. rewrite cnt_app. f_equal.
        - apply cnt_ext. intros y Hy. unfold cont. rewrite LK by auto. reflexivity.
        - unfold cnt. cbn [filter fst]. unfold cont. rewrite TN, LQ. cbn [val it ip snd]. destruct (eb r p); reflexivity. }
      assert (XA : x = true -> eb r p = false).
      { intros XT. apply (NEWABS K'); auto.
        - intros y Hy. unfold K' in Hy. rewrite map_app in Hy. apply in_app_or in Hy as [|[<-|[]]]; auto.
        - unfold K'. rewrite cnt_app. replace (cnt [(q, val r it)] _) with O.
          + rewrite Nat.add_0_r. apply cnt_ext. intros y Hy. unfold upd. destruct (N.eqb_spec y q) as [->|]; [contradiction|reflexivity].
          + unfold cnt, upd. cbn [filter fst]. rewrite N.eqb_refl. reflexivity. }
      assert (KX : kext K x K' x).
      { exists [(q, val r it)]. split; [reflexivity|]. intros XT. split; [auto|]. constructor; [|constructor]. cbn. auto. }
      assert (SUB : forall y vp, In (y, vp) K' -> In (y, vp) K \/ (vp = val r it /\ y = q)).
      { intros y vp Hy. apply in_app_or in Hy as [|[E|[]]]; [auto|]. injection E as <- <-. auto. }
      assert (MK : minv r K' x g2).
      { apply MIN; auto.
        -- intros y vp Hy. destruct (SUB y vp Hy) as [|[_ ?]]; auto.
        -- intros _. rewrite LQ. apply obs_refl.
        -- intros XT. rewrite EC, (XA XT), Nat.add_0_r. auto.
        -- apply COUNT; auto.
           ++ intros y Ty. unfold cont. destruct (top r (glayers g) y); [reflexivity|congruence].
           ++ intros j Hj Tj. destruct (A9 j Hj) as [vp [V1 V2]]. unfold cont. rewrite Tj.
              rewrite (klook_in K' _ vp ND'); [auto|]. apply in_or_app. auto.
           ++ intros _. unfold cont. rewrite TN, LQ. apply obs_refl.
           ++ intros y Hy P. unfold K' in Hy. rewrite map_app in Hy. apply in_app_or in Hy as [Hy|[<-|[]]]; [|auto].
              apply UNB; auto. unfold cont in *. rewrite LK in P by auto. auto. }
      apply (FIN K' x); auto.
      * unfold cont. rewrite TN, LQ. apply obs_refl.
      * intros y vp Hy. destruct (SUB y vp Hy) as [|[? ?]]; auto.
Qed.
End Cons.
