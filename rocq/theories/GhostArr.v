(** * What the invariants given at a map's creation say about keys never written *)

From Coq Require Import NArith List Bool Lia Arith.
From Verif Require Import Expr Solver KMerge Wt GhostMap GhostSpec GhostFacts GhostSim GhostHist GhostTrace GhostCons GhostReal GhostUse.
Import ListNotations.
Open Scope N_scope.

(** Every item read from the oldest version whose key no later version wrote satisfies
    [inv], present or not. *)
Definition bcov (r : env) (g : gmap) (inv : bexp) : Prop :=
  forall i, In i (gitems g) -> top r (glayers g) (ev r (ik i)) = None ->
  eb (setKVP r (ev r (ik i)) (val r i)) inv = true.

Lemma bcov_same : forall r g g' inv, same_map g g' -> bcov r g inv -> bcov r g' inv.
Proof.
  intros r g g' inv [_ [_ [E3 [_ [_ [_ F]]]]]] B i Hi T. rewrite <- E3 in Hi. rewrite <- (top_shape r _ _ _ F) in T. auto.
Qed.

Section Arr.
Variable s : solver.
Variable k : claripy.
Hypothesis SOK : solver_ok s.
Hypothesis KOK : claripy_ok k.

Lemma get_bcov : forall fuel r st m g key st' v p K x inv,
  gmaps st m = Some g -> minv r K x g -> key_ok s st g key ->
  get s k fuel st m key None BTrue None = Ok (st', (v, p)) ->
  holds r (gcs st') -> In inv (ginvs g) -> bcov r g inv ->
  exists g', gmaps st' m = Some g' /\ In inv (ginvs g') /\ bcov r g' inv /\
    Forall2 same_layer (glayers g) (glayers g') /\ len_at g' 0 = len_at g 0 /\
    (is_definitely_empty g 0 = false -> top r (glayers g) (ev r key) = None ->
     eb (setKVP r (ev r key) (ev r v, eb r p)) inv = true).
Proof.
  intros fuel r st m g key st' v p K x inv G M [KW KU] H HR IN BC.
  set (q := ev r key).
  assert (RF : forall l : list layer, Forall2 same_layer l l).
  { induction l; constructor; [split; reflexivity|auto]. }
  assert (KN : forall i, In i (pure_known (glayers g) (gitems g)) -> top r (glayers g) (ev r (ik i)) = None ->
     eb (setKVP r (ev r (ik i)) (val r i)) inv = true).
  { intros i Hi T.
    destruct (pure_known_val r _ _ _ _ i (mi_single _ _ _ _ M) (mi_lsz _ _ _ _ M) (mi_bsz _ _ _ _ M) Hi) as [T'|[_ [j [Hj [Ej Vj]]]]]; [congruence|].
    rewrite <- Ej in *. rewrite <- Vj. apply BC; auto. }
  destruct (get_cases s k _ _ _ _ _ _ _ _ G (mi_coh _ _ _ _ M) (mi_single _ _ _ _ M) (mi_invs _ _ _ _ M) H)
    as [[EE [-> ->]]|[[EE [_ [g1 [i [Sm [Co [GE [-> [-> ->]]]]]]]]]|[EE [_ [g1 [g2 [fits [st0 X]]]]]]]].
  - exists g. split; [exact G|]. split; [auto|]. split; [auto|]. split; [auto|]. split; [auto|]. congruence.
  - change (gcs (set_map st m g1)) with (gcs st) in HR.
    destruct (get_exact_match_sound s SOK _ _ _ _ _ _ _ GE) as [Hin Eq].
    assert (IK : In i (pure_known (glayers g) (gitems g))).
    { apply in_app_or in Hin as [|[<-|[]]]; [auto|]. exfalso.
      assert (definitely_true s (gcs st) (BEq key (ik (gunk g))) = true); [|congruence].
      apply (definitely_true_spec s SOK). intros r0 H0. cbn [evalb]. apply N.eqb_eq. apply Eq; auto. }
    specialize (Eq r HR eq_refl). fold q in Eq.
    pose proof Sm as Sm'. destruct Sm' as [E1 [E2 [E3 [E4 [E5 [E6 F]]]]]].
    exists g1. split; [apply set_map_same|]. split; [rewrite <- E4; auto|]. split; [eapply bcov_same; eauto|].
    split; [auto|]. split; [apply same_map_len; auto|].
    intros _ T. rewrite Eq in T |- *. apply (KN i IK T).
  - cbv zeta in X. destruct X as [WV [Sm [G0 [OE [C0 [O0 [Z0 [Co0 [same [-> SA]]]]]]]]]].
    set (it := mkItem key v p) in *. set (known := pure_known (glayers g) (gitems g)) in *.
    pose proof Sm as Sm'. destruct Sm' as [E1 [E2 [E3 [E4 [E5 [E6 F]]]]]].
    change (gcs (add_cs (set_map st0 m g2) _)) with
      (gcs st0 ++ same ++ map (BImp (BAndL (map (fun i => BNe key (ik i)) known)))
         (map (substb (item_subst (gks g) (gvs g) it)) (ginvs g)) ++ [fits]) in HR.
    rewrite C0 in HR. rewrite !holds_app in HR. destruct HR as [HR [HS [HI HF]]].
    assert (SAME : forall i, In i (known ++ [gunk g]) -> q = ev r (ik i) -> val r it = val r i).
    { intros i Hi Eqi. specialize (HS _ (SA i Hi)). rewrite BImp_true in HS. cbn [evalb] in HS.
      rewrite N.eqb_eq in HS. specialize (HS Eqi). apply andb_prop in HS as [S1 S2].
      apply N.eqb_eq in S1. apply eqb_prop in S2. unfold val. cbn [iv ip it]. congruence. }
    assert (INVS : (forall i, In i known -> ev r (ik i) <> q) -> eb (setKVP r q (val r it)) inv = true).
    { intros NK.
      assert (Hc : In (BImp (BAndL (map (fun i => BNe key (ik i)) known)) (substb (item_subst (gks g) (gvs g) it) inv))
        (map (BImp (BAndL (map (fun i => BNe key (ik i)) known))) (map (substb (item_subst (gks g) (gvs g) it)) (ginvs g)))).
      { apply in_map, in_map. auto. }
      specialize (HI _ Hc). rewrite BImp_true in HI.
      assert (U : eb r (BAndL (map (fun i => BNe key (ik i)) known)) = true).
      { apply BAndL_true. intros y Hy. apply in_map_iff in Hy as [i [<- Hi]]. apply BNe_true. intros E. apply (NK i Hi). auto. }
      specialize (HI U). pose proof (mi_invs _ _ _ _ M) as IV. rewrite Forall_forall in IV. destruct (IV inv IN) as [_ KV].
      rewrite inv_subst_eval in HI by (auto; cbn [ik iv it]; auto). exact HI. }
    assert (IV0 : top r (glayers g) q = None -> eb (setKVP r q (val r it)) inv = true).
    { intros T. destruct (existsb (fun i => ev r (ik i) =? q) known) eqn:EX.
      - apply existsb_exists in EX as [i [Hi Ei]]. apply N.eqb_eq in Ei.
        rewrite (SAME i) by (auto using in_or_app; apply in_or_app; auto). rewrite <- Ei in *. apply KN; auto.
      - apply INVS. intros i Hi Ei. assert (existsb (fun i => ev r (ik i) =? q) known = true); [|congruence].
        apply existsb_exists. exists i. split; [auto|apply N.eqb_eq; auto]. }
    assert (Q : same_map (add_item g1 it) g2).
    { unfold is_not_overfull in OE. rewrite G0 in OE. destruct (known_items_spec _ Co0) as [gg [Ek [Sgg _]]]. rewrite Ek in OE.
      assert (Hgg : g2 = gg).
      { destruct (definitely_true s (gcs st0) _); injection OE as A _;
        apply (f_equal (fun f => f m)) in A; cbn in A; rewrite N.eqb_refl in A; congruence. }
      rewrite Hgg. auto. }
    exists g2. split; [apply set_map_same|].
    pose proof Q as Q0. destruct Q0 as [Q1 [Q2 [Q3 [Q4 [Q5 [Q6 Q7]]]]]]. cbn [add_item glayers gitems ginvs glen] in *.
    split; [rewrite <- Q4, <- E4; auto|]. split.
    { apply (bcov_same r (add_item g1 it) g2 inv Q). intros i Hi T. cbn [add_item gitems glayers] in Hi, T.
      rewrite <- (top_shape r _ _ _ F) in T. rewrite <- E3 in Hi.
      apply in_app_or in Hi as [Hi|[<-|[]]]; [apply BC; auto|]. cbn [it ik] in *. apply IV0. auto. }
    split.
    { clear -F Q7. revert Q7. generalize (glayers g2).
      induction F as [|a e l l' [Y1 Y2] Fl IH]; intros l2 F2; [inversion F2; constructor|].
      inversion F2 as [|? d ? l3 [Z1 Z2] F3]; subst. constructor; [split; congruence|auto]. }
    split.
    { rewrite (same_map_len _ _ Q). change (len_at (add_item g1 it) 0) with (len_at g1 0). apply same_map_len. auto. }
    intros _ T. apply IV0. auto.
Qed.

Lemma forall_items : forall fuel st m g pred st' b g' K x r,
  gmaps st m = Some g -> minv r K x g -> pred_ok (gks g) (gvs g) pred ->
  forall_ s k fuel st m pred = Ok (st', b) -> gmaps st' m = Some g' -> gitems g' = gitems g.
Proof.
  intros fuel st m g pred st' b g' K x r G M [P1 P2] H G'.
  unfold forall_ in H. rewrite G in H.
  assert (FR : freezeb st (BImp PRESENT pred) = BImp PRESENT pred) by (apply freeze_plain; cbn; auto).
  rewrite FR in H. set (inv := BImp PRESENT pred) in *.
  assert (I1 : nolkb inv = true) by (cbn; auto).
  destruct (is_definitely_empty g 0) eqn:EE; [injection H as <- <-; congruence|].
  destruct (known_items_spec g (mi_coh _ _ _ _ M)) as [g1 [E1 [Sm Co]]]. rewrite E1 in H.
  rewrite (inv_items_plain s k fuel (gks g) (gvs g) inv _ _ I1) in H. cbn [bindr] in H.
  set (st1 := set_map st m g1) in *.
  assert (G1 : gmaps st1 m = Some g1) by apply set_map_same.
  destruct (known_items_spec g1 Co) as [g2 [E2 [Sm2 Co2]]].
  assert (OX : exists fits, is_not_overfull s k st1 m 0 = (set_map st1 m g2, fits)).
  { unfold is_not_overfull. rewrite G1, E2. destruct (definitely_true s _ _); eauto. }
  destruct OX as [fits OE]. rewrite OE in H. unfold inv_call in H at 1. rewrite (emb_plain _ _ _ inv I1) in H. cbn [bindr] in H.
  set (st3 := set_map st1 m g2) in *. change (gnext st3) with (gnext st) in H.
  apply bindr_ok in H as [st6 [AI H]]. injection H as <- <-.
  unfold add_inv in AI.
  match type of AI with context [gmaps (add_cs ?x ?l) m] => change (gmaps (add_cs x l) m) with (gmaps st3 m) in AI end.
  assert (G3 : gmaps st3 m = Some g2) by apply set_map_same. rewrite G3 in AI. unfold inv_call in AI.
  rewrite (emb_plain _ _ _ (BImp (BoolS (gnext st)) inv)) in AI by (cbn; auto). cbn [bindr] in AI.
  match type of AI with context [gmaps (add_cs ?x ?l) m] => change (gmaps (add_cs x l) m) with (gmaps st3 m) in AI end.
  rewrite G3 in AI. injection AI as <-. rewrite set_map_same in G'. injection G' as <-. cbn [gitems].
  destruct Sm as [_ [_ [S3 _]]]. destruct Sm2 as [_ [_ [T3 _]]]. congruence.
Qed.

Definition not_removal (m : N) (e : event) : Prop := match e with ERemove m' _ => m' <> m | _ => True end.

(** One event that does not write key [q] of the map and removes nothing from it. *)
Lemma spare_step : forall fuel r st e st' K X m g q inv,
  does s k fuel st e st' -> INV r K X st -> holds r (gcs st') -> unfolded st' -> sizes_fit st' ->
  no_overflow r [e] -> gmaps st m = Some g -> not_removal m e -> ~ writes r m q e ->
  In inv (ginvs g) -> bcov r g inv -> top r (glayers g) q = None ->
  exists g', gmaps st' m = Some g' /\ In inv (ginvs g') /\ bcov r g' inv /\
    top r (glayers g') q = None /\ ev r (len_at g 0) <= ev r (len_at g' 0).
Proof.
  intros fuel r st e st' K X m g q inv H I HR UF SF NO G NR NW IN BC TN.
  assert (SAME : gmaps st' m = gmaps st m -> exists g', gmaps st' m = Some g' /\ In inv (ginvs g') /\ bcov r g' inv /\
    top r (glayers g') q = None /\ ev r (len_at g 0) <= ev r (len_at g' 0)).
  { intros E. exists g. rewrite E. repeat split; auto. lia. }
  destruct H as [st m' ks vs len invs st' N0 PF H|st m' ks vs st' N0 H|st m' ks vs len st' N0 PF H
                |st m' g0 key st' v p G0 KO H|st m' g0 key value st' G0 KO VW H|st m' g0 key st' G0 KO H
                |st m' g0 pred st' b G0 PO H|st m' g0 G0|st c].
  - assert (NE : m <> m') by congruence. apply SAME.
    destruct (new_step s k _ r _ _ _ _ _ _ _ K X I N0 PF H) as [g' [M' [I' [G' [O _]]]]]. auto.
  - assert (NE : m <> m') by congruence. apply SAME.
    assert (PF : Forall (pred_ok ks vs) [BNot PRESENT]) by (constructor; [split; reflexivity|constructor]).
    destruct (new_step s k _ r _ _ _ _ _ _ _ K X I N0 PF H) as [g' [M' [I' [G' [O _]]]]]. auto.
  - assert (NE : m <> m') by congruence. apply SAME. unfold new_array in H. destruct (width len =? ks); [|discriminate].
    assert (PF' : Forall (pred_ok ks vs) [array_inv ks len]) by (constructor; [auto|constructor]).
    destruct (new_step s k _ r _ _ _ _ _ _ _ K X I N0 PF' H) as [g' [M' [I' [G' [O _]]]]]. auto.
  - destruct I as [NX [MI _]].
    destruct (N.eq_dec m m') as [->|NE].
    + rewrite G in G0. injection G0 as <-.
      destruct (get_bcov _ r _ _ _ _ _ _ _ _ _ inv G (MI m' g G) KO H HR IN BC) as [g' [G' [IN' [BC' [F [L' _]]]]]].
      exists g'. split; [auto|]. split; [auto|]. split; [auto|]. split; [rewrite <- (top_shape r _ _ _ F); auto|]. rewrite L'. lia.
    + apply SAME. destruct (get_gstep s k SOK KOK _ r _ _ _ _ _ _ _ _ _ G0 (MI m' g0 G0) KO H HR SF) as [K' [x' [g' [GS [_ [_ [G' [OT _]]]]]]]]. auto.
  - destruct I as [NX [MI _]].
    assert (NO' : ev r (len_at g0 0) + 1 < 2 ^ width (len_at g0 0)) by (eapply NO; left; reflexivity).
    destruct (set_step s k SOK KOK _ r _ _ _ _ _ _ _ _ G0 (MI m' g0 G0) KO VW H HR UF SF NO') as [K' [x' [g' [PG [M' [G' [OT [INK [T LE]]]]]]]]].
    destruct (N.eq_dec m m') as [->|NE]; [|apply SAME; auto]. rewrite G in G0. injection G0 as <-.
    exists g'. split; [auto|]. split; [apply PG; auto|].
    assert (NQ : q <> ev r key) by (intros E; apply NW; split; auto).
    split; [|split; [rewrite T; destruct (N.eqb_spec q (ev r key)); [contradiction|auto]|rewrite LE; destruct (snd _); lia]].
    unfold set_ in H. apply bindr_ok in H as [[st1 [v p]] [GE H]]. cbn [snd] in H.
    apply bindr_ok in H as [co [GC H]]. destruct (gmaps st1 m') as [g1|] eqn:G1; [|discriminate]. injection H as <-.
    change (gcs (set_map st1 m' _)) with (gcs st1) in HR.
    destruct (get_bcov _ r _ _ _ _ _ _ _ _ _ inv G (MI m' g G) KO GE HR IN BC) as [g1' [G1' [IN1 [BC1 [F [L1 _]]]]]].
    rewrite G1 in G1'. injection G1' as <-. rewrite set_map_same in G'. injection G' as <-.
    intros i Hi Ti. assert (GI : forall it ch, gitems (with_item_layer k g1 it ch) = gitems g1).
    { intros it ch. unfold with_item_layer. destruct (glayers g1); [reflexivity|]. destruct (negb _ && _); reflexivity. }
    rewrite GI in Hi. apply BC1; [auto|]. rewrite T in Ti. destruct (_ =? ev r key); [discriminate|].
    rewrite <- (top_shape r _ _ _ F). auto.
  - cbn in NR. apply SAME. destruct I as [NX [MI _]].
    destruct (remove_step s k SOK KOK _ r _ _ _ _ _ _ _ G0 (MI m' g0 G0) KO H HR UF SF) as [K' [x' [g' [u [PG [M' [G' [OT _]]]]]]]]. auto.
  - destruct I as [NX [MI _]].
    destruct (forall_step s k _ r _ _ _ _ _ _ _ _ G0 (MI m' g0 G0) NX PO H HR SF) as [K' [x' [g' [inv' [n [PG [M' [G' [OT [LY [LE _]]]]]]]]]]].
    destruct (N.eq_dec m m') as [->|NE]; [|apply SAME; auto]. rewrite G in G0. injection G0 as <-.
    exists g'. split; [auto|]. split; [apply PG; auto|]. split; [|split; [rewrite <- (top_shape r _ _ _ LY); auto|rewrite LE; lia]].
    intros i Hi Ti. rewrite (forall_items _ _ _ _ _ _ _ _ _ _ r G (MI m' g G) PO H G') in Hi.
    rewrite <- (top_shape r _ _ _ LY) in Ti. auto.
  - apply SAME. auto.
  - apply SAME. auto.
Qed.

Lemma spare_run : forall fuel r es st st' K X m g q inv,
  run s k fuel st es st' -> INV r K X st -> holds r (gcs st') -> no_overflow r es ->
  gmaps st m = Some g -> (forall e, In e es -> not_removal m e) -> untouched r m q es ->
  In inv (ginvs g) -> bcov r g inv -> top r (glayers g) q = None ->
  exists g' K' X', gmaps st' m = Some g' /\ INV r K' X' st' /\ In inv (ginvs g') /\ bcov r g' inv /\
    top r (glayers g') q = None /\ ev r (len_at g 0) <= ev r (len_at g' 0).
Proof.
  intros fuel r es st st' K X m g q inv H. revert K X g. induction H as [st|st e st1 es st2 D UF SF R IH]; intros K X g I HR NO G NR UT IN BC TN.
  - exists g, K, X. repeat (split; [auto; fail|]). lia.
  - apply no_overflow_cons in NO as [NO1 NO2].
    pose proof (holds_mono _ _ _ (run_mono _ _ _ _ _ _ R) HR) as HR1.
    destruct (spare_step _ _ _ _ _ _ _ m g q inv D I HR1 UF SF NO1 G) as [g1 [G1 [IN1 [BC1 [T1 L1]]]]]; auto.
    { apply NR. left. auto. } { apply UT. left. auto. }
    destruct (inv_step s k SOK KOK _ _ _ _ _ _ _ D I HR1 UF SF NO1) as [K1 [X1 I1]].
    destruct (IH K1 X1 g1 I1 HR NO2 G1) as [g2 [K2 [X2 [G2 [I2 [IN2 [BC2 [T2 L2]]]]]]]]; auto.
    { intros e' H'. apply NR. right. auto. } { intros e' H'. apply UT. right. auto. }
    exists g2, K2, X2. split; [auto|]. split; [auto|]. split; [auto|]. split; [auto|]. split; [auto|lia].
Qed.

(** A read of a key never written, in a map nothing was removed from: either the
    invariant holds of what was read, or the map was found empty. *)
Lemma spare_reads : forall fuel es r a1 m ks vs len invs a2 key v p b inv,
  consistent s k fuel es r -> es = a1 ++ ENew m ks vs len invs :: a2 ++ EGet m key v p :: b ->
  (forall e, In e a2 -> not_removal m e) -> untouched r m (ev r key) a2 -> In inv invs ->
  eb (setKVP r (ev r key) (ev r v, eb r p)) inv = true \/ (ev r len = 0 /\ eb r p = false).
Proof.
  intros fuel es r a1 m ks vs len invs a2 key v p b inv [nin [sz [fin [NX [R [HR NO]]]]]] -> NR UT IN.
  apply run_app in R as [st0 [R0 R]].
  assert (NO0 : no_overflow r a1) by (intros m' key' value l Hin; eapply NO; apply in_or_app; left; exact Hin).
  assert (NO2 : no_overflow r a2) by (intros m' key' value l Hin; eapply NO; apply in_or_app; right; right; apply in_or_app; left; exact Hin).
  assert (HR0 : holds r (gcs st0)) by (eapply holds_mono; [eapply run_mono; exact R|auto]).
  destruct (inv_run s k SOK KOK fuel r a1 (ginit nin sz) st0 (fun _ => []) (fun _ => false) R0) as [K [X I]]; auto.
  { split; [cbn; lia|]. split; [intros m' g G; discriminate G|auto]. }
  destruct I as [I0 [I1' I2']]. pose proof I2' as KN. assert (I : INV r K X st0) by (split; auto).
  inversion R as [|? ? st1 ? ? D UF SF R1]; subst.
  assert (N0 : gmaps st0 m = None) by (inversion D; auto).
  assert (Y : exists g', INV r K X st1 /\ gmaps st1 m = Some g' /\ glayers g' = [] /\ len_at g' 0 = len /\ ginvs g' = invs).
  { inversion D as [? ? ? ? ? ? ? Y0 PF Y|? ? ? ? ? Y0 Y|? ? ? ? ? ? Y0 PF Y| | | | | |]; subst.
    - destruct (new_step s k _ r _ _ _ _ _ _ _ K X I N0 PF Y) as [g' [M' [I' [G' [_ [L' [Z' [_ [_ J]]]]]]]]]. exists g'. auto 10.
    - assert (PF : Forall (pred_ok ks vs) [BNot PRESENT]) by (constructor; [split; reflexivity|constructor]).
      destruct (new_step s k _ r _ _ _ _ _ _ _ K X I N0 PF Y) as [g' [M' [I' [G' [_ [L' [Z' [_ [_ J]]]]]]]]]. exists g'. auto 10.
    - unfold new_array in Y. destruct (width len =? ks); [|discriminate].
      assert (PF' : Forall (pred_ok ks vs) [array_inv ks len]) by (constructor; [auto|constructor]).
      destruct (new_step s k _ r _ _ _ _ _ _ _ K X I N0 PF' Y) as [g' [M' [I' [G' [_ [L' [Z' [_ [_ J]]]]]]]]]. exists g'. auto 10. }
  destruct Y as [g [I1 [G1 [L1 [Z1 J1]]]]].
  assert (B1 : bcov r g inv).
  { destruct (KN m N0) as [K0 X0]. destruct I1 as [_ [MI _]]. specialize (MI m g G1). rewrite K0 in MI.
    intros i Hi T. destruct (mi_base _ _ _ _ MI i Hi) as [vp [[] _]]. }
  apply run_app in R1 as [st2 [R2 R3]].
  assert (HR2 : holds r (gcs st2)) by (eapply holds_mono; [eapply run_mono; exact R3|auto]).
  destruct (spare_run fuel r a2 st1 st2 K X m g (ev r key) inv R2 I1 HR2 NO2 G1 NR UT) as [g2 [K2 [X2 [G2 [I2 [IN2 [BC2 [T2 L2]]]]]]]]; auto.
  { rewrite J1. auto. } { rewrite L1. reflexivity. }
  inversion R3 as [|? ? st3 ? ? D3 UF3 SF3 R4]; subst.
  assert (HR3 : holds r (gcs st3)) by (eapply holds_mono; [eapply run_mono; exact R4|auto]).
  inversion D3 as [| | |? ? g0 ? ? ? ? G0 KO H| | | | |]; subst. rewrite G2 in G0. injection G0 as <-. destruct I2 as [_ [MI _]].
  destruct (get_bcov _ r _ _ _ _ _ _ _ _ _ inv G2 (MI m g2 G2) KO H HR3 IN2 BC2) as [g' [_ [_ [_ [_ [_ FR]]]]]].
  destruct (is_definitely_empty g2 0) eqn:EE; [right|left; auto].
  split.
  - unfold is_definitely_empty in EE. apply bv_eqb_eq in EE. rewrite EE in L2. cbn [evalv] in L2. rewrite wrap_0 in L2. lia.
  - destruct fuel as [|fuel]; [discriminate H|]. cbn [get] in H. rewrite G2 in H. cbn [skip_of] in H. rewrite EE in H.
    injection H as _ _ <-. reflexivity.
Qed.

(** The last write of a key, if any. *)
Lemma last_write : forall r m q es, untouched r m q es \/
  exists a e b, es = a ++ e :: b /\ writes r m q e /\ untouched r m q b.
Proof.
  intros r m q. induction es as [|e es IH]; [left; intros e []|].
  destruct IH as [U|[a [e' [b [-> [W U]]]]]]; [|right; exists (e :: a), e', b; auto].
  assert (D : writes r m q e \/ ~ writes r m q e).
  { destruct e as [| | m0 key0 ? ? | m0 key0 | | | ]; cbn [writes]; auto; (destruct (N.eq_dec m0 m); [destruct (N.eq_dec (ev r key0) q)|]); tauto. }
  destruct D as [W|NW]; [right; exists [], e, es; auto|left; intros e' [<-|Hin]; auto].
Qed.

(** Arrays: the keys below the length given at the creation are the present ones. *)
Lemma array_always : forall fuel es r a1 m ks vs len a2 key v p b,
  consistent s k fuel es r -> es = a1 ++ ENew m ks vs len [array_inv ks len] :: a2 ++ EGet m key v p :: b ->
  (forall e, In e a2 -> match e with
     | ESet m' key' _ _ => m' = m -> ev r key' < ev r len
     | ERemove m' _ => m' <> m
     | _ => True end) ->
  width len = ks -> width key = ks ->
  (forall w x, In (x, w) (vvars len) -> 2 <= x) -> (forall x, In x (vbools len) -> 1 <= x) ->
  eb r p = (ev r key <? ev r len).
Proof.
  intros fuel es r a1 m ks vs len a2 key v p b H E WB WL WK V1 V2.
  assert (SAMELEN : forall q vp, ev (setKVP r q vp) len = ev r len).
  { intros q vp. apply evalv_agree. split.
    - intros x w Hx. specialize (V1 w x Hx). cbn [setKVP ebv]. destruct (N.eqb_spec x 0); [lia|]. destruct (N.eqb_spec x 1); [lia|]. reflexivity.
    - intros x Hx. specialize (V2 x Hx). cbn [setKVP ebool]. destruct (N.eqb_spec x 0); [lia|]. reflexivity. }
  assert (NR : forall e, In e a2 -> not_removal m e).
  { intros e He. specialize (WB e He). destruct e; cbn; auto. }
  destruct (last_write r m (ev r key) a2) as [U|[c [e [d [-> [W U]]]]]].
  - destruct (spare_reads _ _ _ _ _ _ _ _ _ _ _ _ _ _ _ H E NR U (or_introl eq_refl)) as [F|[Z ->]].
    + unfold array_inv in F. cbn [evalb] in F. apply eqb_prop in F. rewrite SAMELEN in F.
      cbn [KEY PRESENT evalv evalb setKVP ebv ebool N.eqb] in F. rewrite wrap_small in F by (rewrite <- WK; apply evalv_lt). auto.
    + rewrite Z. symmetry. apply N.ltb_ge. lia.
  - pose proof (WB e (in_elt e c d)) as WE.
    destruct e as [| | m0 key0 value l | m0 key0 | | | ]; cbn [writes] in W; try contradiction; destruct W as [-> EK].
    + specialize (WE eq_refl).
      destruct (read_your_writes s k SOK KOK fuel es r (a1 ++ ENew m ks vs len [array_inv ks len] :: c) m key0 value l d key v p b H) as [P _].
      * rewrite E, <- !app_assoc. reflexivity.
      * auto.
      * rewrite EK. auto.
      * rewrite P. symmetry. apply N.ltb_lt. rewrite <- EK. auto.
    + exfalso. auto.
Qed.

(** ** Counting the keys known to be present at some point, from anywhere in the run *)

(** Going back over one event keeps the bound on the number of present keys. *)
Lemma at_most_back1 : forall r m A e C L, incl (ekey r m e) A ->
  (forall key, e = ERemove m key -> snd (C (ev r key)) = true -> 1 <= L) ->
  at_most A (fst (replay1 r m (C, L) e)) (snd (replay1 r m (C, L) e)) -> at_most A C L.
Proof.
  intros r m A e C L IA RM AM.
  destruct e as [| m0 key v p | m0 key value len | m0 key | m0 pred p | m0 len | ]; cbn [replay1 fst snd ekey] in *; try exact AM;
  destruct (N.eqb_spec m0 m) as [->|]; try exact AM; cbn [fst snd] in AM;
  (assert (IQ : In (ev r key) A) by (apply IA; left; auto)); set (q := ev r key) in *; intros l ND HL.
  - destruct (snd (C q)) eqn:P.
    + apply AM; [auto|]. intros y Hy. destruct (HL y Hy) as [H1 H2]. split; [auto|]. unfold upd. destruct (y =? q); auto.
    + assert (NQ : ~ In q l) by (intros Hq; destruct (HL q Hq); congruence).
      assert (Z : N.of_nat (length (q :: l)) <= L + 1); [|cbn [length] in Z; lia].
      apply AM; [constructor; auto|]. intros y [<-|Hy]; [split; [auto|unfold upd; rewrite N.eqb_refl; auto]|].
      destruct (HL y Hy) as [H1 H2]. split; [auto|]. unfold upd. destruct (y =? q); auto.
  - destruct (snd (C q)) eqn:P.
    + specialize (RM key eq_refl P).
      assert (Z : N.of_nat (length (filter (fun y => negb (y =? q)) l)) <= L - 1).
      { apply AM; [apply NoDup_filter; auto|]. intros y Hy. apply filter_In in Hy as [Hy NE]. destruct (HL y Hy) as [H1 H2].
        split; [auto|]. unfold upd. destruct (y =? q); [discriminate|auto]. }
      assert (Y : Nat.le (length l) (S (length (filter (fun y => negb (y =? q)) l)))).
      { clear -ND. induction l as [|a l IH]; cbn [filter length]; [lia|]. inversion ND as [|? ? N1 N2]; subst.
        destruct (N.eqb_spec a q) as [->|]; cbn [negb length]; [|specialize (IH N2); lia].
        clear IH. assert (E : filter (fun y => negb (y =? q)) l = l); [|rewrite E; lia].
        clear N2 ND. induction l as [|b l IH]; [reflexivity|]. cbn [filter]. destruct (N.eqb_spec b q) as [->|]; [exfalso; apply N1; left; auto|].
        cbn [negb]. f_equal. apply IH. intros Hin. apply N1. right. auto. }
      lia.
    + apply AM; [auto|]. intros y Hy. destruct (HL y Hy) as [H1 H2]. split; [auto|]. unfold upd.
      destruct (N.eqb_spec y q) as [->|]; [congruence|auto].
Qed.
Lemma at_most_back : forall r m A es A0 sf C L, incl (accessed r m es) A -> incl (sf ++ accessed r m es) A ->
  real r m A0 sf C L es -> (A = sf ++ accessed r m es) -> at_most A C L.
Proof.
  intros r m A. induction es as [|e es IH]; intros A0 sf C L I1 I2 H E.
  - destruct H as [AM _]. rewrite E. cbn. rewrite app_nil_r. exact AM.
  - destruct H as [_ H]. unfold accessed in *. cbn [flat_map] in *.
    apply (at_most_back1 r m A e C L).
    + eapply incl_tran; [|exact I1]. apply incl_appl, incl_refl.
    + intros key -> P. rewrite N.eqb_refl in H. tauto.
    + assert (I1' : incl (flat_map (ekey r m) es) A) by (eapply incl_tran; [|exact I1]; apply incl_appr, incl_refl).
      rewrite app_assoc in I2, E.
      destruct e as [| m0 key v p | m0 key value len | m0 key | m0 pred p | m0 len | ]; cbn [replay1 fst snd ekey] in *;
      try (eapply IH; [| |exact H|]; auto; fail); destruct (m0 =? m); cbn [fst snd];
      try (eapply IH; [| |exact H|]; auto; fail); cbv zeta in H; (eapply IH; [| |apply H|]; auto).
Qed.

(** A map is created once. *)
Lemma no_second_new : forall fuel r es st st' K X m g ks vs len invs,
  run s k fuel st es st' -> INV r K X st -> holds r (gcs st') -> no_overflow r es ->
  gmaps st m = Some g -> ~ In (ENew m ks vs len invs) es.
Proof.
  intros fuel r es st st' K X m g ks vs len invs H. revert K X g.
  induction H as [st|st e st1 es st2 D UF SF R IH]; intros K X g I HR NO G; [intros []|].
  apply no_overflow_cons in NO as [NO1 NO2].
  pose proof (holds_mono _ _ _ (run_mono _ _ _ _ _ _ R) HR) as HR1.
  destruct (real_step s k SOK KOK _ _ m _ _ _ _ _ _ D I HR1 UF SF NO1 G) as [K1 [X1 [g1 [I1 [G1 _]]]]].
  intros [->|Hin]; [|eapply IH; eauto]. inversion D; congruence.
Qed.
Lemma about_after_new : forall fuel r nin sz a m ks vs len invs e c fin,
  2 <= nin -> run s k fuel (ginit nin sz) (a ++ e :: c) fin -> holds r (gcs fin) -> no_overflow r (a ++ e :: c) -> about m e ->
  ~ In (ENew m ks vs len invs) (e :: c).
Proof.
  intros fuel r nin sz a m ks vs len invs e c fin NX R HR NO AB.
  apply run_app in R as [st1 [R1 R2]].
  assert (NO1 : no_overflow r a) by (intros m' key value l Hin; eapply NO; apply in_or_app; left; exact Hin).
  assert (NO2 : no_overflow r (e :: c)) by (intros m' key value l Hin; eapply NO; apply in_or_app; right; exact Hin).
  assert (HR1 : holds r (gcs st1)) by (eapply holds_mono; [eapply run_mono; exact R2|auto]).
  destruct (inv_run s k SOK KOK fuel r a (ginit nin sz) st1 (fun _ => []) (fun _ => false) R1) as [K [X I]]; auto.
  { split; [cbn; lia|]. split; [intros m' g G; discriminate G|auto]. }
  assert (G : exists g, gmaps st1 m = Some g).
  { inversion R2 as [|? ? ? ? ? D]; subst. inversion D; subst; cbn in AB; subst; try contradiction; eauto. }
  destruct G as [g G]. eapply no_second_new; eauto.
Qed.

Lemma never_overfull : forall fuel es r a m l c,
  consistent s k fuel es r -> es = a ++ ELen m l :: c ->
  forall keys, NoDup keys -> (forall q, In q keys -> seen_present r m q a c) -> N.of_nat (length keys) <= ev r l.
Proof.
  intros fuel es r a m l c H E keys ND HK.
  destruct (consistent_map s k SOK KOK fuel es r a m _ _ H E eq_refl) as [a1 [ks [vs [len [invs [a2 [C0 [EA [HR _]]]]]]]]].
  set (A := accessed r m (a2 ++ ELen m l :: c)) in *.
  destruct (real_at _ _ _ _ _ _ _ _ HR) as [H1 _].
  pose proof (real_app _ _ _ _ _ _ _ _ HR) as HR2. cbn [app] in HR2.
  assert (AM : at_most A (fst (replay r m C0 (ev r len) a2)) (snd (replay r m C0 (ev r len) a2))).
  { eapply at_most_back; [| |exact HR2|]; unfold A, accessed; rewrite flat_map_app; auto using incl_refl.
    apply incl_appr, incl_refl. }
  destruct (replay r m C0 (ev r len) a2) as [C L] eqn:RE. cbn [fst snd] in *. rewrite (H1 eq_refl).
  apply AM; [auto|]. intros q Hq.
  (* events before are after the creation *)
  assert (LOC : forall b1 e b2, about m e -> a = b1 ++ e :: b2 -> exists d, a2 = d ++ e :: b2).
  { intros b1 e b2 AB EB. rewrite EB in EA.
    destruct H as [nin [sz [fin [NX [R [Hr NO]]]]]]. rewrite E, EB in R, NO. rewrite <- app_assoc in R, NO. cbn [app] in R, NO.
    pose proof (about_after_new fuel r nin sz b1 m ks vs len invs e (b2 ++ ELen m l :: c) fin NX R Hr NO AB) as NI.
    clear -EA NI AB. revert a1 EA. induction b1 as [|x b1 IH]; intros a1 EA; destruct a1 as [|y a1]; cbn [app] in EA.
    - injection EA as -> _. destruct AB.
    - exfalso. injection EA as <- EA. apply NI. right. apply in_or_app. left. rewrite EA. apply in_or_app. right. left. reflexivity.
    - injection EA as _ <-. exists b1. reflexivity.
    - injection EA as _ EA. eapply IH; eauto. }
  assert (RD : forall d b2, a2 = d ++ b2 -> untouched r m q b2 -> C q = fst (replay r m C0 (ev r len) d) q).
  { intros d b2 -> U. rewrite replay_app in RE. apply (f_equal fst) in RE. cbn [fst] in RE. rewrite <- RE. apply replay_untouched. auto. }
  destruct (HK q Hq) as [[b1 [key [v [p [b2 [EB [EK [P U]]]]]]]]|[[b1 [key [value [l' [b2 [EB [EK U]]]]]]]|[d [key [v [p [b2 [EB [EK [P U]]]]]]]]]].
  - apply LOC in EB as [d D]; [|reflexivity]. split.
    + unfold A, accessed. rewrite flat_map_app, D, flat_map_app. apply in_or_app. left. apply in_or_app. right.
      cbn [flat_map ekey]. rewrite N.eqb_refl. left. auto.
    + rewrite (RD (d ++ [EGet m key v p]) b2); [|rewrite <- app_assoc; exact D|auto]. rewrite replay_app.
      change (fst (replay r m (fst (replay r m C0 (ev r len) d)) (snd (replay r m C0 (ev r len) d)) [EGet m key v p]))
        with (fst (replay r m C0 (ev r len) d)).
      rewrite D, <- app_assoc in HR. cbn [app] in HR. destruct (real_at _ _ _ _ _ _ _ _ HR) as [H2 _].
      destruct (replay r m C0 (ev r len) d). cbn [fst ok1] in *. destruct (H2 eq_refl) as [H3 _]. congruence.
  - apply LOC in EB as [d D]; [|reflexivity]. split.
    + unfold A, accessed. rewrite flat_map_app, D, flat_map_app. apply in_or_app. left. apply in_or_app. right.
      cbn [flat_map ekey]. rewrite N.eqb_refl. left. auto.
    + rewrite (RD (d ++ [ESet m key value l']) b2); [|rewrite <- app_assoc; exact D|auto]. rewrite replay_app.
      unfold replay at 1. cbn [fold_left replay1]. rewrite N.eqb_refl. cbn [fst]. unfold upd. rewrite EK, N.eqb_refl. reflexivity.
  - split.
    + unfold A, accessed. rewrite flat_map_app. apply in_or_app. right. cbn [flat_map ekey app]. rewrite EB, flat_map_app.
      apply in_or_app. right. cbn [flat_map ekey]. rewrite N.eqb_refl. left. auto.
    + rewrite EB in HR. rewrite (app_comm_cons _ _ (ELen m l)), app_assoc in HR.
      destruct (real_at _ _ _ _ _ _ _ _ HR) as [H2 _]. rewrite replay_app, RE in H2. cbn [fst snd] in H2.
      assert (U' : untouched r m q (ELen m l :: d)) by (intros e' [<-|Hin]; [intros []|apply U; auto]).
      pose proof (replay_untouched r m q _ C L U') as RU. destruct (replay r m C L (ELen m l :: d)). cbn [fst ok1] in *.
      destruct (H2 eq_refl) as [H3 _]. rewrite EK, RU in H3. congruence.
Qed.
End Arr.
