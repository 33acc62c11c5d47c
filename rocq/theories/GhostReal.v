(** * Runs of map operations read as real histories *)

From Coq Require Import NArith List Bool Lia Arith.
From Verif Require Import Expr Solver KMerge Wt GhostMap GhostSpec GhostFacts GhostSim GhostHist GhostTrace GhostCons.
Import ListNotations.
Open Scope N_scope.

(** ** Constraints and fresh names only grow *)

Definition mono (st st' : gst) : Prop := incl (gcs st) (gcs st') /\ gnext st <= gnext st'.
Lemma mono_refl : forall st, mono st st.
Proof. split; [apply incl_refl|lia]. Qed.
Lemma mono_trans : forall a b c, mono a b -> mono b c -> mono a c.
Proof. intros a b c [A1 A2] [B1 B2]. split; [eapply incl_tran; eauto|lia]. Qed.
Lemma mono_set_map : forall st m g, mono st (set_map st m g).
Proof. split; [apply incl_refl|cbn; lia]. Qed.
Lemma mono_bump : forall st n, mono st (bump st n).
Proof. split; [apply incl_refl|cbn; lia]. Qed.
Lemma mono_add : forall st l, mono st (add_cs st l).
Proof. split; [cbn; apply incl_appl, incl_refl|cbn; lia]. Qed.
#[local] Hint Resolve mono_refl mono_set_map mono_bump mono_add : mono.

Lemma em_mono : forall (g : gst -> N -> bv -> option bv -> bexp -> option nat -> res (gst * (bv * bexp))) sg cond,
  (forall st m key cv c v st' o, g st m key cv c v = Ok (st', o) -> mono st st') ->
  (forall e st st' o, emv g sg cond st e = Ok (st', o) -> mono st st') /\
  (forall e st st' o, emb g sg cond st e = Ok (st', o) -> mono st st').
Proof.
  intros g sg cond HG. apply expr_mind; intros; cbn [emv emb] in *;
  repeat match goal with
  | H : bindr _ _ = Ok _ |- _ => apply bindr_ok in H as [[? ?] [? H]]
  | H : Ok _ = Ok _ |- _ => injection H as <- <-
  | IH : forall st st' o, emv g sg cond st ?e = Ok _ -> _, H : emv g sg cond _ ?e = Ok _ |- _ => apply IH in H
  | IH : forall st st' o, emb g sg cond st ?e = Ok _ -> _, H : emb g sg cond _ ?e = Ok _ |- _ => apply IH in H
  | H : g _ _ _ _ _ _ = Ok _ |- _ => apply HG in H
  end; eauto using mono_refl, mono_trans.
Qed.

Section Real.
Variable s : solver.
Variable k : claripy.
Hypothesis SOK : solver_ok s.
Hypothesis KOK : claripy_ok k.

Lemma overfull_mono : forall st m d st' e, is_not_overfull s k st m d = (st', e) -> mono st st'.
Proof.
  intros st m d st' e H. unfold is_not_overfull in H. destruct (gmaps st m); [|injection H as <- <-; auto with mono].
  destruct (known_items g d). destruct (definitely_true s _ _); injection H as <- <-; auto with mono.
Qed.
Lemma inv_calls_mono : forall call invs st st' o,
  (forall st inv st' o, call st inv = Ok (st', o) -> mono st st') ->
  inv_calls call st invs = Ok (st', o) -> mono st st'.
Proof.
  intros call invs. induction invs as [|inv invs IH]; intros st st' o HC H; cbn [inv_calls] in H.
  - injection H as <- <-. auto with mono.
  - apply bindr_ok in H as [[st1 c] [H1 H]]. apply bindr_ok in H as [[st2 cs] [H2 H]]. injection H as <- <-.
    eapply mono_trans; [eapply HC; eauto|eapply IH; eauto].
Qed.
Lemma get_mono : forall fuel st m key cv cond ver st' o,
  get s k fuel st m key cv cond ver = Ok (st', o) -> mono st st'.
Proof.
  induction fuel as [|fuel IH]; intros st m key cv cond ver st' o H; [discriminate|]. cbn [get] in H.
  destruct (gmaps st m) as [g|]; [|discriminate].
  destruct (is_definitely_empty g _); [injection H as <- <-; auto with mono|].
  destruct (negb _); [discriminate|]. destruct (known_items g _) as [known g1].
  destruct (get_exact_match _ _ _ _ _ _); [injection H as <- <-; auto with mono|].
  apply bindr_ok in H as [[st4 invs] [H4 H]].
  apply inv_calls_mono in H4.
  2:{ intros st0 inv st0' o0. apply (em_mono (get s k fuel) _ _ IH). }
  destruct (is_not_overfull s k st4 m _) as [st5 fits] eqn:OE. apply overfull_mono in OE. injection H as <- <-.
  eapply mono_trans; [|apply mono_add]. eapply mono_trans; [|exact OE]. eapply mono_trans; [|exact H4].
  eapply mono_trans; [apply mono_set_map|]. eapply mono_trans; [apply (mono_bump _ 1)|].
  eapply mono_trans; [apply mono_add|]. apply mono_set_map.
Qed.
Lemma inv_call_mono : forall fuel st ks vs inv i cond st' o, inv_call s k fuel st ks vs inv i cond = Ok (st', o) -> mono st st'.
Proof. intros fuel st ks vs inv i cond st' o. apply (em_mono (get s k fuel)). apply get_mono. Qed.
Lemma add_inv_mono : forall fuel st m inv st', add_inv s k fuel st m inv = Ok st' -> mono st st'.
Proof.
  intros fuel st m inv st' H. unfold add_inv in H. destruct (gmaps st m); [|discriminate].
  apply bindr_ok in H as [[st1 c] [H1 H]]. destruct (gmaps st1 m); [|discriminate]. injection H as <-.
  apply inv_call_mono in H1. eapply mono_trans; [exact H1|]. eapply mono_trans; [apply mono_add|]. apply mono_set_map.
Qed.
Lemma add_invs_mono : forall fuel m invs st st', add_invs s k fuel st m invs = Ok st' -> mono st st'.
Proof.
  induction invs as [|inv invs IH]; intros st st' H; cbn [add_invs] in H; [injection H as <-; auto with mono|].
  apply bindr_ok in H as [st1 [H1 H]]. apply add_inv_mono in H1. eapply mono_trans; eauto.
Qed.
Lemma map_new_mono : forall fuel st m ks vs spec st', map_new s k fuel st m ks vs spec = Ok st' -> mono st st'.
Proof.
  intros fuel st m ks vs spec st' H. unfold map_new in H.
  assert (X : forall len, mono st (raw_new st m ks vs len)) by (intros; split; [apply incl_refl|cbn; lia]).
  destruct spec as [[len invs]|]; apply add_invs_mono in H; eapply mono_trans; eauto.
Qed.
Lemma inv_items_mono : forall fuel ks vs inv items st st' o, inv_items s k fuel st ks vs inv items = Ok (st', o) -> mono st st'.
Proof.
  intros fuel ks vs inv. induction items as [|i items IH]; intros st st' o H; cbn [inv_items] in H; [injection H as <- <-; auto with mono|].
  apply bindr_ok in H as [[st1 c] [H1 H]]. apply bindr_ok in H as [[st2 cs] [H2 H]]. injection H as <- <-.
  apply inv_call_mono in H1. apply IH in H2. eapply mono_trans; eauto.
Qed.

Lemma does_mono : forall fuel st e st', does s k fuel st e st' -> mono st st'.
Proof.
  intros fuel st e st' H.
  destruct H as [st m ks vs len invs st' N0 PF H|st m ks vs st' N0 H|st m ks vs len st' N0 PF H
                |st m g0 key st' v p G0 KO H|st m g0 key value st' G0 KO VW H|st m g0 key st' G0 KO H
                |st m g0 pred st' b G0 PO H|st m g0 G0|st c].
  - eapply map_new_mono; eassumption.
  - eapply map_new_mono; eassumption.
  - unfold new_array in H. destruct (_ =? _); [|discriminate]. eapply map_new_mono; eassumption.
  - eapply get_mono; eassumption.
  - unfold set_ in H. apply bindr_ok in H as [[st1 r] [H1 H]]. apply bindr_ok in H as [c [H2 H]]. apply get_mono in H1.
    destruct (gmaps st1 m); [|discriminate]. injection H as <-.
    eapply mono_trans; [eassumption|]. apply mono_set_map.
  - unfold remove in H. apply bindr_ok in H as [[st1 r] [H1 H]]. apply get_mono in H1.
    destruct (gmaps st1 m); [|discriminate]. injection H as <-.
    eapply mono_trans; [eassumption|]. eapply mono_trans; [apply (mono_bump _ 1)|]. apply mono_set_map.
  - unfold forall_ in H. rewrite G0 in H.
    destruct (is_definitely_empty g0 0); [injection H as <- <-; auto with mono|]. destruct (known_items g0 0) as [known g1].
    apply bindr_ok in H as [[st2 kr] [H1 H]]. apply inv_items_mono in H1.
    destruct (is_not_overfull s k st2 m 0) as [st3 fits] eqn:OE. apply overfull_mono in OE.
    apply bindr_ok in H as [[st4 u] [H2 H]]. apply inv_call_mono in H2.
    apply bindr_ok in H as [st6 [H3 H]]. apply add_inv_mono in H3. injection H as <- <-.
    eapply mono_trans; [apply mono_set_map|]. eapply mono_trans; [eassumption|]. eapply mono_trans; [eassumption|].
    eapply mono_trans; [eassumption|]. eapply mono_trans; [|eassumption]. eapply mono_trans; [apply (mono_bump _ 1)|]. apply mono_add.
  - auto with mono.
  - auto with mono.
Qed.
Lemma run_mono : forall fuel st es st', run s k fuel st es st' -> mono st st'.
Proof. intros fuel st es st' H. induction H; auto with mono. eapply mono_trans; [eapply does_mono; eassumption|auto]. Qed.
Lemma holds_mono : forall r st st', mono st st' -> holds r (gcs st') -> holds r (gcs st).
Proof. intros r st st' [I _] H c Hc. apply H, I, Hc. Qed.

(** ** One map over time *)

Record prog (r : env) (K : kn) (x : bool) (g : gmap) (K' : kn) (x' : bool) (g' : gmap) : Prop := {
  pr_ext : kext K x K' x';
  pr_len : (length (glayers g) <= length (glayers g'))%nat;
  pr_bot : forall n q, (n <= length (glayers g))%nat -> top r (bottom n (glayers g')) q = top r (bottom n (glayers g)) q;
  pr_ks : gks g' = gks g; pr_vs : gvs g' = gvs g;
  pr_invs : incl (ginvs g) (ginvs g');
  pr_cov : forall inv n, In inv (ginvs g) -> (n <= length (glayers g))%nat ->
           covers r K (glayers g) inv n -> covers r K' (glayers g') inv n }.

Lemma prog_refl : forall r K x g, prog r K x g K x g.
Proof. constructor; auto using kext_refl, incl_refl. Qed.
Lemma prog_trans : forall r K x g K1 x1 g1 K2 x2 g2,
  prog r K x g K1 x1 g1 -> prog r K1 x1 g1 K2 x2 g2 -> prog r K x g K2 x2 g2.
Proof.
  intros r K x g K1 x1 g1 K2 x2 g2 [A1 A2 A3 A4 A5 A6 A7] [B1 B2 B3 B4 B5 B6 B7]. constructor; try congruence.
  - eapply kext_trans; eauto.
  - lia.
  - intros n q H. rewrite B3 by lia. auto.
  - eapply incl_tran; eauto.
  - intros inv n Hi Hn CV. apply B7; [auto|lia|auto].
Qed.
Lemma same_layers_len : forall l l', Forall2 same_layer l l' -> length l = length l'.
Proof. intros l l' F. induction F; cbn; auto. Qed.
Lemma prog_gstep : forall r K x g K' x' g', gstep r K x g K' x' g' -> prog r K x g K' x' g'.
Proof.
  intros r K x g K' x' g' [A1 A2 A3 A4 A5 A6 A7 A8 A9 B1]. pose proof (same_layers_len _ _ A3). constructor; auto.
  - lia.
  - intros n q _. symmetry. apply bottom_same. auto.
  - rewrite A7. apply incl_refl.
Qed.
Lemma prog_write : forall r K x g L, prog r K x g K x (set_layers g (L :: glayers g)).
Proof.
  intros. constructor; cbn [set_layers glayers ginvs gks gvs]; auto using kext_refl, incl_refl.
  - cbn; lia.
  - intros n q H. rewrite bottom_cons by auto. reflexivity.
  - intros inv n Hi Hn CV. unfold covers in *. rewrite bottom_cons by auto. auto.
Qed.

(** A predicate that covers a map keeps covering it. *)
Definition holding (r : env) (K : kn) (x : bool) (g : gmap) (inv : bexp) (n : nat) : Prop :=
  (n <= length (glayers g))%nat /\ covers r K (glayers g) inv n /\ (In inv (ginvs g) \/ x = true).
Lemma holding_prog : forall r K x g K' x' g' inv n,
  prog r K x g K' x' g' -> holding r K x g inv n -> holding r K' x' g' inv n.
Proof.
  intros r K x g K' x' g' inv n [A1 A2 A3 A4 A5 A6 A7] [H1 [H2 H3]]. split; [lia|].
  destruct H3 as [H3|H3]; [split; [apply A7; auto|left; auto]|].
  destruct A1 as [l [-> A1]]. destruct (A1 H3) as [X F]. split; [|auto].
  intros q vp Hin P T. rewrite A3 in T by auto. apply in_app_or in Hin as [Hin|Hin]; [apply H2; auto|].
  rewrite Forall_forall in F. specialize (F _ Hin). cbn in F. congruence.
Qed.

(** Writes. *)
Lemma write_minv : forall r K x g i len' b,
  minv r K x g -> sized (gks g) (gvs g) i -> In (ev r (ik i)) (map fst K) -> eb r (ip i) = b ->
  width len' = width (len_at g 0) ->
  (let p := snd (cont r (klook K) (glayers g) (ev r (ik i))) in
   ev r len' + (if p then 1 else 0) = ev r (len_at g 0) + (if b then 1 else 0)) ->
  minv r K x (set_layers g (mkLayer [i] len' (O, []) :: glayers g)).
Proof.
  intros r K x g i len' b M SZ IN B W LE.
  destruct M as [A1 A2 A3 A4 A5 A6 A7 A8 A9 B1 B2 B3 B4 B5].
  set (g' := set_layers g (mkLayer [i] len' (O, []) :: glayers g)).
  assert (T : forall q, top r (glayers g') q = if q =? ev r (ik i) then Some (val r i) else top r (glayers g) q).
  { intros q. cbn [g' set_layers glayers top litems find]. rewrite N.eqb_sym. destruct (q =? ev r (ik i)); reflexivity. }
  assert (EC : cnt K (cont r (klook K) (glayers g')) = cnt K (upd (cont r (klook K) (glayers g)) (ev r (ik i)) (ev r (iv i), b))).
  { apply cnt_ext. intros q _. unfold cont at 1. rewrite T. unfold upd.
    destruct (q =? ev r (ik i)); [cbn; auto|reflexivity]. }
  pose proof (cnt_upd K (cont r (klook K) (glayers g)) (ev r (ik i)) (ev r (iv i)) b A8 IN) as CU. cbv zeta in LE.
  assert (Z : N.of_nat (cnt K (cont r (klook K) (glayers g'))) + ev r (len_at g 0) = N.of_nat (cnt K (cont r (klook K) (glayers g))) + ev r len').
  { rewrite EC. destruct (snd (cont r (klook K) (glayers g) (ev r (ik i)))), b; lia. }
  assert (LQ : len_at g' 0 = len') by reflexivity.
  constructor; rewrite ?LQ; auto.
  - constructor; [reflexivity|auto].
  - cbn [g' set_layers glayers gitems coherent lcache fst snd firstn]. split; [auto|]. split; [lia|]. reflexivity.
  - constructor; [|exact A3]. cbn [litems]. auto.
  - rewrite W. exact A7.
  - intros j Hj. destruct (A9 j Hj) as [vp [V1 V2]]. exists vp. split; [auto|]. rewrite T.
    destruct (_ =? _); [discriminate|auto].
  - intros q. rewrite T. destruct (N.eqb_spec q (ev r (ik i))) as [->|]; auto.
  - intros XT. specialize (B3 XT). lia.
  - lia.
  - intros EL. discriminate EL.
Qed.

Lemma set_step : forall fuel r st m g key value st' K x,
  gmaps st m = Some g -> minv r K x g -> key_ok s st g key -> width value = gvs g ->
  set_ s k fuel st m key value = Ok st' -> holds r (gcs st') -> unfolded st' -> sizes_fit st' ->
  ev r (len_at g 0) + 1 < 2 ^ width (len_at g 0) ->
  exists K' x' g', prog r K x g K' x' g' /\ minv r K' x' g' /\ gmaps st' m = Some g' /\ (forall y, y <> m -> gmaps st' y = gmaps st y) /\
    In (ev r key) (map fst K') /\
    (forall q, top r (glayers g') q = if q =? ev r key then Some (ev r value, true) else top r (glayers g) q) /\
    ev r (len_at g' 0) = (if snd (cont r (klook K') (glayers g) (ev r key)) then ev r (len_at g 0) else ev r (len_at g 0) + 1).
Proof.
  intros fuel r st m g key value st' K x G M KO VW H HR UF SF NO.
  unfold set_ in H. apply bindr_ok in H as [[st1 [v p]] [GE H]]. cbn [snd] in H.
  apply bindr_ok in H as [co [GC H]].
  pose proof (get_if_constant_b_spec s SOK (gcs st1) p) as CS. rewrite GC in CS.
  destruct (gmaps st1 m) as [g1|] eqn:G1; [|discriminate]. injection H as <-.
  change (gcs (set_map st1 m _)) with (gcs st1) in HR.
  set (pr := match co with Some true => BTrue | Some false => BFalse | None => p end) in *.
  assert (PE : eb r pr = eb r p).
  { unfold pr. destruct co as [[|]|]; [| |reflexivity]; cbn [evalb]; symmetry; apply CS; auto. }
  set (w := width (len_at g1 0)) in *. set (it := mkItem key value BTrue) in *.
  set (ch := mkif k pr (BVV w 0) (BVV w 1)) in *.
  assert (SF1 : sizes_fit st1).
  { intros y gy Gy. destruct (N.eq_dec y m) as [->|NE].
    - rewrite G1 in Gy. injection Gy as <-. specialize (SF m _ (set_map_same _ _ _)).
      unfold with_item_layer in SF. destruct (glayers g1) as [|L rest] eqn:EL; [|destruct (negb _ && _)];
      cbn [set_layers gitems glayers glen length] in SF |- *; rewrite ?EL in *; cbn [length] in *; lia.
    - apply (SF y). rewrite set_map_other by auto. auto. }
  destruct (get_gstep s k SOK KOK fuel r st m g key st1 v p K x G M KO GE HR SF1) as [K' [x' [g1' [GS [_ [_ [G1' [OT [IN [OB _]]]]]]]]]].
  rewrite G1 in G1'. injection G1' as <-. pose proof GS as GS0. destruct GS as [KE M1 LY EK EV EU EI EG EL CV].
  assert (SG : single (glayers (with_item_layer k g1 it ch))) by (eapply UF; apply set_map_same).
  rewrite (with_item_layer_single k g1 it ch (mi_single _ _ _ _ M1) SG) in *.
  set (len' := mkadd k (len_at g1 0) ch) in *.
  assert (TS : forall q, top r (glayers g1) q = top r (glayers g) q) by (intros; symmetry; apply top_shape; auto).
  assert (CT : forall q, cont r (klook K') (glayers g1) q = cont r (klook K') (glayers g) q) by (intros; unfold cont; rewrite TS; auto).
  assert (LE : ev r len' = if snd (cont r (klook K') (glayers g) (ev r key)) then ev r (len_at g 0) else ev r (len_at g 0) + 1).
  { unfold len', ch. rewrite (mkadd_ev k KOK), (mkif_ev k KOK), PE. fold w. destruct OB as [OB _]. cbn [snd] in OB. rewrite OB.
    cbn [width evalv]. pose proof (evalv_lt lk0 r (len_at g1 0)) as LT. fold w in LT. unfold w in *. rewrite EL in *.
    destruct (snd _); rewrite wrap_wrap.
    - rewrite wrap_0, N.add_0_r. apply wrap_small. auto.
    - rewrite (wrap_small _ 1) by lia. apply wrap_small. auto. }
  exists K', x', (set_layers g1 (mkLayer [it] len' (O, []) :: glayers g1)).
  split; [eapply prog_trans; [apply prog_gstep; exact GS0|apply prog_write]|].
  split.
  { apply (write_minv r K' x' g1 it len' true); auto.
    - split; cbn; [destruct KO; congruence|congruence].
    - unfold len'. rewrite (mkadd_w k KOK). reflexivity.
    - cbn [ik it]. rewrite CT, LE, EL. destruct (snd _); lia. }
  split; [apply set_map_same|]. split; [intros; rewrite set_map_other by auto; auto|]. split; [auto|]. split.
  - intros q. cbn [set_layers glayers top litems find it ik]. rewrite N.eqb_sym. destruct (q =? ev r key); [reflexivity|apply TS].
  - exact LE.
Qed.

Lemma remove_step : forall fuel r st m g key st' K x,
  gmaps st m = Some g -> minv r K x g -> key_ok s st g key ->
  remove s k fuel st m key = Ok st' -> holds r (gcs st') -> unfolded st' -> sizes_fit st' ->
  exists K' x' g' u, prog r K x g K' x' g' /\ minv r K' x' g' /\ gmaps st' m = Some g' /\ (forall y, y <> m -> gmaps st' y = gmaps st y) /\
    In (ev r key) (map fst K') /\
    (forall q, top r (glayers g') q = if q =? ev r key then Some (u, false) else top r (glayers g) q) /\
    (snd (cont r (klook K') (glayers g) (ev r key)) = true -> 1 <= ev r (len_at g 0)) /\
    ev r (len_at g' 0) = (if snd (cont r (klook K') (glayers g) (ev r key)) then ev r (len_at g 0) - 1 else ev r (len_at g 0)).
Proof.
  intros fuel r st m g key st' K x G M KO H HR UF SF.
  unfold remove in H. apply bindr_ok in H as [[st1 [v p]] [GE H]]. cbn [snd] in H.
  destruct (gmaps st1 m) as [g1|] eqn:G1; [|discriminate]. injection H as <-.
  change (gcs (set_map (bump st1 1) m _)) with (gcs st1) in HR.
  set (w := width (len_at g1 0)) in *. set (it := mkItem key (BVS (gvs g1) (gnext st1)) BFalse) in *.
  set (ch := mkif k p (BVV w (2 ^ w - 1)) (BVV w 0)) in *.
  assert (SF1 : sizes_fit st1).
  { intros y gy Gy. destruct (N.eq_dec y m) as [->|NE].
    - rewrite G1 in Gy. injection Gy as <-. specialize (SF m _ (set_map_same _ _ _)).
      unfold with_item_layer in SF. destruct (glayers g1) as [|L rest] eqn:EL; [|destruct (negb _ && _)];
      cbn [set_layers gitems glayers glen length] in SF |- *; rewrite ?EL in *; cbn [length] in *; lia.
    - apply (SF y). rewrite set_map_other by auto. auto. }
  destruct (get_gstep s k SOK KOK fuel r st m g key st1 v p K x G M KO GE HR SF1) as [K' [x' [g1' [GS [_ [_ [G1' [OT [IN [OB _]]]]]]]]]].
  rewrite G1 in G1'. injection G1' as <-. pose proof GS as GS0. destruct GS as [KE M1 LY EK EV EU EI EG EL CV].
  assert (SG : single (glayers (with_item_layer k g1 it ch))) by (eapply UF; apply set_map_same).
  rewrite (with_item_layer_single k g1 it ch (mi_single _ _ _ _ M1) SG) in *.
  set (len' := mkadd k (len_at g1 0) ch) in *.
  assert (TS : forall q, top r (glayers g1) q = top r (glayers g) q) by (intros; symmetry; apply top_shape; auto).
  assert (CT : forall q, cont r (klook K') (glayers g1) q = cont r (klook K') (glayers g) q) by (intros; unfold cont; rewrite TS; auto).
  assert (POS : snd (cont r (klook K') (glayers g) (ev r key)) = true -> 1 <= ev r (len_at g 0)).
  { intros P. rewrite <- CT in P. pose proof (cnt_pos _ _ _ IN P). pose proof (mi_full _ _ _ _ M1). rewrite EL in *. lia. }
  assert (LE : ev r len' = if snd (cont r (klook K') (glayers g) (ev r key)) then ev r (len_at g 0) - 1 else ev r (len_at g 0)).
  { unfold len', ch. rewrite (mkadd_ev k KOK), (mkif_ev k KOK). fold w. destruct OB as [OB _]. cbn [snd] in OB. rewrite OB.
    cbn [width evalv]. pose proof (evalv_lt lk0 r (len_at g1 0)) as LT. fold w in LT. unfold w in *. rewrite EL in *.
    destruct (snd _) eqn:P; rewrite wrap_wrap.
    - specialize (POS eq_refl). rewrite (wrap_small _ (2 ^ width (len_at g 0) - 1)) by lia.
      replace (ev r (len_at g 0) + (2 ^ width (len_at g 0) - 1)) with (ev r (len_at g 0) - 1 + 1 * 2 ^ width (len_at g 0)) by lia.
      unfold wrap. rewrite N.mod_add by lia. apply N.mod_small. lia.
    - rewrite wrap_0, N.add_0_r. apply wrap_small. auto. }
  exists K', x', (set_layers g1 (mkLayer [it] len' (O, []) :: glayers g1)), (ev r (iv it)).
  split; [eapply prog_trans; [apply prog_gstep; exact GS0|apply prog_write]|].
  split.
  { apply (write_minv r K' x' g1 it len' false); auto.
    - split; cbn; [destruct KO; congruence|congruence].
    - unfold len'. rewrite (mkadd_w k KOK). reflexivity.
    - cbn [ik it]. rewrite CT, LE, EL. destruct (snd _) eqn:P; [|lia]. specialize (POS eq_refl). lia. }
  split; [apply set_map_same|]. split; [intros; rewrite set_map_other by auto; apply OT; auto|]. split; [auto|]. split.
  - intros q. cbn [set_layers glayers top litems find it ik]. rewrite N.eqb_sym. destruct (q =? ev r key); [reflexivity|apply TS].
  - auto.
Qed.

(** Quantified predicates. *)
Lemma forall_step : forall fuel r st m g pred st' b K x,
  gmaps st m = Some g -> minv r K x g -> 1 <= gnext st -> pred_ok (gks g) (gvs g) pred ->
  forall_ s k fuel st m pred = Ok (st', b) -> holds r (gcs st') -> sizes_fit st' ->
  exists K' x' g' inv n, prog r K x g K' x' g' /\ minv r K' x' g' /\ gmaps st' m = Some g' /\ (forall y, y <> m -> gmaps st' y = gmaps st y) /\
    Forall2 same_layer (glayers g) (glayers g') /\ len_at g' 0 = len_at g 0 /\ n = length (glayers g) /\ 
    holding r K' x' g' inv n /\
    (eb r b = true -> forall q vp, snd vp = true -> eb (setKVP r q vp) inv = true -> eb (setKVP r q vp) pred = true) /\
    (eb r b = true -> forall q vp, top r (glayers g) q = Some vp -> snd vp = true -> eb (setKVP r q vp) pred = true).
Proof.
  intros fuel r st m g pred st' b K x G M NX [P1 P2] H HR SF.
  unfold forall_ in H. rewrite G in H.
  assert (FR : freezeb st (BImp PRESENT pred) = BImp PRESENT pred) by (apply freeze_plain; cbn; auto).
  rewrite FR in H. set (inv := BImp PRESENT pred) in *.
  assert (I1 : nolkb inv = true) by (cbn; auto).
  assert (RF : forall l : list layer, Forall2 same_layer l l).
  { induction l; constructor; [split; reflexivity|auto]. }
  assert (INVE : forall q vp, snd vp = true -> eb (setKVP r q vp) inv = true -> eb (setKVP r q vp) pred = true).
  { intros q vp PV HI. unfold inv in HI. rewrite BImp_true in HI. apply HI. cbn [evalb PRESENT setKVP ebool]. rewrite N.eqb_refl. auto. }
  destruct (is_definitely_empty g 0) eqn:EE.
  - injection H as <- <-. unfold is_definitely_empty in EE. apply bv_eqb_eq in EE.
    assert (Z : ev r (len_at g 0) = 0) by (rewrite EE; cbn [evalv]; apply wrap_0).
    pose proof (mi_full _ _ _ _ M) as FU. rewrite Z in FU.
    assert (AB : forall y, In y (map fst K) -> snd (cont r (klook K) (glayers g) y) = false).
    { intros y Hy. destruct (snd (cont r (klook K) (glayers g) y)) eqn:P; [|auto]. pose proof (cnt_pos _ _ _ Hy P). lia. }
    exists K, true, g, inv, (length (glayers g)). split; [|split; [|split; [auto|split; [auto|split; [auto|split; [auto|split; [auto|split; [|split; [auto|]]]]]]]]].
    + constructor; auto using incl_refl. exists []. rewrite app_nil_r. auto.
    + destruct M as [A1 A2 A3 A4 A5 A6 A7 A8 A9 B1 B2 B3 B4 B5]. constructor; auto.
      * intros y vp Hy. destruct (B2 y vp Hy) as [|[? ?]]; auto.
      * intros _. rewrite Z. lia.
    + split; [lia|]. split; [|auto]. intros q vp Hin PV T. rewrite bottom_all in T.
      assert (In q (map fst K)) as HQ by (change q with (fst (q, vp)); apply in_map; auto).
      specialize (AB q HQ). unfold cont in AB. rewrite T, (klook_in _ _ _ (mi_nd _ _ _ _ M) Hin) in AB. congruence.
    + intros _ q vp T PV. assert (HQ : In q (map fst K)) by (apply (mi_top _ _ _ _ M); congruence).
      specialize (AB q HQ). unfold cont in AB. rewrite T in AB. congruence.
  - destruct (known_items_spec g (mi_coh _ _ _ _ M)) as [g1 [E1 [Sm Co]]]. rewrite E1 in H.
    pose proof (minv_same _ _ _ _ _ Sm Co M) as M1.
    set (known := pure_known (glayers g) (gitems g)) in *.
    rewrite (inv_items_plain s k fuel (gks g) (gvs g) inv known _ I1) in H. cbn [bindr] in H.
    set (st1 := set_map st m g1) in *.
    assert (G1 : gmaps st1 m = Some g1) by apply set_map_same.
    destruct (known_items_spec g1 Co) as [g2 [E2 [Sm2 Co2]]].
    assert (OX : exists fits, is_not_overfull s k st1 m 0 = (set_map st1 m g2, fits)).
    { unfold is_not_overfull. rewrite G1, E2. destruct (definitely_true s _ _); eauto. }
    destruct OX as [fits OE]. rewrite OE in H. unfold inv_call in H at 1. rewrite (emb_plain _ _ _ inv I1) in H. cbn [bindr] in H.
    pose proof (minv_same _ _ _ _ _ Sm2 Co2 M1) as M2.
    set (st3 := set_map st1 m g2) in *.
    change (gnext st3) with (gnext st) in H. set (n := gnext st) in *.
    set (U := substb (item_subst (gks g) (gvs g) (gunk g)) inv) in *.
    set (KRs := map (fun i => substb (item_subst (gks g) (gvs g) i) inv) known) in *.
    set (UNK := BAndL (map (fun i => BNe (ik (gunk g)) (ik i)) known)) in *.
    set (ct := BIff (BoolS n) (BAnd (BAndL KRs) (BImp fits (BImp UNK U)))) in *.
    apply bindr_ok in H as [st6 [AI H]]. injection H as <- <-.
    unfold add_inv in AI. change (gmaps (add_cs (bump st3 1) [ct]) m) with (gmaps st3 m) in AI.
    assert (G3 : gmaps st3 m = Some g2) by apply set_map_same. rewrite G3 in AI. unfold inv_call in AI.
    rewrite (emb_plain _ _ _ (BImp (BoolS n) inv)) in AI by (cbn; auto). cbn [bindr] in AI.
    change (gmaps (add_cs (bump st3 1) [ct]) m) with (gmaps st3 m) in AI. rewrite G3 in AI. injection AI as <-.
    set (g6 := mkGmap (gks g2) (gvs g2) (gitems g2) (ginvs g2 ++ [BImp (BoolS n) inv]) (gunk g2) (glen g2) (glayers g2)) in *.
    assert (SM : same_map g g2).
    { destruct Sm as [S1 [S2 [S3 [S4 [S5 [S6 S7]]]]]]. destruct Sm2 as [T1 [T2 [T3 [T4 [T5 [T6 T7]]]]]].
      unfold same_map. repeat split; try congruence. clear -S7 T7. revert T7. generalize (glayers g2).
      induction S7 as [|a e l l' [Y1 Y2] Fl IH]; intros l2 F2; [inversion F2; constructor|].
      inversion F2 as [|? d ? l3 [Z1 Z2] F3]; subst. constructor; [split; congruence|auto]. }
    pose proof SM as SM'. destruct SM' as [Q1 [Q2 [Q3 [Q4 [Q5 [Q6 Q7]]]]]].
    assert (CT : eb r (BoolS n) = true -> eb r (BAndL KRs) = true).
    { assert (HC : eb r ct = true).
      { apply HR. cbn [set_map add_cs gcs]. apply in_or_app. left. apply in_or_app. right. left. auto. }
      unfold ct in HC. cbn [evalb] in HC. apply eqb_prop in HC. cbn [evalb]. intros X. rewrite X in HC. symmetry in HC.
      apply andb_prop in HC. tauto. }
    assert (IS : kv_sized (gks g) (gvs g) inv = true) by (apply kv_sized_imp; auto).
    assert (KS : Forall (sized (gks g) (gvs g)) known) by (apply pure_known_sized; apply M).
    rewrite Forall_forall in KS.
    assert (KR : eb r (BoolS n) = true -> forall i, In i known -> eb (setKVP r (ev r (ik i)) (val r i)) inv = true).
    { intros BT i Hi. specialize (CT BT). rewrite BAndL_true in CT.
      specialize (CT _ (in_map (fun i => substb (item_subst (gks g) (gvs g) i) inv) known i Hi)). cbn beta in CT.
      destruct (KS i Hi). rewrite inv_subst_eval in CT by auto. auto. }
    assert (N0 : forall q vp, eb (setKVP r q vp) (BoolS n) = eb r (BoolS n)).
    { intros q vp. cbn [evalb setKVP ebool]. destruct (N.eqb_spec n 0); [unfold n in *; lia|reflexivity]. }
    assert (COV : covers r K (glayers g2) (BImp (BoolS n) inv) (length (glayers g2))).
    { intros q vp Hin PV T. rewrite bottom_all in T. apply BImp_true. rewrite N0. intros BT.
      rewrite <- (top_shape r _ _ q Q7) in T.
      destruct (mi_unb _ _ _ _ M q vp Hin) as [[i [Hi Ei]]|[AB _]]; [|congruence].
      destruct (known_base r (glayers g) (gitems g) i Hi) as [j [Hj Ej]].
      destruct (known_obs r K x g j M Hj) as [_ O]. unfold cont in O. rewrite Ej, Ei, T, (klook_in _ _ _ (mi_nd _ _ _ _ M) Hin) in O.
      destruct O as [O1 O2]. specialize (O2 PV). specialize (KR BT j Hj). rewrite Ej, Ei in KR.
      replace vp with (val r j); [auto|]. destruct (val r j), vp. cbn in *. congruence. }
    pose proof (same_map_len _ _ SM) as LQ.
    assert (LQ6 : len_at g6 0 = len_at g 0) by exact LQ.
    exists K, x, g6, (BImp (BoolS n) inv), (length (glayers g)).
    split; [|split; [|split; [apply set_map_same|split; [|split; [exact Q7|split; [exact LQ6|split; [auto|split; [|split]]]]]]]].
    + constructor; cbn [g6 glayers ginvs gks gvs]; auto using kext_refl.
      * rewrite (same_layers_len _ _ Q7). lia.
      * intros d q _. symmetry. apply bottom_same. auto.
      * rewrite <- Q4. apply incl_appl, incl_refl.
      * intros i0 d _ _ CV q vp Hin PV T. rewrite <- (bottom_same r d _ _ q Q7) in T. eapply CV; eauto.
    + destruct M2 as [A1 A2 A3 A4 A5 A6 A7 A8 A9 B1 B2 B3 B4 B5].
      constructor; try assumption.
      * cbn [g6 ginvs gks gvs]. apply Forall_app. split; [auto|]. constructor; [|constructor]. split; [cbn; auto|].
        apply kv_sized_imp; [reflexivity|]. rewrite <- Q1, <- Q2. auto.
      * cbn [g6 glayers ginvs gitems]. intros EL i0 Hi0 i Hi. apply in_app_or in Hi0 as [Hi0|[<-|[]]]; [apply B5; auto|].
        apply BImp_true. rewrite N0. intros BT. apply KR; [auto|]. unfold known.
        assert (EG : glayers g = []) by (rewrite EL in Q7; inversion Q7; auto). rewrite EG. cbn [pure_known]. rewrite Q3. auto.
    + intros y NE. rewrite set_map_other by auto. cbn. destruct (N.eqb_spec y m); [contradiction|reflexivity].
    + split; [cbn [g6 glayers]; rewrite (same_layers_len _ _ Q7); lia|]. split.
      * cbn [g6 glayers]. rewrite (same_layers_len _ _ Q7). exact COV.
      * left. cbn [g6 ginvs]. apply in_or_app. right. left. auto.
    + intros BT q vp PV HI. rewrite BImp_true in HI. rewrite N0 in HI. apply INVE; auto.
    + intros BT q vp T PV. destruct (known_top r (glayers g) (gitems g) q) as [i [Hi Ei]]; [congruence|].
      destruct (known_obs r K x g i M Hi) as [_ O]. unfold cont in O. rewrite Ei, T in O. destruct O as [O1 O2].
      specialize (KR BT i Hi). rewrite Ei in KR. apply INVE; [auto|]. replace vp with (val r i); [auto|].
      destruct (val r i), vp. cbn in *. rewrite O1, O2; auto.
Qed.

(** Creation. *)
Lemma raw_minv : forall r st ks vs len, minv r [] false
  (mkGmap ks vs [] [] (mkItem (BVS ks (gnext st)) (BVS vs (gnext st + 1)) (BoolS (gnext st))) len []).
Proof.
  intros. constructor.
  - constructor.
  - exact I.
  - constructor.
  - constructor.
  - split; reflexivity.
  - constructor.
  - reflexivity.
  - constructor.
  - intros i [].
  - intros q T. cbn in T. congruence.
  - intros q vp [].
  - discriminate.
  - unfold cnt. cbn [filter length]. lia.
  - intros _ inv [].
Qed.

Lemma add_invs_step : forall fuel r m invs st g st',
  gmaps st m = Some g -> minv r [] false g -> gitems g = [] -> glayers g = [] -> Forall (pred_ok (gks g) (gvs g)) invs ->
  add_invs s k fuel st m invs = Ok st' ->
  exists g', minv r [] false g' /\ gmaps st' m = Some g' /\ (forall y, y <> m -> gmaps st' y = gmaps st y) /\
    glayers g' = [] /\ glen g' = glen g /\ gks g' = gks g /\ gvs g' = gvs g /\ ginvs g' = ginvs g ++ invs.
Proof.
  intros fuel r m. induction invs as [|inv invs IH]; intros st g st' G M GI GL F H; cbn [add_invs] in H.
  - injection H as <-. exists g. rewrite app_nil_r. auto 10.
  - inversion F as [|? ? [I1 I2] F']; subst. rewrite (proj2 (freeze_plain st) inv I1) in H.
    apply bindr_ok in H as [st1 [AI H]]. unfold add_inv in AI. rewrite G in AI. unfold inv_call in AI.
    rewrite (emb_plain _ _ _ inv I1) in AI. cbn [bindr] in AI. rewrite G in AI. injection AI as <-.
    destruct M as [A1 A2 A3 A4 A5 A6 A7 A8 A9 B1 B2 B3 B4 B5].
    match type of H with add_invs _ _ _ ?st1 _ _ = _ => destruct (IH st1 _ st' (set_map_same _ _ _)) as [g' [M' [G' [O' [L' [Z' [K' [V' J']]]]]]]] end; auto.
    + constructor; cbn [glayers gitems gks gvs gunk ginvs glen]; auto.
      * apply Forall_app. split; [auto|]. constructor; [split; auto|constructor].
      * intros EL i0 Hi0 i Hi. rewrite GI in Hi. destruct Hi.
    + exists g'. split; [auto|]. split; [auto|]. split.
      * intros y NE. rewrite O' by auto. rewrite set_map_other by auto. reflexivity.
      * cbn [glayers gitems gks gvs gunk ginvs glen] in *. rewrite J', <- app_assoc. auto 10.
Qed.

Definition INV (r : env) (K : N -> kn) (X : N -> bool) (st : gst) : Prop :=
  1 <= gnext st /\
  (forall m g, gmaps st m = Some g -> minv r (K m) (X m) g) /\
  (forall m, gmaps st m = None -> K m = [] /\ X m = false).

Lemma INV_upd : forall r K X st st' m K' x' g',
  INV r K X st -> mono st st' -> gmaps st' m = Some g' -> minv r K' x' g' ->
  (forall y, y <> m -> gmaps st' y = gmaps st y) -> INV r (upd K m K') (upd X m x') st'.
Proof.
  intros r K X st st' m K' x' g' [N1 [A B]] [_ MN] G M O. split; [lia|]. split.
  - intros y g Gy. unfold upd. destruct (N.eqb_spec y m) as [->|NE]; [congruence|]. apply A. rewrite <- O by auto. auto.
  - intros y Gy. unfold upd. destruct (N.eqb_spec y m) as [->|NE]; [congruence|]. apply B. rewrite <- O by auto. auto.
Qed.

Lemma new_step : forall fuel r st m ks vs len invs st' K X,
  INV r K X st -> gmaps st m = None -> Forall (pred_ok ks vs) invs ->
  add_invs s k fuel (raw_new st m ks vs len) m invs = Ok st' ->
  exists g', minv r [] false g' /\ INV r K X st' /\ gmaps st' m = Some g' /\ (forall y, y <> m -> gmaps st' y = gmaps st y) /\
    glayers g' = [] /\ len_at g' 0 = len /\ gks g' = ks /\ gvs g' = vs /\ ginvs g' = invs.
Proof.
  intros fuel r st m ks vs len invs st' K X I G0 F H. pose proof (add_invs_mono _ _ _ _ _ H) as MO.
  destruct (add_invs_step fuel r m invs _ _ st' (set_map_same _ _ _) (raw_minv r st ks vs len) eq_refl eq_refl F H)
    as [g' [M [G [O [L [Z [K' [V J]]]]]]]]. cbn [glen gks gvs ginvs] in *.
  assert (OO : forall y, y <> m -> gmaps st' y = gmaps st y).
  { intros y NE. rewrite O by auto. unfold raw_new. rewrite set_map_other by auto. reflexivity. }
  exists g'. split; [auto|]. split.
  - destruct I as [N1 [A B]]. split.
    + destruct MO as [_ MO]. cbn in MO. lia.
    + split.
      * intros y g Gy. destruct (N.eq_dec y m) as [->|NE]; [|apply A; rewrite <- OO; auto].
        destruct (B m G0) as [-> ->]. congruence.
      * intros y Gy. destruct (N.eq_dec y m) as [->|NE]; [congruence|]. apply B. rewrite <- OO; auto.
  - split; [auto|]. split; [auto|]. split; [auto|]. split; [|auto]. unfold len_at. cbn [skipn]. rewrite L. auto.
Qed.

(** ** Reading *)

Lemma real_obs : forall r m A es sf C C' L, (forall q, obs (C q) (C' q)) -> real r m A sf C L es -> real r m A sf C' L es.
Proof.
  intros r m A. induction es as [|e es IH]; intros sf C C' L E [AM H].
  - split; [|exact I]. intros l ND HL. apply AM; [auto|]. intros q Hq. destruct (E q) as [-> _]. auto.
  - split; [intros l ND HL; apply AM; [auto|]; intros q Hq; destruct (E q) as [-> _]; auto|].
    destruct e as [| m0 key v p | m0 key value len | m0 key | m0 pred b | m0 len | ];
    try (eapply IH; [|exact H]; auto; fail);
    destruct (m0 =? m); try (eapply IH; [|exact H]; auto; fail).
    + destruct H as [H1 [H2 H3]]. destruct (E (ev r key)) as [E1 E2]. cbv zeta. rewrite <- E1.
      split; [auto|]. split; [intros P; rewrite <- E2 by congruence; auto|]. eapply IH; [|exact H3]. auto.
    + cbv zeta in *. destruct (E (ev r key)) as [E1 E2]. rewrite <- E1. eapply IH; [|exact H].
      intros q. unfold upd. destruct (q =? _); auto using obs_refl.
    + cbv zeta in *. destruct (E (ev r key)) as [E1 E2]. rewrite <- E1. destruct H as [H1 H2]. split; [auto|].
      eapply IH; [|exact H2]. intros q. unfold upd. destruct (q =? _); auto using obs_refl.
    + destruct H as [H1 H2]. split; [|eapply IH; [|exact H2]; auto]. intros B q Hq P. destruct (E q) as [E1 E2].
      rewrite P in E1. specialize (E2 P). replace (C' q) with (C q); [auto|]. destruct (C q), (C' q). cbn in *. congruence.
    + destruct H as [H1 H2]. split; [auto|]. eapply IH; [|exact H2]; auto.
Qed.
Lemma real_ext : forall r m A es sf C C' L, (forall q, C q = C' q) -> real r m A sf C L es -> real r m A sf C' L es.
Proof. intros r m A es sf C C' L E. apply real_obs. intros q. rewrite E. apply obs_refl. Qed.

Lemma upd_same : forall {T} (f : N -> T) m v, upd f m v m = v.
Proof. intros. unfold upd. rewrite N.eqb_refl. reflexivity. Qed.

Lemma at_most_ok : forall r K x g C sf, minv r K x g -> incl sf (map fst K) ->
  (forall q, In q (map fst K) -> C q = cont r (klook K) (glayers g) q) ->
  at_most sf C (ev r (len_at g 0)).
Proof.
  intros r K x g C sf M I E l ND HL. pose proof (mi_full _ _ _ _ M) as FU.
  assert (LE : (length l <= cnt K (cont r (klook K) (glayers g)))%nat); [|lia].
  unfold cnt. rewrite <- (map_length fst). apply NoDup_incl_length; [auto|].
  intros q Hq. destruct (HL q Hq) as [H1 H2]. apply I in H1. rewrite E in H2 by auto.
  apply in_map_iff. exists (q, klook K q). split; [reflexivity|]. apply filter_In. split; [apply klook_dom; auto|auto].
Qed.

Lemma kext_dom : forall K x K' x', kext K x K' x' -> incl (map fst K) (map fst K').
Proof. intros K x K' x' [l [-> _]]. rewrite map_app. apply incl_appl, incl_refl. Qed.
Lemma kext_look : forall K x K' x' q, kext K x K' x' -> In q (map fst K) -> klook K' q = klook K q.
Proof. intros K x K' x' q [l [-> _]] H. apply klook_app. auto. Qed.

(** The obligation of [real] for one event: the steps after it are [REST]. *)
Lemma real_step : forall fuel r m st e st' K X g,
  does s k fuel st e st' -> INV r K X st -> holds r (gcs st') -> unfolded st' -> sizes_fit st' ->
  no_overflow r [e] -> gmaps st m = Some g ->
  exists K' X' g', INV r K' X' st' /\ gmaps st' m = Some g' /\ prog r (K m) (X m) g (K' m) (X' m) g' /\
    incl (ekey r m e) (map fst (K' m)) /\
    forall Kf Xf gf, prog r (K' m) (X' m) g' (Kf m) (Xf m) gf -> NoDup (map fst (Kf m)) ->
    forall C0 A es sf,
      (forall q, In q (map fst (Kf m)) -> C0 q = klook (Kf m) q) ->
      incl A (map fst (Kf m)) -> incl sf (map fst (K m)) ->
      real r m A (sf ++ ekey r m e) (cont r C0 (glayers g')) (ev r (len_at g' 0)) es ->
      real r m A sf (cont r C0 (glayers g)) (ev r (len_at g 0)) (e :: es).
Proof.
  intros fuel r m st e st' K X g H I HR UF SF NO G.
  pose proof (does_mono _ _ _ _ H) as MO.
  assert (AM : forall K' x' g' Kf xf gf, prog r (K m) (X m) g K' x' g' -> prog r K' x' g' Kf xf gf ->
     forall C0 sf, (forall q, In q (map fst Kf) -> C0 q = klook Kf q) -> incl sf (map fst (K m)) ->
     at_most sf (cont r C0 (glayers g)) (ev r (len_at g 0))).
  { intros K' x' g' Kf xf gf P1 P2 C0 sf HC HS. destruct I as [_ [A _]]. specialize (A m g G).
    pose proof (kext_trans _ _ _ _ _ _ (pr_ext _ _ _ _ _ _ _ P1) (pr_ext _ _ _ _ _ _ _ P2)) as KX.
    eapply at_most_ok; [exact A|exact HS|]. intros q Hq. unfold cont. destruct (top r (glayers g) q); [reflexivity|].
    rewrite HC by (eapply kext_dom; eauto). eapply kext_look; eauto. }
  (* an event of another map *)
  assert (OTHER : forall m' (K' : kn) (x' : bool) g0', m' <> m -> gmaps st' m' = Some g0' -> minv r K' x' g0' ->
     (forall y, y <> m' -> gmaps st' y = gmaps st y) -> ekey r m e = [] ->
     (forall A sf C L es, at_most sf C L -> real r m A (sf ++ ekey r m e) C L es -> real r m A sf C L (e :: es)) ->
     exists K' X' g', INV r K' X' st' /\ gmaps st' m = Some g' /\ prog r (K m) (X m) g (K' m) (X' m) g' /\
      incl (ekey r m e) (map fst (K' m)) /\
      forall Kf Xf gf, prog r (K' m) (X' m) g' (Kf m) (Xf m) gf -> NoDup (map fst (Kf m)) ->
      forall C0 A es sf,
      (forall q, In q (map fst (Kf m)) -> C0 q = klook (Kf m) q) ->
      incl A (map fst (Kf m)) -> incl sf (map fst (K m)) ->
      real r m A (sf ++ ekey r m e) (cont r C0 (glayers g')) (ev r (len_at g' 0)) es ->
      real r m A sf (cont r C0 (glayers g)) (ev r (len_at g 0)) (e :: es)).
  { intros m' K' x' g0' NE G' M' O EK RS. exists (upd K m' K'), (upd X m' x'), g.
    assert (KM : upd K m' K' m = K m) by (unfold upd; destruct (N.eqb_spec m m'); [congruence|reflexivity]).
    assert (XM : upd X m' x' m = X m) by (unfold upd; destruct (N.eqb_spec m m'); [congruence|reflexivity]).
    split; [eapply INV_upd; eauto|]. split; [rewrite O; auto|]. rewrite KM, XM. split; [apply prog_refl|].
    split; [rewrite EK; intros ? []|].
    intros Kf Xf gf P ND C0 A es sf HC HA HS HReal. apply RS; [|exact HReal].
    eapply AM; eauto. apply prog_refl. }
  assert (AMX := AM).
  destruct H as [st m' ks vs len invs st' N0 PF H|st m' ks vs st' N0 H|st m' ks vs len st' N0 PF H
                |st m' g0 key st' v p G0 KO H|st m' g0 key value st' G0 KO VW H|st m' g0 key st' G0 KO H
                |st m' g0 pred st' b G0 PO H|st m' g0 G0|st c].
  - unfold map_new in H. assert (NE : m' <> m) by congruence.
    destruct (new_step _ r _ _ _ _ _ _ _ K X I N0 PF H) as [g' [M' [_ [G' [O _]]]]].
    eapply (OTHER m' [] false g'); eauto. intros A sf C L es HAM HRL. split; [auto|]. exact HRL.
  - unfold map_new in H. assert (NE : m' <> m) by congruence.
    assert (PF : Forall (pred_ok ks vs) [BNot PRESENT]) by (constructor; [split; reflexivity|constructor]).
    destruct (new_step _ r _ _ _ _ _ _ _ K X I N0 PF H) as [g' [M' [_ [G' [O _]]]]].
    eapply (OTHER m' [] false g'); eauto. intros A sf C L es HAM HRL. split; [auto|]. exact HRL.
  - unfold new_array in H. destruct (width len =? ks); [|discriminate]. unfold map_new in H. assert (NE : m' <> m) by congruence.
    assert (PF' : Forall (pred_ok ks vs) [array_inv ks len]) by (constructor; [auto|constructor]).
    destruct (new_step _ r _ _ _ _ _ _ _ K X I N0 PF' H) as [g' [M' [_ [G' [O _]]]]].
    eapply (OTHER m' [] false g'); eauto. intros A sf C L es HAM HRL. split; [auto|]. exact HRL.
  - (* get *)
    pose proof I as I0. destruct I as [NX [MI _]]. pose proof (MI m' g0 G0) as M0.
    destruct (get_gstep s k SOK KOK _ r _ _ _ _ _ _ _ _ _ G0 M0 KO H HR SF) as [K' [x' [g' [GS [_ [_ [G' [OT [IN [OB _]]]]]]]]]].
    destruct (N.eq_dec m' m) as [->|NE].
    2:{ eapply (OTHER m' K' x' g'); eauto; [apply (gs_inv _ _ _ _ _ _ _ GS)|cbn; destruct (N.eqb_spec m' m); [congruence|reflexivity]|].
        intros A sf C L es HAM HRL. split; [auto|]. cbn [ekey] in *. destruct (N.eqb_spec m' m); [congruence|]. exact HRL. }
    rewrite G in G0. injection G0 as <-.
    pose proof (prog_gstep _ _ _ _ _ _ _ GS) as PG.
    exists (upd K m K'), (upd X m x'), g'. rewrite !upd_same. split; [eapply INV_upd; eauto; apply (gs_inv _ _ _ _ _ _ _ GS)|].
    split; [auto|]. split; [auto|]. cbn [ekey]. rewrite N.eqb_refl. split; [intros q [<-|[]]; auto|].
    intros Kf Xf gf P ND C0 A es sf HC HA HS HRL. split; [eapply AM; eauto|]. rewrite N.eqb_refl.
    assert (TS : forall q, cont r C0 (glayers g') q = cont r C0 (glayers g) q).
    { intros q. unfold cont. rewrite (top_shape r _ _ q (gs_lay _ _ _ _ _ _ _ GS)). reflexivity. }
    assert (CC : cont r C0 (glayers g) (ev r key) = cont r (klook K') (glayers g) (ev r key)).
    { unfold cont. destruct (top r (glayers g) (ev r key)); [reflexivity|].
      rewrite HC by (eapply kext_dom; [apply P|auto]). eapply kext_look; [apply P|auto]. }
    cbv zeta. rewrite CC. destruct OB as [O1 O2]. cbn [fst snd] in O1, O2. split; [auto|]. split; [auto|].
    rewrite (gs_len _ _ _ _ _ _ _ GS) in HRL. eapply real_ext; [|cbn [ekey]; rewrite N.eqb_refl; exact HRL]. auto.
  - (* set *)
    pose proof I as I0. destruct I as [NX [MI _]]. pose proof (MI m' g0 G0) as M0.
    assert (NO' : ev r (len_at g0 0) + 1 < 2 ^ width (len_at g0 0)) by (eapply NO; left; reflexivity).
    destruct (set_step _ r _ _ _ _ _ _ _ _ G0 M0 KO VW H HR UF SF NO') as [K' [x' [g' [PG [M' [G' [OT [IN [T LE]]]]]]]]].
    destruct (N.eq_dec m' m) as [->|NE].
    2:{ eapply (OTHER m' K' x' g'); eauto; [cbn; destruct (N.eqb_spec m' m); [congruence|reflexivity]|].
        intros A sf C L es HAM HRL. split; [auto|]. cbn [ekey] in *. destruct (N.eqb_spec m' m); [congruence|]. exact HRL. }
    rewrite G in G0. injection G0 as <-.
    exists (upd K m K'), (upd X m x'), g'. rewrite !upd_same. split; [eapply INV_upd; eauto|].
    split; [auto|]. split; [auto|]. cbn [ekey]. rewrite N.eqb_refl. split; [intros q [<-|[]]; auto|].
    intros Kf Xf gf P ND C0 A es sf HC HA HS HRL. split; [eapply AM; eauto|]. rewrite N.eqb_refl. cbv zeta.
    assert (CC : cont r C0 (glayers g) (ev r key) = cont r (klook K') (glayers g) (ev r key)).
    { unfold cont. destruct (top r (glayers g) (ev r key)); [reflexivity|].
      rewrite HC by (eapply kext_dom; [apply P|auto]). eapply kext_look; [apply P|auto]. }
    rewrite CC, <- LE. cbn [ekey]. rewrite N.eqb_refl. eapply real_ext; [|exact HRL].
    intros q. unfold upd, cont. rewrite T. destruct (q =? ev r key); reflexivity.
  - (* remove *)
    pose proof I as I0. destruct I as [NX [MI _]]. pose proof (MI m' g0 G0) as M0.
    destruct (remove_step _ r _ _ _ _ _ _ _ G0 M0 KO H HR UF SF) as [K' [x' [g' [u [PG [M' [G' [OT [IN [T [POS LE]]]]]]]]]]].
    destruct (N.eq_dec m' m) as [->|NE].
    2:{ eapply (OTHER m' K' x' g'); eauto; [cbn; destruct (N.eqb_spec m' m); [congruence|reflexivity]|].
        intros A sf C L es HAM HRL. split; [auto|]. cbn [ekey] in *. destruct (N.eqb_spec m' m); [congruence|]. exact HRL. }
    rewrite G in G0. injection G0 as <-.
    exists (upd K m K'), (upd X m x'), g'. rewrite !upd_same. split; [eapply INV_upd; eauto|].
    split; [auto|]. split; [auto|]. cbn [ekey]. rewrite N.eqb_refl. split; [intros q [<-|[]]; auto|].
    intros Kf Xf gf P ND C0 A es sf HC HA HS HRL. split; [eapply AM; eauto|]. rewrite N.eqb_refl. cbv zeta.
    assert (CC : cont r C0 (glayers g) (ev r key) = cont r (klook K') (glayers g) (ev r key)).
    { unfold cont. destruct (top r (glayers g) (ev r key)); [reflexivity|].
      rewrite HC by (eapply kext_dom; [apply P|auto]). eapply kext_look; [apply P|auto]. }
    rewrite CC, <- LE. split; [auto|]. cbn [ekey]. rewrite N.eqb_refl. eapply real_obs; [|exact HRL].
    intros q. unfold upd, cont. rewrite T. destruct (q =? ev r key); [split; cbn; [auto|discriminate]|apply obs_refl].
  - (* forall *)
    pose proof I as I0. destruct I as [NX [MI _]]. pose proof (MI m' g0 G0) as M0.
    destruct (forall_step _ r _ _ _ _ _ _ _ _ G0 M0 NX PO H HR SF) as [K' [x' [g' [inv [n [PG [M' [G' [OT [LY [LE [NL [HO [IP TP]]]]]]]]]]]]]].
    destruct (N.eq_dec m' m) as [->|NE].
    2:{ eapply (OTHER m' K' x' g'); eauto.
        intros A sf C L es HAM HRL. split; [auto|]. cbn [ekey] in *. destruct (N.eqb_spec m' m); [congruence|]. exact HRL. }
    rewrite G in G0. injection G0 as <-.
    exists (upd K m K'), (upd X m x'), g'. rewrite !upd_same. split; [eapply INV_upd; eauto|].
    split; [auto|]. split; [auto|]. cbn [ekey]. split; [intros q []|].
    intros Kf Xf gf P ND C0 A es sf HC HA HS HRL. split; [eapply AM; eauto|]. rewrite N.eqb_refl.
    rewrite LE in HRL. split; [|eapply real_ext; [|exact HRL]; intros q; unfold cont; rewrite (top_shape r _ _ q LY); reflexivity].
    intros BT q Hq PQ. unfold cont in *. destruct (top r (glayers g) q) as [vp|] eqn:T; [eapply TP; eauto|].
    apply IP; auto. pose proof (holding_prog _ _ _ _ _ _ _ _ _ P HO) as [_ [CV _]].
    apply HA in Hq. rewrite HC in * by auto. apply CV; [apply klook_dom; auto|auto|].
    rewrite (pr_bot _ _ _ _ _ _ _ P) by (rewrite <- (same_layers_len _ _ LY); lia).
    rewrite NL, (same_layers_len _ _ LY), bottom_all. rewrite <- (top_shape r _ _ q LY). auto.
  - (* length *)
    destruct (N.eq_dec m' m) as [->|NE].
    2:{ exists K, X, g. split; [auto|]. split; [auto|]. split; [apply prog_refl|]. split; [intros q []|].
        intros Kf Xf gf P ND C0 A es sf HC HA HS HRL. split; [eapply AM; eauto; apply prog_refl|]. cbn [ekey] in *.
        destruct (N.eqb_spec m' m); [congruence|]. exact HRL. }
    rewrite G in G0. injection G0 as <-.
    exists K, X, g. split; [auto|]. split; [auto|]. split; [apply prog_refl|]. split; [intros q []|].
    intros Kf Xf gf P ND C0 A es sf HC HA HS HRL. split; [eapply AM; eauto; apply prog_refl|]. rewrite N.eqb_refl. auto.
  - (* path constraint *)
    exists K, X, g. split; [exact I|]. split; [auto|]. split; [apply prog_refl|]. split; [intros q []|].
    intros Kf Xf gf P ND C0 A es sf HC HA HS HRL. split; [eapply AM; eauto; apply prog_refl|]. exact HRL.
Qed.

(** Any event, for the invariant alone. *)
Lemma inv_step : forall fuel r st e st' K X,
  does s k fuel st e st' -> INV r K X st -> holds r (gcs st') -> unfolded st' -> sizes_fit st' ->
  no_overflow r [e] -> exists K' X', INV r K' X' st'.
Proof.
  intros fuel r st e st' K X H I HR UF SF NO.
  pose proof H as H0. pose proof (does_mono _ _ _ _ H) as MO.
  destruct H as [st m' ks vs len invs st' N0 PF H|st m' ks vs st' N0 H|st m' ks vs len st' N0 PF H
                |st m' g0 key st' v p G0 KO H|st m' g0 key value st' G0 KO VW H|st m' g0 key st' G0 KO H
                |st m' g0 pred st' b G0 PO H|st m' g0 G0|st c].
  - destruct (new_step _ r _ _ _ _ _ _ _ K X I N0 PF H) as [g' [M' [I' _]]]. eauto.
  - assert (PF : Forall (pred_ok ks vs) [BNot PRESENT]) by (constructor; [split; reflexivity|constructor]).
    destruct (new_step _ r _ _ _ _ _ _ _ K X I N0 PF H) as [g' [M' [I' _]]]. eauto.
  - unfold new_array in H. destruct (width len =? ks); [|discriminate].
    assert (PF' : Forall (pred_ok ks vs) [array_inv ks len]) by (constructor; [auto|constructor]).
    destruct (new_step _ r _ _ _ _ _ _ _ K X I N0 PF' H) as [g' [M' [I' _]]]. eauto.
  - destruct (real_step _ r m' _ _ _ _ _ _ H0 I HR UF SF NO G0) as [K' [X' [g' [I' _]]]]. eauto.
  - destruct (real_step _ r m' _ _ _ _ _ _ H0 I HR UF SF NO G0) as [K' [X' [g' [I' _]]]]. eauto.
  - destruct (real_step _ r m' _ _ _ _ _ _ H0 I HR UF SF NO G0) as [K' [X' [g' [I' _]]]]. eauto.
  - destruct (real_step _ r m' _ _ _ _ _ _ H0 I HR UF SF NO G0) as [K' [X' [g' [I' _]]]]. eauto.
  - eauto.
  - exists K, X. exact I.
Qed.
Lemma no_overflow_cons : forall r e es, no_overflow r (e :: es) -> no_overflow r [e] /\ no_overflow r es.
Proof. intros r e es H. split; intros m' key value len Hin; [destruct Hin as [->|[]]|]; eapply H; [left|right]; eauto. Qed.
Lemma inv_run : forall fuel r es st st' K X,
  run s k fuel st es st' -> INV r K X st -> holds r (gcs st') -> no_overflow r es -> exists K' X', INV r K' X' st'.
Proof.
  intros fuel r es st st' K X H. revert K X. induction H as [st|st e st1 es st2 D UF SF R IH]; intros K X I HR NO; [eauto|].
  apply no_overflow_cons in NO as [NO1 NO2].
  destruct (inv_step _ _ _ _ _ _ _ D I (holds_mono _ _ _ (run_mono _ _ _ _ R) HR) UF SF NO1) as [K1 [X1 I1]]. eauto.
Qed.

Lemma real_run : forall fuel r m es st st' K X g,
  run s k fuel st es st' -> INV r K X st -> holds r (gcs st') -> no_overflow r es -> gmaps st m = Some g ->
  exists K' X' g', INV r K' X' st' /\ gmaps st' m = Some g' /\ prog r (K m) (X m) g (K' m) (X' m) g' /\
    incl (accessed r m es) (map fst (K' m)) /\
    forall C0 A sf, (forall q, In q (map fst (K' m)) -> C0 q = klook (K' m) q) ->
      incl A (map fst (K' m)) -> incl sf (map fst (K m)) ->
      real r m A sf (cont r C0 (glayers g)) (ev r (len_at g 0)) es.
Proof.
  intros fuel r m es st st' K X g H. revert K X g.
  induction H as [st|st e st1 es st2 D UF SF R IH]; intros K X g I HR NO G.
  - exists K, X, g. split; [auto|]. split; [auto|]. split; [apply prog_refl|]. split; [intros q []|].
    intros C0 A sf HC HA HS. split; [|exact Logic.I]. destruct I as [_ [MI _]].
    eapply at_most_ok; [apply MI; exact G|exact HS|]. intros q Hq. unfold cont. destruct (top r (glayers g) q); auto.
  - apply no_overflow_cons in NO as [NO1 NO2].
    pose proof (holds_mono _ _ _ (run_mono _ _ _ _ R) HR) as HR1.
    destruct (real_step _ r m _ _ _ _ _ _ D I HR1 UF SF NO1 G) as [K1 [X1 [g1 [I1 [G1 [P1 [A1 RS]]]]]]].
    destruct (IH K1 X1 g1 I1 HR NO2 G1) as [K2 [X2 [g2 [I2 [G2 [P2 [A2 RR]]]]]]].
    exists K2, X2, g2. split; [auto|]. split; [auto|]. split; [eapply prog_trans; eauto|].
    split.
    { unfold accessed. cbn [flat_map]. apply incl_app; [|exact A2]. eapply incl_tran; [exact A1|]. eapply kext_dom. apply P2. }
    intros C0 A sf HC HA HS. eapply RS; eauto.
    + destruct I2 as [_ [MI _]]. apply (mi_nd _ _ _ _ (MI m g2 G2)).
    + apply RR; auto. apply incl_app; [|auto]. eapply incl_tran; [exact HS|]. eapply kext_dom. apply P1.
Qed.

Lemma run_app : forall fuel a b st st', run s k fuel st (a ++ b) st' ->
  exists st1, run s k fuel st a st1 /\ run s k fuel st1 b st'.
Proof.
  intros fuel. induction a as [|e a IH]; intros b st st' H; cbn [app] in H; [exists st; split; [constructor|auto]|].
  inversion H as [|? ? st1 ? ? D UF SF R]; subst. destruct (IH _ _ _ R) as [st2 [H1 H2]].
  exists st2. split; [econstructor; eauto|auto].
Qed.

(** The main result: after its creation, every map is read as a real one. *)
Lemma real_map : forall fuel nin sz r pre m ks vs len invs post fin, 1 <= nin ->
  run s k fuel (ginit nin sz) (pre ++ ENew m ks vs len invs :: post) fin ->
  holds r (gcs fin) -> no_overflow r (pre ++ ENew m ks vs len invs :: post) ->
  exists C0, real r m (accessed r m post) [] C0 (ev r len) post /\
    forall inv q, In inv invs -> In q (accessed r m post) -> snd (C0 q) = true -> eb (setKVP r q (C0 q)) inv = true.
Proof.
  intros fuel nin sz r pre m ks vs len invs post fin NX H HR NO.
  apply run_app in H as [st0 [H0 H]].
  assert (NO0 : no_overflow r pre) by (intros m' key value l Hin; eapply NO; apply in_or_app; left; exact Hin).
  assert (NO1 : no_overflow r post) by (intros m' key value l Hin; eapply NO; apply in_or_app; right; right; exact Hin).
  assert (HR0 : holds r (gcs st0)) by (eapply holds_mono; [eapply run_mono; exact H|auto]).
  destruct (inv_run fuel r pre (ginit nin sz) st0 (fun _ => []) (fun _ => false) H0) as [K [X I]]; auto.
  { split; [auto|]. split; [intros m' g G; discriminate G|auto]. }
  inversion H as [|? ? st1 ? ? D UF SF R]; subst.
  assert (N0 : gmaps st0 m = None) by (inversion D; auto).
  assert (Y : exists g', INV r K X st1 /\ gmaps st1 m = Some g' /\ glayers g' = [] /\ len_at g' 0 = len /\ ginvs g' = invs).
  { inversion D as [? ? ? ? ? ? ? Y0 PF Y|? ? ? ? ? Y0 Y|? ? ? ? ? ? Y0 PF Y| | | | | |]; subst.
    - destruct (new_step _ r _ _ _ _ _ _ _ K X I N0 PF Y) as [g' [M' [I' [G' [_ [L' [Z' [_ [_ J]]]]]]]]]. exists g'. auto 10.
    - assert (PF : Forall (pred_ok ks vs) [BNot PRESENT]) by (constructor; [split; reflexivity|constructor]).
      destruct (new_step _ r _ _ _ _ _ _ _ K X I N0 PF Y) as [g' [M' [I' [G' [_ [L' [Z' [_ [_ J]]]]]]]]]. exists g'. auto 10.
    - unfold new_array in Y. destruct (width len =? ks); [|discriminate].
      assert (PF' : Forall (pred_ok ks vs) [array_inv ks len]) by (constructor; [auto|constructor]).
      destruct (new_step _ r _ _ _ _ _ _ _ K X I N0 PF' Y) as [g' [M' [I' [G' [_ [L' [Z' [_ [_ J]]]]]]]]]. exists g'. auto 10. }
  destruct Y as [g [I1 [G1 [L1 [Z1 J1]]]]].
  destruct (real_run fuel r m post st1 fin K X g R I1 HR NO1 G1) as [K' [X' [g' [I2 [G2 [P [AC RR]]]]]]].
  destruct I as [_ [_ KN]]. destruct (KN m N0) as [K0 X0].
  exists (klook (K' m)). split.
  - rewrite <- Z1. eapply real_ext; [|apply (RR (klook (K' m)) (accessed r m post) []); auto; intros ? []].
    intros q. unfold cont. rewrite L1. reflexivity.
  - intros inv q Hinv Hq PQ. rewrite <- J1 in Hinv.
    assert (CV : covers r (K' m) (glayers g') inv 0).
    { apply (pr_cov _ _ _ _ _ _ _ P); [auto|lia|]. rewrite K0. intros ? ? []. }
    apply CV; [apply klook_dom; apply AC; auto|auto|]. unfold bottom. rewrite Nat.sub_0_r, skipn_all. reflexivity.
Qed.
End Real.
