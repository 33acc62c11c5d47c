(** * Writes, removals, predicates, creation; whole histories *)

From Coq Require Import NArith List Bool Lia Arith.
From Verif Require Import Expr Solver KMerge Wt GhostMap GhostSpec GhostFacts GhostSim.
Import ListNotations.
Open Scope N_scope.

(** ** Sizes of real maps *)

Lemma card_set : forall ks C n q v, card ks C n -> q < 2 ^ ks ->
  card ks (upd C q (v, true)) (if snd (C q) then n else n + 1).
Proof.
  intros ks C n q v [l [ND [H E]]] Hq. unfold card, upd. destruct (snd (C q)) eqn:P.
  - exists l. split; [auto|]. split; [|auto]. intros x. rewrite H.
    destruct (N.eqb_spec x q) as [->|]; cbn; intuition.
  - exists (q :: l). split; [constructor; [|auto]; intros Hin; apply H in Hin as [_ X]; congruence|].
    split; [|cbn [length]; lia].
    intros x. cbn [In]. rewrite H. destruct (N.eqb_spec x q) as [->|]; cbn; intuition congruence.
Qed.
Lemma card_remove : forall ks C n q v, card ks C n -> q < 2 ^ ks ->
  card ks (upd C q (v, false)) (if snd (C q) then n - 1 else n) /\ (snd (C q) = true -> 1 <= n).
Proof.
  intros ks C n q v [l [ND [H E]]] Hq. unfold card, upd. destruct (snd (C q)) eqn:P.
  - assert (Hin : In q l) by (apply H; auto). apply in_split in Hin as [a [b ->]].
    rewrite app_length in E. cbn [length] in E. split; [|lia].
    exists (a ++ b). apply NoDup_remove in ND as [ND NI]. split; [auto|]. split; [|rewrite app_length; lia].
    intros x. destruct (N.eqb_spec x q) as [->|NE]; cbn [snd].
    + split; [contradiction|]. intros [_ X]. discriminate.
    + rewrite <- H, !in_app_iff. cbn [In]. intuition congruence.
  - split; [|discriminate]. exists l. split; [auto|]. split; [|auto]. intros x. rewrite H.
    destruct (N.eqb_spec x q) as [->|]; cbn [snd]; intuition congruence.
Qed.
Lemma card_prefix : forall ks C n, n <= 2 ^ ks ->
  (forall q, q < 2 ^ ks -> snd (C q) = (q <? n)) -> card ks C n.
Proof.
  intros ks C n L H. exists (map N.of_nat (seq 0 (N.to_nat n))). split; [|split].
  - apply FinFun.Injective_map_NoDup; [intros x y; lia|apply seq_NoDup].
  - intros q. rewrite in_map_iff. split.
    + intros [x [<- Hx]]. apply in_seq in Hx. assert (N.of_nat x < 2 ^ ks) by lia.
      split; [auto|]. rewrite H by auto. apply N.ltb_lt. lia.
    + intros [Hq P]. rewrite H in P by auto. apply N.ltb_lt in P. exists (N.to_nat q).
      split; [lia|]. apply in_seq. lia.
  - rewrite map_length, seq_length. lia.
Qed.

(** ** A new layer *)

Lemma with_item_layer_single : forall k g i ch,
  single (glayers g) -> single (glayers (with_item_layer k g i ch)) ->
  with_item_layer k g i ch = set_layers g (mkLayer [i] (mkadd k (len_at g 0) ch) (O, []) :: glayers g).
Proof.
  intros k g i ch S0 S. unfold with_item_layer in *. destruct (glayers g) as [|L rest] eqn:E; [reflexivity|].
  destruct (negb (symbolic (ik i)) && _); [|reflexivity].
  cbn [set_layers glayers] in S. inversion S as [|? ? X _]; subst. inversion S0 as [|? ? Y _]; subst.
  cbn [litems] in X. rewrite app_length in X. cbn [length] in X. lia.
Qed.

Lemma msim_write : forall r n g c u i len' size',
  msim r n g c u -> itemok (gks g) (gvs g) n i -> ev r (ik i) <> u ->
  width len' = clw c -> dep n len' -> ev r len' = size' ->
  card (cks c) (upd (ccont c) (ev r (ik i)) (val r i)) size' ->
  msim r n (set_layers g (mkLayer [i] len' (O, []) :: glayers g))
    (mkC (cks c) (cvs c) (clw c) (upd (ccont c) (ev r (ik i)) (val r i)) size' (cseen c)) u.
Proof.
  intros r n g c u i len' size' M I NU W D E K. pose proof M as M0.
  destruct M as [A1 A2 A3 A4 A5 A6 A7 A8 A9 A10 B1 B2 B3 B4 B5 B6 B7 B8 B9 B10].
  set (g' := set_layers g (mkLayer [i] len' (O, []) :: glayers g)).
  assert (T : forall q, top r (glayers g') q = if q =? ev r (ik i) then Some (val r i) else top r (glayers g) q).
  { intros q. cbn [g' set_layers glayers top litems find]. rewrite N.eqb_sym.
    destruct (q =? ev r (ik i)); reflexivity. }
  constructor; try assumption; rewrite ?T.
  - constructor; [reflexivity|auto].
  - cbn [g' set_layers gitems glayers coherent lcache fst snd firstn]. repeat split; auto; cbn; lia.
  - cbn [g' set_layers gks gvs glayers]. constructor; [constructor; [auto|constructor]|auto].
  - intros q. cbn [ccont cvs]. unfold upd. destruct (N.eqb_spec q (ev r (ik i))); [|auto].
    unfold val. cbn [fst]. destruct I as [[_ W'] _]. rewrite <- A2, <- W'. apply evalv_lt.
  - intros q v. rewrite T. cbn [ccont]. unfold upd. destruct (N.eqb_spec q (ev r (ik i))); [congruence|auto].
  - intros j Hj. rewrite T. cbn [ccont]. unfold upd. destruct (N.eqb_spec (ev r (ik j)) (ev r (ik i))); [discriminate|auto].
  - destruct (N.eqb_spec u (ev r (ik i))); [congruence|auto].
  - cbn [ccont]. unfold upd. destruct (N.eqb_spec u (ev r (ik i))); [congruence|auto].
  - intros inv Hin q Hq. rewrite T. cbn [ccont]. unfold upd. destruct (N.eqb_spec q (ev r (ik i))); [discriminate|auto].
  - cbn [cseen ccont]. intros q Hq P. destruct (N.eq_dec q (ev r (ik i))) as [->|NE].
    + right. exists i. split; [cbn [g' set_layers glayers pure_known litems]; left; auto|auto].
    + unfold upd in P. destruct (N.eqb_spec q (ev r (ik i))); [contradiction|].
      destruct (B10 q Hq P) as [|[j [Hj Ej]]]; [auto|]. right.
      destruct (known_step r (mkLayer [i] len' (O, [])) _ _ j Hj) as [j' [Hj' Ej']].
      exists j'. split; [auto|congruence].
Qed.

#[local] Opaque cleanv cleanb.

Section HistOps.
Variable s : solver.
Variable k : claripy.
Hypothesis SOK : solver_ok s.
Hypothesis KOK : claripy_ok k.

Lemma upd_upd : forall A (f : N -> A) q x y z, upd (upd f q x) q y z = upd f q y z.
Proof. intros. unfold upd. destruct (z =? q); reflexivity. Qed.
Lemma sim_ext : forall r st cm cm' uk, (forall x, cm x = cm' x) -> sim r st cm uk -> sim r st cm' uk.
Proof. intros r st cm cm' uk E [A B C D]. constructor; auto. intros m. rewrite <- E. apply D. Qed.

Lemma set_sim : forall r st cm uk fuel m key value st' c,
  sim r st cm uk -> cm m = Some c -> keyok (cks c) (gnext st) key -> keyok (cvs c) (gnext st) value ->
  set_ s k fuel st m key value = Ok st' -> unfolded st' ->
  let q := ev r key in let n := if snd (ccont c q) then csize c else csize c + 1 in
  q <> uk m -> n < 2 ^ clw c ->
  exists r', eqbelow (gnext st) r r' /\ gnext st <= gnext st' /\ gsz st' = gsz st /\
    sim r' st' (upd cm m (Some (mkC (cks c) (cvs c) (clw c) (upd (ccont c) q (ev r value, true)) n (q :: cseen c)))) uk.
Proof.
  intros r st cm uk fuel m key value st' c S Hc KO [VW [VD VC]] H AS q n NU NS.
  unfold set_ in H. destruct (get s k fuel st m key None BTrue None) as [[st1 [v p]]| |] eqn:GE; try discriminate H.
  cbn [bindr snd] in H.
  destruct (get_sim s k SOK KOK _ _ _ _ _ _ _ _ _ _ _ S Hc KO GE)
    as [r1 [g [g1 [E1 [L1 [S1 [V1 [W1 [D1 [D2 [C1 [C2 [G0 [G1 [O1 [F1 Z1]]]]]]]]]]]]]]]].
  pose proof (get_if_constant_b_spec s SOK (gcs st1) p) as CS.
  destruct (get_if_constant_b s (gcs st1) p) as [co| |] eqn:GC; try discriminate H. cbn [bindr] in H.
  rewrite G1 in H. injection H as <-.
  set (pr := match co with Some true => BTrue | Some false => BFalse | None => p end) in *.
  assert (PE : eb r1 pr = eb r1 p).
  { unfold pr. destruct co as [[|]|]; [| |reflexivity]; cbn [evalb]; symmetry; apply CS, (sim_cs _ _ _ _ S1). }
  assert (PD : depb (gnext st1) pr) by (unfold pr; destruct co as [[|]|]; auto with depdb).
  destruct (sim_get _ _ _ _ m (saw c q) S1) as [g1' [G1' M1]].
  { unfold upd. rewrite N.eqb_refl. reflexivity. }
  rewrite G1 in G1'. injection G1' as <-.
  set (w := width (len_at g1 0)) in *.
  assert (WE : w = clw c) by apply (ms_lw _ _ _ _ _ M1).
  set (it := mkItem key value BTrue) in *.
  assert (SG : single (glayers (with_item_layer k g1 it (mkif k pr (BVV w 0) (BVV w 1))))).
  { eapply AS. apply set_map_same. }
  rewrite (with_item_layer_single k g1 it _ (ms_single _ _ _ _ _ M1) SG) in *.
  assert (EK : ev r1 key = q) by (symmetry; apply KO; auto).
  assert (EV : ev r1 value = ev r value) by (symmetry; apply VD; auto).
  assert (PV : eb r1 p = snd (ccont c q)) by (unfold q; rewrite <- V1; reflexivity).
  exists r1. split; [auto|]. split; [cbn; lia|]. split; [cbn; auto|].
  set (len' := mkadd k (len_at g1 0) (mkif k pr (BVV w 0) (BVV w 1))) in *.
  assert (QL : q < 2 ^ cks c). { destruct KO as [KW _]. rewrite <- KW. apply evalv_lt. }
  assert (VI : val r1 it = (ev r value, true)) by (unfold val; cbn; rewrite EV; reflexivity).
  assert (LE : ev r1 len' = n).
  { unfold len'. rewrite (mkadd_ev k KOK), (mkif_ev k KOK), PE, PV. fold w.
    rewrite (ms_size _ _ _ _ _ M1). cbn [saw csize width evalv].
    pose proof (evalv_lt lk0 r1 (len_at g1 0)) as LT. rewrite (ms_size _ _ _ _ _ M1) in LT. cbn [saw csize] in LT. fold w in LT.
    pose proof NS as NSx. rewrite <- WE in NSx. revert NSx. unfold n. clear NS.
    destruct (snd (ccont c q)); intros NSx; rewrite wrap_wrap.
    - rewrite wrap_0, N.add_0_r. apply wrap_small. auto.
    - rewrite (wrap_small w 1) by lia. apply wrap_small. auto. }
  assert (IT : itemok (gks g1) (gvs g1) (gnext st1) it).
  { destruct KO as [K1 [K2 K3]]. rewrite (ms_ks _ _ _ _ _ M1), (ms_vs _ _ _ _ _ M1). cbn [saw cks cvs].
    split; [split; auto|]. split.
    - split; [eapply dep_le; eauto|]. split; [eapply dep_le; eauto|apply depb_BTrue].
    - split; [auto|]. split; [auto|apply clean_BTrue]. }
  assert (M2 : msim r1 (gnext st1) (set_layers g1 (mkLayer [it] len' (O, []) :: glayers g1))
       (mkC (cks c) (cvs c) (clw c) (upd (ccont c) q (ev r value, true)) n (q :: cseen c)) (uk m)).
  { pose proof (msim_write r1 (gnext st1) g1 (saw c q) (uk m) it len' n M1 IT) as MW.
    cbn [ik it] in MW. rewrite EK, VI in MW. cbn [saw cks cvs clw ccont csize cseen] in MW. apply MW; auto.
    - unfold len'. rewrite (mkadd_w k KOK). auto.
    - unfold len'. apply (mkadd_dep k KOK); [apply (ms_len _ _ _ _ _ M1)|]. apply (mkif_dep k KOK); auto with depdb.
    - unfold n. apply card_set; [apply (ms_card _ _ _ _ _ M1)|auto]. }
  eapply sim_ext; [|eapply sim_build with (st' := set_map st1 m _); [exact S1|apply eqbelow_refl| | | |apply set_map_same| |exact M2]].
  - intros x. apply upd_upd.
  - cbn. lia.
  - apply (sim_cs _ _ _ _ S1).
  - apply (sim_dep _ _ _ _ S1).
  - intros. apply set_map_other. auto.
Qed.

Lemma remove_sim : forall r st cm uk fuel m key st' c junk,
  sim r st cm uk -> cm m = Some c -> keyok (cks c) (gnext st) key -> junk < 2 ^ cvs c ->
  remove s k fuel st m key = Ok st' -> unfolded st' ->
  let q := ev r key in let n := if snd (ccont c q) then csize c - 1 else csize c in
  q <> uk m ->
  exists r', eqbelow (gnext st) r r' /\ gnext st <= gnext st' /\ gsz st' = gsz st /\
    sim r' st' (upd cm m (Some (mkC (cks c) (cvs c) (clw c) (upd (ccont c) q (junk, false)) n (q :: cseen c)))) uk.
Proof.
  intros r st cm uk fuel m key st' c junk S Hc KO JL H AS q n NU.
  unfold remove in H. destruct (get s k fuel st m key None BTrue None) as [[st1 [v p]]| |] eqn:GE; try discriminate H.
  cbn [bindr snd] in H.
  destruct (get_sim s k SOK KOK _ _ _ _ _ _ _ _ _ _ _ S Hc KO GE)
    as [r1 [g [g1 [E1 [L1 [S1 [V1 [W1 [D1 [D2 [C1 [C2 [G0 [G1 [O1 [F1 Z1]]]]]]]]]]]]]]]].
  rewrite G1 in H. injection H as <-.
  destruct (sim_get _ _ _ _ m (saw c q) S1) as [g1' [G1' M1]].
  { unfold upd. rewrite N.eqb_refl. reflexivity. }
  rewrite G1 in G1'. injection G1' as <-.
  set (n1 := gnext st1) in *.
  set (r2 := updvb r1 n1 (junk, false)).
  pose proof (updvb_eqbelow r1 n1 (junk, false)) as E2. fold r2 in E2.
  pose proof (msim_mono _ _ _ (n1 + 1) _ _ _ E2 ltac:(lia) M1) as M1'.
  set (w := width (len_at g1 0)) in *.
  assert (WE : w = clw c) by apply (ms_lw _ _ _ _ _ M1).
  set (it := mkItem key (BVS (gvs g1) n1) BFalse) in *.
  set (ch := mkif k p (BVV w (2 ^ w - 1)) (BVV w 0)) in *.
  assert (SG : single (glayers (with_item_layer k g1 it ch))).
  { eapply AS. apply set_map_same. }
  rewrite (with_item_layer_single k g1 it _ (ms_single _ _ _ _ _ M1) SG) in *.
  assert (EK : ev r2 key = q).
  { transitivity (ev r1 key); [symmetry; apply (dep_le _ n1 _ L1 (proj1 (proj2 KO))); auto|symmetry; apply KO; auto]. }
  assert (PV : eb r2 p = snd (ccont c q)).
  { transitivity (eb r1 p); [symmetry; apply D2; auto|]. unfold q. rewrite <- V1. reflexivity. }
  assert (EB : eqbelow (gnext st) r r2).
  { eapply eqbelow_trans; [exact E1|]. eapply eqbelow_le; [|exact E2]. auto. }
  exists r2. split; [auto|]. split; [cbn; lia|]. split; [cbn; auto|].
  set (len' := mkadd k (len_at g1 0) ch) in *.
  assert (QL : q < 2 ^ cks c). { destruct KO as [KW _]. rewrite <- KW. apply evalv_lt. }
  assert (VI : val r2 it = (junk, false)).
  { unfold val. cbn [iv ip it evalv evalb r2 updvb ebv fst]. rewrite N.eqb_refl. rewrite wrap_small; [reflexivity|].
    rewrite (ms_vs _ _ _ _ _ M1). auto. }
  destruct (card_remove (cks c) (ccont c) (csize c) q junk (ms_card _ _ _ _ _ M1) QL) as [CR C1'].
  assert (LE : ev r2 len' = n).
  { unfold len', ch. rewrite (mkadd_ev k KOK), (mkif_ev k KOK), PV. fold w.
    rewrite (ms_size _ _ _ _ _ M1'). cbn [saw csize width evalv].
    pose proof (evalv_lt lk0 r2 (len_at g1 0)) as LT. rewrite (ms_size _ _ _ _ _ M1') in LT. cbn [saw csize] in LT. fold w in LT.
    pose proof (pow2_pos w). unfold n. destruct (snd (ccont c q)) eqn:P; rewrite wrap_wrap.
    - rewrite (wrap_small w (2 ^ w - 1)) by lia. specialize (C1' eq_refl). unfold wrap.
      replace (csize c + (2 ^ w - 1)) with (csize c - 1 + 1 * 2 ^ w) by lia.
      rewrite N.mod_add by auto. apply N.mod_small. lia.
    - rewrite wrap_0, N.add_0_r. apply wrap_small. auto. }
  assert (IT : itemok (gks g1) (gvs g1) (n1 + 1) it).
  { destruct KO as [K1 [K2 K3]]. rewrite (ms_ks _ _ _ _ _ M1). cbn [saw cks].
    split; [split; auto|]. split.
    - split; [eapply dep_le; [|exact K2]; unfold n1; lia|]. split; [apply dep_BVS; lia|apply depb_BFalse].
    - split; [auto|]. split; [apply clean_BVS; pose proof (sim_n _ _ _ _ S1); unfold n1; lia|apply clean_BFalse]. }
  assert (M2 : msim r2 (n1 + 1) (set_layers g1 (mkLayer [it] len' (O, []) :: glayers g1))
       (mkC (cks c) (cvs c) (clw c) (upd (ccont c) q (junk, false)) n (q :: cseen c)) (uk m)).
  { pose proof (msim_write r2 (n1 + 1) g1 (saw c q) (uk m) it len' n M1' IT) as MW.
    cbn [ik it] in MW. rewrite EK, VI in MW. cbn [saw cks cvs clw ccont csize cseen] in MW. apply MW; auto.
    - unfold len'. rewrite (mkadd_w k KOK). auto.
    - unfold len', ch. apply (mkadd_dep k KOK); [apply (ms_len _ _ _ _ _ M1')|]. apply (mkif_dep k KOK); auto with depdb.
      eapply depb_le; [|exact D2]. unfold n1. lia. }
  eapply sim_ext; [|eapply sim_build with (st' := set_map (bump st1 1) m _); [exact S1|exact E2| | | |apply set_map_same| |exact M2]].
  - intros x. apply upd_upd.
  - cbn. lia.
  - cbn. eapply holds_dep; [apply (sim_dep _ _ _ _ S1)|exact E2|apply (sim_cs _ _ _ _ S1)].
  - cbn. eapply Forall_depb_le; [|apply (sim_dep _ _ _ _ S1)]. lia.
  - intros x NE. rewrite set_map_other by auto. reflexivity.
Qed.

(** ** Invariants *)

Definition invok (ks vs n : N) (inv : bexp) : Prop := nolkb inv = true /\ kv_sized ks vs inv = true /\ depb n inv.

Lemma add_inv_sim : forall r st cm uk fuel m inv st' c g,
  sim r st cm uk -> cm m = Some c -> gmaps st m = Some g -> invok (cks c) (cvs c) (gnext st) inv ->
  (forall q, q < 2 ^ cks c -> top r (glayers g) q = None -> eb (setKVP r q (ccont c q)) inv = true) ->
  add_inv s k fuel st m inv = Ok st' ->
  sim r st' cm uk /\ gnext st' = gnext st /\ gsz st' = gsz st /\
  (exists g', gmaps st' m = Some g' /\ glayers g' = glayers g) /\ (forall x, x <> m -> gmaps st' x = gmaps st x).
Proof.
  intros r st cm uk fuel m inv st' c g S Hc G [I1 [I2 I3]] HI H.
  destruct (sim_get _ _ _ _ _ _ S Hc) as [g0 [G0 M]]. rewrite G in G0. injection G0 as <-.
  unfold add_inv in H. rewrite G in H. unfold inv_call in H.
  rewrite (emb_plain _ _ _ inv I1) in H. cbn [bindr] in H. rewrite G in H. injection H as <-.
  destruct M as [A1 A2 A3 A4 A5 A6 A7 A8 A9 A10 B1 B2 B3 B4 B5 B6 B7 B8 B9 B10].
  rewrite <- A1, <- A2 in I2.
  assert (IE : forall r', eb r' (substb (item_subst (gks g) (gvs g) (gunk g)) inv) =
                 eb (setKVP r' (ev r' (ik (gunk g))) (val r' (gunk g))) inv).
  { intros r'. apply inv_subst_eval; [auto| |]; apply A9. }
  split.
  - constructor.
    + cbn [set_map add_cs gcs]. apply holds_app. split; [apply (sim_cs _ _ _ _ S)|].
      intros x [<-|[]]. rewrite IE, B5, <- B6. apply HI; [|auto].
      rewrite <- B5. destruct A9 as [[W _] _]. rewrite <- A1, <- W. apply evalv_lt.
    + cbn [set_map add_cs gcs gnext]. apply Forall_app. split; [apply (sim_dep _ _ _ _ S)|]. constructor; [|constructor].
      intros r1 r2 E. rewrite !IE. destruct A9 as [_ [DI _]]. rewrite (val_eq _ _ _ _ DI E), (proj1 DI r1 r2 E).
      apply I3. apply setKVP_eqbelow. auto.
    + apply (sim_n _ _ _ _ S).
    + intros x. cbn [set_map add_cs gmaps gnext]. destruct (N.eqb_spec x m) as [->|NE].
      * rewrite Hc. constructor; cbn [gks gvs gitems ginvs gunk glen glayers]; auto.
        -- apply Forall_app. auto.
        -- intros i Hi q Hq T. apply in_app_or in Hi as [Hi|[<-|[]]]; [auto|]. apply HI; [rewrite <- A1; auto|auto].
      * apply (sim_maps _ _ _ _ S x).
  - split; [reflexivity|]. split; [reflexivity|]. split.
    + eexists. split; [apply set_map_same|]. reflexivity.
    + intros x NE. rewrite set_map_other by auto. reflexivity.
Qed.

Lemma add_invs_sim : forall fuel m c uk cm invs r st st' g,
  sim r st cm uk -> cm m = Some c -> gmaps st m = Some g -> Forall (invok (cks c) (cvs c) (gnext st)) invs ->
  (forall inv, In inv invs -> forall q, q < 2 ^ cks c -> top r (glayers g) q = None -> eb (setKVP r q (ccont c q)) inv = true) ->
  add_invs s k fuel st m invs = Ok st' ->
  sim r st' cm uk /\ gnext st' = gnext st /\ gsz st' = gsz st.
Proof.
  intros fuel m c uk cm. induction invs as [|inv invs IH]; intros r st st' g S Hc G F HI H; cbn [add_invs] in H.
  - injection H as <-. auto.
  - inversion F as [|? ? I F']; subst. rewrite (proj2 (freeze_plain st) inv (proj1 I)) in H.
    destruct (add_inv s k fuel st m inv) as [st1| |] eqn:E; try discriminate H. cbn [bindr] in H.
    destruct (add_inv_sim r st cm uk fuel m inv st1 c g S Hc G I) as [S1 [N1 [Z1 [[g1 [G1 L1]] _]]]]; [|exact E|].
    { intros. apply HI; auto. left. auto. }
    destruct (IH r st1 st' g1 S1 Hc G1) as [S2 [N2 Z2]]; [rewrite N1; auto| |exact H|].
    + rewrite L1. intros. apply HI; auto. right. auto.
    + split; [auto|]. split; congruence.
Qed.

(** ** Predicates over all items *)

Lemma inv_items_plain : forall fuel ks vs inv items st, nolkb inv = true ->
  inv_items s k fuel st ks vs inv items = Ok (st, map (fun i => substb (item_subst ks vs i) inv) items).
Proof.
  intros fuel ks vs inv items st H. revert st. induction items as [|i items IH]; intros st; cbn [inv_items map]; [reflexivity|].
  unfold inv_call. rewrite (emb_plain _ _ _ inv H). cbn [bindr]. rewrite IH. reflexivity.
Qed.

Lemma kv_sized_imp : forall ks vs a b, kv_sized ks vs a = true -> kv_sized ks vs b = true -> kv_sized ks vs (BImp a b) = true.
Proof. intros. unfold kv_sized, BImp in *. cbn [bvvars]. rewrite forallb_app. rewrite H, H0. reflexivity. Qed.

Lemma forall_sim : forall r st cm uk fuel m pred st' res c b,
  sim r st cm uk -> cm m = Some c -> invok (cks c) (cvs c) (gnext st) pred ->
  forall_ s k fuel st m pred = Ok (st', res) ->
  let sat q := eb (setKVP r q (ccont c q)) pred = true in
  (b = true <-> forall q, q < 2 ^ cks c -> snd (ccont c q) = true -> sat q) ->
  ((forall q, q < 2 ^ cks c -> snd (ccont c q) = true -> sat q) \/
   (exists q, (In q (cseen c) \/ q = uk m) /\ snd (ccont c q) = true /\ ~ sat q)) ->
  exists r' g g', eqbelow (gnext st) r r' /\ gnext st <= gnext st' /\ gsz st' = gsz st /\
    sim r' st' cm uk /\ eb r' res = b /\ depb (gnext st') res /\ cleanb res /\
    gmaps st m = Some g /\ gmaps st' m = Some g' /\ (forall x, x <> m -> gmaps st' x = gmaps st x) /\
    Forall2 same_layer (glayers g) (glayers g').
Proof.
  intros r st cm uk fuel m pred st' res c b S Hc [P1 [P2 P3]] H sat HB GEN.
  destruct (sim_get _ _ _ _ _ _ S Hc) as [g [G M]].
  unfold forall_ in H. rewrite G in H.
  assert (FR : freezeb st (BImp PRESENT pred) = BImp PRESENT pred).
  { apply freeze_plain. cbn. auto. }
  rewrite FR in H. set (inv := BImp PRESENT pred) in *.
  assert (I1 : nolkb inv = true) by (cbn; auto).
  pose proof (sim_n _ _ _ _ S) as N2.
  destruct (is_definitely_empty g 0) eqn:EE.
  - injection H as <- <-. exists r, g, g. unfold is_definitely_empty in EE. apply bv_eqb_eq in EE.
    assert (Z : csize c = 0). { rewrite <- (ms_size _ _ _ _ _ M), EE. cbn [evalv]. apply wrap_0. }
    assert (BT : b = true).
    { apply HB. intros q Hq X. rewrite (card_0 (cks c) (ccont c) q) in X; [discriminate| |auto]. rewrite <- Z. apply (ms_card _ _ _ _ _ M). }
    repeat apply conj; auto using eqbelow_refl, clean_BTrue with depdb.
    + lia.
    + clear. induction (glayers g); constructor; [split; reflexivity|auto].
  - destruct (known_items_spec g (ms_coh _ _ _ _ _ M)) as [g1 [E1 [Sm Co]]]. rewrite E1 in H.
    pose proof (msim_same _ _ _ _ _ _ Sm Co M) as M1.
    set (known := pure_known (glayers g) (gitems g)) in *.
    rewrite (inv_items_plain fuel (gks g) (gvs g) inv known _ I1) in H. cbn [bindr] in H.
    set (st1 := set_map st m g1) in *.
    assert (G1 : gmaps st1 m = Some g1) by apply set_map_same.
    destruct (overfull_sim s k KOK r (gnext st) st1 m g1 c (uk m) G1 M1) as [g2 [fits [OE [Sm2 [Co2 [FT FD]]]]]].
    rewrite OE in H. unfold inv_call in H at 1. rewrite (emb_plain _ _ _ inv I1) in H. cbn [bindr] in H.
    pose proof (msim_same _ _ _ _ _ _ Sm2 Co2 M1) as M2.
    set (st3 := set_map st1 m g2) in *.
    change (gnext st3) with (gnext st) in H. set (n := gnext st) in *.
    set (U := substb (item_subst (gks g) (gvs g) (gunk g)) inv) in *.
    set (KRs := map (fun i => substb (item_subst (gks g) (gvs g) i) inv) known) in *.
    set (UNK := BAndL (map (fun i => BNe (ik (gunk g)) (ik i)) known)) in *.
    set (ct := BIff (BoolS n) (BAnd (BAndL KRs) (BImp fits (BImp UNK U)))) in *.
    destruct (add_inv s k fuel (add_cs (bump st3 1) [ct]) m (BImp (BoolS n) inv)) as [st6| |] eqn:AI; try discriminate H.
    cbn [bindr] in H. injection H as <- <-.
    set (r' := updvb r n (0, b)). pose proof (updvb_eqbelow r n (0, b)) as EB. fold r' in EB.
    assert (RB : eb r' (BoolS n) = b) by (cbn; rewrite N.eqb_refl; reflexivity).
    assert (IS : kv_sized (gks g) (gvs g) inv = true).
    { apply kv_sized_imp; [reflexivity|]. rewrite (ms_ks _ _ _ _ _ M), (ms_vs _ _ _ _ _ M). auto. }
    assert (SE : forall i, In i (known ++ [gunk g]) -> forall r0, eb r0 (substb (item_subst (gks g) (gvs g) i) inv) =
                  implb (eb r0 (ip i)) (eb (setKVP r0 (ev r0 (ik i)) (val r0 i)) pred)).
    { intros i Hi r0. destruct (known_right r n g c (uk m) i M Hi) as [_ [[W1 W2] _]].
      rewrite inv_subst_eval by auto. unfold inv. rewrite evalb_BImp. reflexivity. }
    (* evaluation of the constraint at r *)
    assert (VAL : forall i, In i (known ++ [gunk g]) -> eb r (substb (item_subst (gks g) (gvs g) i) inv) =
                  implb (snd (ccont c (ev r (ik i)))) (eb (setKVP r (ev r (ik i)) (ccont c (ev r (ik i)))) pred)).
    { intros i Hi. rewrite SE by auto. destruct (known_right r n g c (uk m) i M Hi) as [V _]. rewrite V. reflexivity. }
    assert (CT : eb r (BAnd (BAndL KRs) (BImp fits (BImp UNK U))) = b).
    { destruct GEN as [ALL|[q [QS [QP QN]]]].
      - assert (BT : b = true) by (apply HB; auto). rewrite BT. cbn [evalb]. apply andb_true_iff. split.
        + apply BAndL_true. intros x Hx. apply in_map_iff in Hx as [i [<- Hi]].
          rewrite VAL by (apply in_or_app; auto). destruct (snd (ccont c (ev r (ik i)))) eqn:PR; [|reflexivity]. cbn.
          apply ALL; [|auto]. destruct (known_right r n g c (uk m) i M) as [_ [[W _] _]]; [apply in_or_app; auto|].
          rewrite <- (ms_ks _ _ _ _ _ M), <- W. apply evalv_lt.
        + apply BImp_true. intros _. apply BImp_true. intros _. unfold U.
          rewrite VAL by (apply in_or_app; right; left; auto). destruct (snd (ccont c (ev r (ik (gunk g))))) eqn:PR; [|reflexivity]. cbn.
          apply ALL; [|auto]. destruct (ms_unk _ _ _ _ _ M) as [[W _] _].
          rewrite <- (ms_ks _ _ _ _ _ M), <- W. apply evalv_lt.
      - assert (BF : b = false).
        { destruct b; [|auto]. exfalso. apply QN. apply HB; [auto| |auto].
          pose proof (ms_card _ _ _ _ _ M) as [l [_ [HL _]]].
          destruct QS as [QS|QS]; [|subst q].
          - destruct (ms_seen _ _ _ _ _ M q QS QP) as [->|[i [Hi <-]]].
            + rewrite <- (ms_ukey _ _ _ _ _ M). destruct (ms_unk _ _ _ _ _ M) as [[W _] _]. rewrite <- (ms_ks _ _ _ _ _ M), <- W. apply evalv_lt.
            + destruct (known_right r n g c (uk m) i M) as [_ [[W _] _]]; [apply in_or_app; auto|]. rewrite <- (ms_ks _ _ _ _ _ M), <- W. apply evalv_lt.
          - rewrite <- (ms_ukey _ _ _ _ _ M). destruct (ms_unk _ _ _ _ _ M) as [[W _] _]. rewrite <- (ms_ks _ _ _ _ _ M), <- W. apply evalv_lt. }
        rewrite BF. cbn [evalb]. apply andb_false_iff.
        assert (KN : (exists i, In i known /\ ev r (ik i) = q) \/ (~ (exists i, In i known /\ ev r (ik i) = q) /\ q = uk m)).
        { assert (Dn : (exists i, In i known /\ ev r (ik i) = q) \/ ~ (exists i, In i known /\ ev r (ik i) = q)).
          { destruct (existsb (fun i => ev r (ik i) =? q) known) eqn:X.
            - apply existsb_exists in X as [i [Hi Ei]]. apply N.eqb_eq in Ei. left. eauto.
            - right. intros [i [Hi Ei]]. assert (existsb (fun i => ev r (ik i) =? q) known = true); [|congruence].
              apply existsb_exists. exists i. split; [auto|]. apply N.eqb_eq. auto. }
          destruct Dn as [?|Dn]; [left; auto|]. right. split; [auto|]. destruct QS as [QS|]; [|auto].
          destruct (ms_seen _ _ _ _ _ M q QS QP) as [|X]; [auto|]. contradiction. }
        destruct KN as [[i [Hi Ei]]|[NK QU]].
        + left. destruct (eb r (BAndL KRs)) eqn:X; [|auto]. exfalso. rewrite BAndL_true in X.
          specialize (X _ (in_map (fun i => substb (item_subst (gks g) (gvs g) i) inv) known i Hi)). cbn beta in X.
          rewrite VAL in X by (apply in_or_app; auto). rewrite Ei, QP in X. cbn in X. contradiction.
        + right. destruct (eb r (BImp fits (BImp UNK U))) eqn:X; [|auto]. exfalso.
          rewrite BImp_true in X. specialize (X FT). rewrite BImp_true in X.
          assert (UN : eb r UNK = true).
          { apply BAndL_true. intros x Hx. apply in_map_iff in Hx as [i [<- Hi]]. apply BNe_true.
            rewrite (ms_ukey _ _ _ _ _ M). intros E. apply NK. exists i. split; [auto|congruence]. }
          specialize (X UN). unfold U in X. rewrite VAL in X by (apply in_or_app; right; left; auto).
          rewrite (ms_ukey _ _ _ _ _ M) in X. subst q. rewrite QP in X. cbn in X. contradiction. }
    assert (PKD : forall i, In i (known ++ [gunk g]) -> depb n (substb (item_subst (gks g) (gvs g) i) inv)).
    { intros i Hi r1 r2 E12. rewrite !SE by auto. destruct (known_right r n g c (uk m) i M Hi) as [_ [_ [DI _]]].
      rewrite (proj2 (proj2 DI) r1 r2 E12), (proj1 DI r1 r2 E12), (val_eq _ _ _ _ DI E12). f_equal.
      apply P3. apply setKVP_eqbelow. auto. }
    assert (CD : depb n (BAnd (BAndL KRs) (BImp fits (BImp UNK U)))).
    { apply depb_BAnd.
      - apply depb_BAndL. apply Forall_forall. intros x Hx. apply in_map_iff in Hx as [i [<- Hi]]. apply PKD, in_or_app. auto.
      - apply depb_BImp; [auto|]. apply depb_BImp.
        + apply depb_BAndL. apply Forall_forall. intros x Hx. apply in_map_iff in Hx as [i [<- Hi]]. apply depb_BNe.
          * apply (ms_unk _ _ _ _ _ M).
          * destruct (known_right r n g c (uk m) i M) as [_ [_ [DI _]]]; [apply in_or_app; auto|apply DI].
        + apply PKD, in_or_app. right. left. auto. }
    assert (S5 : sim r' (add_cs (bump st3 1) [ct]) cm uk).
    { constructor.
      - cbn [add_cs gcs]. apply holds_app. split.
        + change (gcs (bump st3 1)) with (gcs st). eapply holds_dep; [apply (sim_dep _ _ _ _ S)|exact EB|apply (sim_cs _ _ _ _ S)].
        + intros x [<-|[]]. unfold ct. cbn [evalb]. apply eqb_true_iff.
          change (ebool r' n) with (eb r' (BoolS n)). rewrite RB. rewrite <- CT at 1. apply CD. auto.
      - change (gnext (add_cs (bump st3 1) [ct])) with (n + 1). cbn [add_cs gcs].
        change (gcs (bump st3 1)) with (gcs st). apply Forall_app. split.
        + eapply Forall_depb_le; [|apply (sim_dep _ _ _ _ S)]. unfold n. lia.
        + constructor; [|constructor]. unfold ct. apply depb_BIff; [apply depb_BoolS; lia|]. eapply depb_le; [|exact CD]. lia.
      - change (gnext (add_cs (bump st3 1) [ct])) with (n + 1). lia.
      - intros x. change (gnext (add_cs (bump st3 1) [ct])) with (n + 1).
        change (gmaps (add_cs (bump st3 1) [ct]) x) with (gmaps st3 x). unfold st3, st1. cbn [set_map gmaps].
        destruct (N.eqb_spec x m) as [->|NE].
        + rewrite Hc. eapply msim_mono; [exact EB| |exact M2]. lia.
        + pose proof (sim_maps _ _ _ _ S x) as Q. destruct (gmaps st x), (cm x); auto. eapply msim_mono; [exact EB| |exact Q]. unfold n. lia. }
    assert (Sm12 : Forall2 same_layer (glayers g) (glayers g2)).
    { destruct Sm as [_ [_ [_ [_ [_ [_ S7]]]]]]. destruct Sm2 as [_ [_ [_ [_ [_ [_ S8]]]]]].
      clear -S7 S8. revert S8. generalize (glayers g2). induction S7 as [|a e l l' [A1 A2] F IH]; intros l2 F2.
      - inversion F2; constructor.
      - inversion F2 as [|? d ? l3 [B1 B2] F3]; subst. constructor; [split; congruence|auto]. }
    destruct (add_inv_sim r' (add_cs (bump st3 1) [ct]) cm uk fuel m (BImp (BoolS n) inv) st6 c g2 S5 Hc) as [S6 [N6 [Z6 [[g6 [G6 L6]] O6]]]].
    + apply set_map_same.
    + split; [cbn; auto|]. split.
      * apply kv_sized_imp; [reflexivity|]. rewrite <- (ms_ks _ _ _ _ _ M), <- (ms_vs _ _ _ _ _ M). auto.
      * change (gnext (add_cs (bump st3 1) [ct])) with (n + 1). apply depb_BImp; [apply depb_BoolS; lia|].
        unfold inv. apply depb_BImp; [apply depb_BoolS; unfold n; lia|]. eapply depb_le; [|exact P3]. unfold n. lia.
    + intros q Hq T. apply BImp_true. intros RT.
      assert (BT : b = true).
      { cbn [evalb setKVP ebool] in RT. destruct (N.eqb_spec n 0); [lia|].
        change (ebool r' n) with (eb r' (BoolS n)) in RT. rewrite RB in RT. auto. }
      unfold inv. apply BImp_true. cbn [evalb PRESENT setKVP ebool]. rewrite N.eqb_refl. intros PQ.
      assert (SQ : sat q) by (apply HB; auto). unfold sat in SQ. rewrite <- SQ. apply P3.
      apply eqbelow_sym. apply setKVP_eqbelow. auto.
    + exact AI.
    + exists r', g, g6. repeat apply conj; auto.
      * rewrite N6. change (gnext (add_cs (bump st3 1) [ct])) with (n + 1). lia.
      * rewrite N6. change (gnext (add_cs (bump st3 1) [ct])) with (n + 1). apply depb_BoolS. lia.
      * apply clean_BoolS. lia.
      * intros x NE. rewrite O6 by auto. cbn. destruct (N.eqb_spec x m); [contradiction|reflexivity].
      * rewrite L6. auto.
Qed.

(** ** Creation *)

Lemma raw_new_sim : forall r st cm uk m ks vs len C n,
  sim r st cm uk -> uk m < 2 ^ ks -> (forall q, fst (C q) < 2 ^ vs) ->
  dep (gnext st) len -> ev r len = n -> card ks C n ->
  exists r', eqbelow (gnext st) r r' /\ gnext st <= gnext (raw_new st m ks vs len) /\
    sim r' (raw_new st m ks vs len) (upd cm m (Some (mkC ks vs (width len) C n []))) uk.
Proof.
  intros r st cm uk m ks vs len C n S U V D E K. set (x := gnext st).
  set (r' := mkEnv (fun y => if y =? x then uk m else if y =? x + 1 then fst (C (uk m)) else ebv r y)
                   (fun y => if y =? x then snd (C (uk m)) else ebool r y)).
  assert (EB : eqbelow x r r').
  { intros y L. cbn. destruct (N.eqb_spec y x); [lia|]. destruct (N.eqb_spec y (x + 1)); [lia|]. auto. }
  pose proof (sim_n _ _ _ _ S) as N2. fold x in N2.
  exists r'. split; [auto|]. split; [cbn; lia|].
  eapply sim_build with (st' := raw_new st m ks vs len); [exact S|exact EB| | | |apply set_map_same| |].
  - cbn. lia.
  - cbn. eapply holds_dep; [apply (sim_dep _ _ _ _ S)|exact EB|apply (sim_cs _ _ _ _ S)].
  - cbn. eapply Forall_depb_le; [|apply (sim_dep _ _ _ _ S)]. lia.
  - intros y NE. unfold raw_new. rewrite set_map_other by auto. reflexivity.
  - assert (E' : ev r' len = n) by (rewrite <- E; symmetry; apply D; auto).
    cbn [raw_new set_map bump gnext]. fold x.
    assert (VU : val r' (mkItem (BVS ks x) (BVS vs (x + 1)) (BoolS x)) = C (uk m)).
    { unfold val. cbn [iv ip evalv evalb r' ebv ebool]. rewrite N.eqb_refl.
      destruct (N.eqb_spec (x + 1) x); [lia|]. rewrite N.eqb_refl. rewrite wrap_small by auto. destruct (C (uk m)); reflexivity. }
    constructor; cbn [gks gvs gitems ginvs gunk glen glayers cks cvs clw ccont csize cseen len_at skipn top coherent pure_known]; auto.
    + constructor.
    + eapply dep_le; [|exact D]. unfold x. lia.
    + split; [split; reflexivity|]. split.
      * split; [apply dep_BVS; lia|]. split; [apply dep_BVS; lia|apply depb_BoolS; lia].
      * split; [apply clean_BVS; lia|]. split; [apply clean_BVS; lia|apply clean_BoolS; cbn [ip]; lia].
    + discriminate.
    + intros i [].
    + cbn [ik evalv r' ebv]. rewrite N.eqb_refl. apply wrap_small. auto.
    + intros q [].
Qed.

Lemma map_new_sim : forall r st cm uk fuel m ks vs len invs C st',
  sim r st cm uk -> uk m < 2 ^ ks -> (forall q, fst (C q) < 2 ^ vs) ->
  dep (gnext st) len -> card ks C (ev r len) ->
  Forall (invok ks vs (gnext st)) invs ->
  (forall inv, In inv invs -> forall q, q < 2 ^ ks -> eb (setKVP r q (C q)) inv = true) ->
  map_new s k fuel st m ks vs (Some (len, invs)) = Ok st' ->
  exists r', eqbelow (gnext st) r r' /\ gnext st <= gnext st' /\ gsz st' = gsz st /\
    sim r' st' (upd cm m (Some (mkC ks vs (width len) C (ev r len) []))) uk.
Proof.
  intros r st cm uk fuel m ks vs len invs C st' S U V D K F HI H. cbn [map_new] in H.
  destruct (raw_new_sim r st cm uk m ks vs len C (ev r len) S U V D eq_refl K) as [r' [EB [L S']]].
  destruct (add_invs_sim fuel m (mkC ks vs (width len) C (ev r len) []) uk
             (upd cm m (Some (mkC ks vs (width len) C (ev r len) []))) invs r' (raw_new st m ks vs len) st'
             (mkGmap ks vs [] [] (mkItem (BVS ks (gnext st)) (BVS vs (gnext st + 1)) (BoolS (gnext st))) len []) S')
    as [S2 [N2 Z2]].
  - unfold upd. rewrite N.eqb_refl. reflexivity.
  - apply set_map_same.
  - cbn [cks cvs]. eapply Forall_impl; [|exact F]. intros inv [A [B Dn]]. split; [auto|]. split; [auto|]. eapply depb_le; eauto.
  - cbn [cks ccont]. intros inv Hin q Hq _. rewrite <- (HI inv Hin q Hq).
    rewrite Forall_forall in F. destruct (F inv Hin) as [_ [_ Dn]]. apply Dn. apply eqbelow_sym, setKVP_eqbelow. auto.
  - exact H.
  - exists r'. split; [auto|]. rewrite N2, Z2. split; [auto|]. split; [reflexivity|auto].
Qed.

End HistOps.

#[local] Transparent cleanv cleanb.

(** ** Templates *)

Lemma vars_subst : forall sg,
  (forall e, (forall x w, In (x, w) (vvars (substv sg e)) ->
       (exists y v, In (y, v) (vvars e) /\ In (x, w) (vvars (sv sg v y))) \/ (exists y, In y (vbools e) /\ In (x, w) (bvvars (sb sg y)))) /\
     (forall x, In x (vbools (substv sg e)) ->
       (exists y v, In (y, v) (vvars e) /\ In x (vbools (sv sg v y))) \/ (exists y, In y (vbools e) /\ In x (bbools (sb sg y))))) /\
  (forall e, (forall x w, In (x, w) (bvvars (substb sg e)) ->
       (exists y v, In (y, v) (bvvars e) /\ In (x, w) (vvars (sv sg v y))) \/ (exists y, In y (bbools e) /\ In (x, w) (bvvars (sb sg y)))) /\
     (forall x, In x (bbools (substb sg e)) ->
       (exists y v, In (y, v) (bvvars e) /\ In x (vbools (sv sg v y))) \/ (exists y, In y (bbools e) /\ In x (bbools (sb sg y))))).
Proof.
  intros sg. apply expr_mind; intros; cbn [substv substb vvars bvvars vbools bbools];
  repeat match goal with H : _ /\ _ |- _ => destruct H end;
  (split; intros;
   repeat match goal with H : In _ (_ ++ _) |- _ => apply in_app_or in H; destruct H as [H|H] end;
   try contradiction;
   match goal with
   | |- (exists y v, In (y, v) [(?a, ?b)] /\ _) \/ _ => left; exists a, b; split; [left; reflexivity|assumption]
   | |- _ \/ (exists y, In y [?a] /\ _) => right; exists a; split; [left; reflexivity|assumption]
   | IH : forall x w, In (x, w) ?l -> _, H : In (_, _) ?l |- _ =>
       destruct (IH _ _ H) as [[y0 [v0 [Q1 Q2]]]|[y0 [Q1 Q2]]];
       [left; exists y0, v0|right; exists y0]; (split; [rewrite ?in_app_iff; auto|auto])
   | IH : forall x, In x ?l -> _, H : In _ ?l |- _ =>
       destruct (IH _ H) as [[y0 [v0 [Q1 Q2]]]|[y0 [Q1 Q2]]];
       [left; exists y0, v0|right; exists y0]; (split; [rewrite ?in_app_iff; auto|auto])
   end).
Qed.

Lemma nolk_subst : forall sg,
  (forall e, nolkv e = true -> (forall y v, In (y, v) (vvars e) -> nolkv (sv sg v y) = true) ->
     (forall y, In y (vbools e) -> nolkb (sb sg y) = true) -> nolkv (substv sg e) = true) /\
  (forall e, nolkb e = true -> (forall y v, In (y, v) (bvvars e) -> nolkv (sv sg v y) = true) ->
     (forall y, In y (bbools e) -> nolkb (sb sg y) = true) -> nolkb (substb sg e) = true).
Proof.
  intros sg. apply expr_mind; intros; cbn [substv substb nolkv nolkb vvars bvvars vbools bbools] in *; try discriminate; auto;
  repeat match goal with
  | H : _ && _ = true |- _ => apply andb_prop in H; destruct H
  end;
  repeat match goal with
  | |- _ && _ = true => apply andb_true_intro; split
  end; 
  try match goal with
  | IH : nolkv ?e = true -> _ |- nolkv (substv _ ?e) = true => apply IH
  | IH : nolkb ?e = true -> _ |- nolkb (substb _ ?e) = true => apply IH
  end; auto; intros;
  repeat match goal with
  | H : forall y v, In (y, v) _ -> _ |- nolkv _ = true => eapply H; rewrite ?in_app_iff; eauto
  | H : forall y, In y _ -> _ |- nolkb _ = true => eapply H; rewrite ?in_app_iff; eauto
  end.
  all: try (left; reflexivity).
Qed.

Section Templates.
Variable nin : N.
Variable inp : env.
Hypothesis NIN : 2 <= nin.

(** Symbolic and concrete results so far. *)
Definition rsim (r : env) (n : N) (rs : list (bv * bexp)) (cr : list (N * bool)) : Prop :=
  Forall2 (fun a b => (ev r (fst a), eb r (snd a)) = b /\ dep n (fst a) /\ depb n (snd a) /\
                      cleanv (fst a) /\ cleanb (snd a)) rs cr.
Definition isim (r : env) : Prop := eqbelow nin inp r.

Lemma rsim_nth : forall r n rs cr j v, rsim r n rs cr -> nth_error rs j = Some v ->
  forall d d', nth j rs d = v /\ nth j cr d' = (ev r (fst v), eb r (snd v)) /\
    dep n (fst v) /\ depb n (snd v) /\ cleanv (fst v) /\ cleanb (snd v).
Proof.
  intros r n rs cr j v F. revert j. induction F as [|a b rs cr [E [D1 [D2 [C1 C2]]]] F IH]; intros [|j] H d d'; cbn in *; try discriminate.
  - injection H as ->. rewrite <- E. repeat split; auto; first [apply C1|apply C2].
  - apply IH. auto.
Qed.

Lemma rsim_mono : forall r r' n n' rs cr, eqbelow n r r' -> n <= n' -> rsim r n rs cr -> rsim r' n' rs cr.
Proof.
  intros r r' n n' rs cr E L F. induction F as [|a b rs cr [V [D1 [D2 [C1 C2]]]] F IH]; constructor; auto.
  rewrite <- (D1 _ _ E), <- (D2 _ _ E). split; [auto|]. split; [eapply dep_le; eauto|]. split; [eapply depb_le; eauto|auto].
Qed.

Lemma tsub_ok : forall r n rs cr vs bs,
  isim r -> rsim r n rs cr ->
  forallb (tvar_ok 0 nin rs) vs = true -> forallb (tbool_ok 0 nin rs) bs = true ->
  subst_ok lk0 (tsub nin rs) r (tenv inp nin cr) vs bs.
Proof.
  intros r n rs cr vs bs I F V B. rewrite forallb_forall in V, B. split.
  - intros x w Hin. specialize (V _ Hin). unfold tvar_ok in V. cbn [fst snd] in V.
    apply andb_prop in V as [_ V]. cbn [tsub sv tenv ebv]. destruct (N.ltb_spec x nin) as [L|L].
    + split; [reflexivity|]. cbn [evalv]. destruct (I x L) as [-> _]. reflexivity.
    + cbn [orb] in V. destruct (nth_error rs (N.to_nat (x - nin))) as [v|] eqn:NE; [|discriminate].
      apply N.eqb_eq in V. destruct (rsim_nth _ _ _ _ _ _ F NE (BVV w 0, BTrue) (0, true)) as [-> [-> _]].
      split; [auto|]. cbn [fst]. symmetry. apply wrap_small. rewrite <- V. apply evalv_lt.
  - intros x Hin. specialize (B _ Hin). unfold tbool_ok in B. apply andb_prop in B as [_ B].
    cbn [tsub sb tenv ebool]. destruct (N.ltb_spec x nin) as [L|L].
    + cbn [evalb]. destruct (I x L) as [_ ->]. reflexivity.
    + cbn [orb] in B. destruct (nth_error rs (N.to_nat (x - nin))) as [v|] eqn:NE; [|discriminate].
      destruct (rsim_nth _ _ _ _ _ _ F NE (BVV 1 0, BTrue) (0, true)) as [-> [-> _]]. reflexivity.
Qed.

Lemma tvar_weaken : forall lo rs l, forallb (tvar_ok lo nin rs) l = true -> forallb (tvar_ok 0 nin rs) l = true.
Proof.
  intros lo rs l H. rewrite forallb_forall in *. intros x Hx. specialize (H x Hx). unfold tvar_ok in *.
  apply andb_prop in H as [_ ->]. rewrite (proj2 (N.leb_le 0 (fst x))) by lia. reflexivity.
Qed.
Lemma tbool_weaken : forall lo rs l, forallb (tbool_ok lo nin rs) l = true -> forallb (tbool_ok 0 nin rs) l = true.
Proof.
  intros lo rs l H. rewrite forallb_forall in *. intros x Hx. specialize (H x Hx). unfold tbool_ok in *.
  apply andb_prop in H as [_ ->]. rewrite (proj2 (N.leb_le 0 x)) by lia. reflexivity.
Qed.

(** Two assignments that agree on the symbols so far give the template the same value. *)
Lemma tsub_agree : forall rs cr r n, rsim r n rs cr -> nin <= n -> forall r1 r2, eqbelow n r1 r2 ->
  (forall w x, tvar_ok 0 nin rs (x, w) = true -> ev r1 (sv (tsub nin rs) w x) = ev r2 (sv (tsub nin rs) w x)) /\
  (forall x, tbool_ok 0 nin rs x = true -> eb r1 (sb (tsub nin rs) x) = eb r2 (sb (tsub nin rs) x)).
Proof.
  intros rs cr r n F L r1 r2 E. split.
  - intros w x V. cbn [tsub sv]. destruct (N.ltb_spec x nin) as [Lx|Lx].
    + cbn [evalv]. destruct (E x) as [-> _]; [lia|reflexivity].
    + unfold tvar_ok in V. apply andb_prop in V as [_ V]. cbn [fst snd] in V.
      destruct (N.ltb_spec x nin); [lia|]. cbn [orb] in V.
      destruct (nth_error rs (N.to_nat (x - nin))) as [v|] eqn:NE; [|discriminate].
      destruct (rsim_nth _ _ _ _ _ _ F NE (BVV w 0, BTrue) (0, true)) as [-> [_ [D _]]]. apply D. auto.
  - intros x V. cbn [tsub sb]. destruct (N.ltb_spec x nin) as [Lx|Lx].
    + cbn [evalb]. destruct (E x) as [_ ->]; [lia|reflexivity].
    + unfold tbool_ok in V. apply andb_prop in V as [_ V].
      destruct (N.ltb_spec x nin); [lia|]. cbn [orb] in V.
      destruct (nth_error rs (N.to_nat (x - nin))) as [v|] eqn:NE; [|discriminate].
      destruct (rsim_nth _ _ _ _ _ _ F NE (BVV 1 0, BTrue) (0, true)) as [-> [_ [_ [D _]]]]. apply D. auto.
Qed.

Lemma subst_dep : forall rs cr r n, rsim r n rs cr -> nin <= n ->
  (forall e, forallb (tvar_ok 0 nin rs) (vvars e) = true -> forallb (tbool_ok 0 nin rs) (vbools e) = true -> dep n (substv (tsub nin rs) e)) /\
  (forall e, forallb (tvar_ok 0 nin rs) (bvvars e) = true -> forallb (tbool_ok 0 nin rs) (bbools e) = true -> depb n (substb (tsub nin rs) e)).
Proof.
  intros rs cr r n F L.
  assert (R : forall r1 r2, eqbelow n r1 r2 -> forall vs bs, forallb (tvar_ok 0 nin rs) vs = true -> forallb (tbool_ok 0 nin rs) bs = true ->
    let t q := mkEnv (fun x => if x <? nin then ebv q x else ev q (fst (nth (N.to_nat (x - nin)) rs (BVV 1 0, BTrue))))
                     (fun x => if x <? nin then ebool q x else eb q (snd (nth (N.to_nat (x - nin)) rs (BVV 1 0, BTrue)))) in
    (forall q, subst_ok lk0 (tsub nin rs) q (t q) vs bs) /\ agree_on vs bs (t r1) (t r2)).
  { intros r1 r2 E vs bs V B t. rewrite forallb_forall in V, B. split.
    - intros q. split.
      + intros x w Hin. specialize (V _ Hin). unfold tvar_ok in V. apply andb_prop in V as [_ V]. cbn [fst snd] in V.
        cbn [tsub sv t ebv]. destruct (N.ltb_spec x nin) as [Lx|Lx]; [split; reflexivity|]. cbn [orb] in V.
        destruct (nth_error rs (N.to_nat (x - nin))) as [v|] eqn:NE; [|discriminate]. apply N.eqb_eq in V.
        destruct (rsim_nth _ _ _ _ _ _ F NE (BVV w 0, BTrue) (0, true)) as [-> _].
        destruct (rsim_nth _ _ _ _ _ _ F NE (BVV 1 0, BTrue) (0, true)) as [-> _].
        split; [auto|]. symmetry. apply wrap_small. rewrite <- V. apply evalv_lt.
      + intros x Hin. cbn [tsub sb t ebool]. destruct (N.ltb_spec x nin); reflexivity.
    - split.
      + intros x w Hin. cbn [t ebv]. specialize (V _ Hin). pose proof V as V'.
        unfold tvar_ok in V. apply andb_prop in V as [_ V]. cbn [fst snd] in V.
        destruct (N.ltb_spec x nin) as [Lx|Lx]; [destruct (E x) as [-> _]; [lia|reflexivity]|]. cbn [orb] in V.
        destruct (nth_error rs (N.to_nat (x - nin))) as [v|] eqn:NE; [|discriminate].
        destruct (rsim_nth _ _ _ _ _ _ F NE (BVV 1 0, BTrue) (0, true)) as [-> [_ [D _]]]. rewrite (D r1 r2 E). reflexivity.
      + intros x Hin. cbn [t ebool]. specialize (B _ Hin). unfold tbool_ok in B. apply andb_prop in B as [_ B].
        destruct (N.ltb_spec x nin) as [Lx|Lx]; [destruct (E x) as [_ ->]; [lia|reflexivity]|]. cbn [orb] in B.
        destruct (nth_error rs (N.to_nat (x - nin))) as [v|] eqn:NE; [|discriminate].
        destruct (rsim_nth _ _ _ _ _ _ F NE (BVV 1 0, BTrue) (0, true)) as [-> [_ [_ [D _]]]]. apply D. auto. }
  split; intros e V B r1 r2 E; destruct (R r1 r2 E _ _ V B) as [OK AG].
  - rewrite (proj2 (proj1 (eval_subst lk0 _ _ _) e (OK r1))), (proj2 (proj1 (eval_subst lk0 _ _ _) e (OK r2))).
    apply evalv_agree. auto.
  - rewrite (proj2 (eval_subst lk0 _ _ _) e (OK r1)), (proj2 (eval_subst lk0 _ _ _) e (OK r2)).
    apply evalb_agree. auto.
Qed.

Lemma tsub_clean : forall rs cr r n, rsim r n rs cr ->
  (forall w x, tvar_ok 2 nin rs (x, w) = true -> cleanv (sv (tsub nin rs) w x)) /\
  (forall x, tbool_ok 1 nin rs x = true -> cleanb (sb (tsub nin rs) x)).
Proof.
  intros rs cr r n F. split.
  - intros w x V. unfold tvar_ok in V. cbn [fst snd] in V. apply andb_prop in V as [G V]. apply N.leb_le in G.
    cbn [tsub sv]. destruct (N.ltb_spec x nin); [apply clean_BVS; auto|]. cbn [orb] in V.
    destruct (nth_error rs (N.to_nat (x - nin))) as [v|] eqn:NE; [|discriminate].
    destruct (rsim_nth _ _ _ _ _ _ F NE (BVV w 0, BTrue) (0, true)) as [-> [_ [_ [_ [C _]]]]]. auto.
  - intros x V. unfold tbool_ok in V. apply andb_prop in V as [G V]. apply N.leb_le in G.
    cbn [tsub sb]. destruct (N.ltb_spec x nin); [apply clean_BoolS; auto|]. cbn [orb] in V.
    destruct (nth_error rs (N.to_nat (x - nin))) as [v|] eqn:NE; [|discriminate].
    destruct (rsim_nth _ _ _ _ _ _ F NE (BVV 1 0, BTrue) (0, true)) as [-> [_ [_ [_ [_ C]]]]]. auto.
Qed.

(** A key or value template. *)
Lemma tv_spec : forall r n rs cr e, isim r -> rsim r n rs cr -> nin <= n -> tv_ok nin rs e = true ->
  keyok (width e) n (substv (tsub nin rs) e) /\ ev r (substv (tsub nin rs) e) = ev (tenv inp nin cr) e.
Proof.
  intros r n rs cr e I F L T. unfold tv_ok in T. apply andb_prop in T as [T T3]. apply andb_prop in T as [T1 T2].
  pose proof (tvar_weaken _ _ _ T2) as W2. pose proof (tbool_weaken _ _ _ T3) as W3.
  destruct (proj1 (eval_subst lk0 _ _ _) e (tsub_ok r n rs cr _ _ I F W2 W3)) as [EW EV].
  split; [|auto]. split; [auto|]. split; [apply (proj1 (subst_dep rs cr r n F L)); auto|].
  destruct (tsub_clean rs cr r n F) as [CV CB]. rewrite forallb_forall in T2, T3.
  split; [|split].
  - apply nolk_subst; [auto| |]; intros.
    + apply CV, T2. auto.
    + apply CB, T3. auto.
  - intros x w Hin. destruct (proj1 (proj1 (vars_subst _) e) x w Hin) as [[y [v [Q1 Q2]]]|[y [Q1 Q2]]].
    + eapply (proj1 (proj2 (CV _ _ (T2 _ Q1)))); eauto.
    + eapply (proj1 (proj2 (CB _ (T3 _ Q1)))); eauto.
  - intros x Hin. destruct (proj2 (proj1 (vars_subst _) e) x Hin) as [[y [v [Q1 Q2]]]|[y [Q1 Q2]]].
    + eapply (proj2 (proj2 (CV _ _ (T2 _ Q1)))); eauto.
    + eapply (proj2 (proj2 (CB _ (T3 _ Q1)))); eauto.
Qed.

(** A condition. *)
Lemma tb_spec : forall r n rs cr e, isim r -> rsim r n rs cr -> nin <= n -> tb_ok nin rs e = true ->
  depb n (substb (tsub nin rs) e) /\ eb r (substb (tsub nin rs) e) = eb (tenv inp nin cr) e.
Proof.
  intros r n rs cr e I F L T. unfold tb_ok in T. apply andb_prop in T as [T T3]. apply andb_prop in T as [T1 T2].
  pose proof (tvar_weaken _ _ _ T2) as W2. pose proof (tbool_weaken _ _ _ T3) as W3.
  split; [apply (proj2 (subst_dep rs cr r n F L)); auto|].
  apply (proj2 (eval_subst lk0 _ _ _) e (tsub_ok r n rs cr _ _ I F W2 W3)).
Qed.

(** A predicate over KEY, VALUE and PRESENT. *)
Lemma tp_spec : forall r n rs cr p ks vs, isim r -> rsim r n rs cr -> nin <= n -> tp_ok nin rs p = true ->
  kv_sized ks vs p = true ->
  invok ks vs n (substb (tsub nin rs) p) /\
  forall q vp, eb (setKVP r q vp) (substb (tsub nin rs) p) = eb (setKVP (tenv inp nin cr) q vp) p.
Proof.
  intros r n rs cr p ks vs I F L T K. unfold tp_ok in T. apply andb_prop in T as [T T3]. apply andb_prop in T as [T1 T2].
  pose proof T2 as V2. pose proof T3 as V3. rewrite forallb_forall in V2, V3.
  assert (SV : forall y v, In (y, v) (bvvars p) -> (y < nin /\ sv (tsub nin rs) v y = BVS v y) \/
              (exists x, nth_error rs (N.to_nat (y - nin)) = Some x /\ nin <= y /\ width (fst x) = v /\ sv (tsub nin rs) v y = fst x)).
  { intros y v Hin. specialize (V2 _ Hin). unfold tvar_ok in V2. cbn [fst snd] in V2. apply andb_prop in V2 as [_ V2].
    cbn [tsub sv]. destruct (N.ltb_spec y nin); [left; auto|]. cbn [orb] in V2. right.
    destruct (nth_error rs (N.to_nat (y - nin))) as [x|] eqn:NE; [|discriminate]. apply N.eqb_eq in V2.
    exists x. destruct (rsim_nth _ _ _ _ _ _ F NE (BVV v 0, BTrue) (0, true)) as [-> _]. auto. }
  assert (SB : forall y, In y (bbools p) -> (y < nin /\ sb (tsub nin rs) y = BoolS y) \/
              (exists x, nth_error rs (N.to_nat (y - nin)) = Some x /\ nin <= y /\ sb (tsub nin rs) y = snd x)).
  { intros y Hin. specialize (V3 _ Hin). unfold tbool_ok in V3. apply andb_prop in V3 as [_ V3].
    cbn [tsub sb]. destruct (N.ltb_spec y nin); [left; auto|]. cbn [orb] in V3. right.
    destruct (nth_error rs (N.to_nat (y - nin))) as [x|] eqn:NE; [|discriminate].
    exists x. destruct (rsim_nth _ _ _ _ _ _ F NE (BVV 1 0, BTrue) (0, true)) as [-> _]. auto. }
  assert (CL : forall j x, nth_error rs j = Some x -> cleanv (fst x) /\ cleanb (snd x) /\
                 exists cv, nth j cr (0, true) = cv /\ (ev r (fst x), eb r (snd x)) = cv).
  { intros j x NE. destruct (rsim_nth _ _ _ _ _ _ F NE (BVV 1 0, BTrue) (0, true)) as [_ [E [_ [_ [C1 C2]]]]].
    split; [auto|]. split; [auto|]. eauto. }
  split.
  - split; [|split].
    + apply nolk_subst; [auto| |].
      * intros y v Hin. destruct (SV y v Hin) as [[_ ->]|[x [NE [_ [_ ->]]]]]; [reflexivity|]. apply (CL _ _ NE).
      * intros y Hin. destruct (SB y Hin) as [[_ ->]|[x [NE [_ ->]]]]; [reflexivity|]. apply (proj1 (proj2 (CL _ _ NE))).
    + unfold kv_sized in *. rewrite forallb_forall in *. intros [x w] Hin. cbn [fst snd].
      destruct (proj1 (proj2 (vars_subst _) p) x w Hin) as [[y [v [Q1 Q2]]]|[y [Q1 Q2]]].
      * destruct (SV y v Q1) as [[_ E]|[z [NE [_ [_ E]]]]]; rewrite E in Q2.
        -- cbn [vvars] in Q2. destruct Q2 as [Q2|[]]. injection Q2 as <- <-. specialize (K _ Q1). auto.
        -- pose proof (proj1 (proj2 (proj1 (CL _ _ NE))) _ _ Q2). destruct (N.eqb_spec x 0); [lia|]. destruct (N.eqb_spec x 1); [lia|auto].
      * destruct (SB y Q1) as [[_ E]|[z [NE [_ E]]]]; rewrite E in Q2; [destruct Q2|].
        pose proof (proj1 (proj2 (proj1 (proj2 (CL _ _ NE)))) _ _ Q2). destruct (N.eqb_spec x 0); [lia|]. destruct (N.eqb_spec x 1); [lia|auto].
    + apply (proj2 (subst_dep rs cr r n F L)); auto.
  - intros q vp. apply (proj2 (eval_subst lk0 _ _ _) p). split.
    + intros x w Hin. destruct (SV x w Hin) as [[Lx E]|[z [NE [Lx [Wz E]]]]]; rewrite E.
      * split; [reflexivity|]. cbn [evalv setKVP ebv tenv]. destruct (N.ltb_spec x nin); [|lia].
        destruct (I x Lx) as [-> _]. reflexivity.
      * split; [auto|]. destruct (CL _ _ NE) as [[C0 [C1 C2]] [_ [cv [E1 E2]]]].
        cbn [setKVP ebv tenv]. destruct (N.eqb_spec x 0); [lia|]. destruct (N.eqb_spec x 1); [lia|].
        destruct (N.ltb_spec x nin); [lia|]. rewrite E1, <- E2. cbn [fst].
        rewrite wrap_small by (rewrite <- Wz; apply evalv_lt).
        apply evalv_agree. split.
        -- intros y v Hy. specialize (C1 _ _ Hy). cbn [setKVP ebv]. destruct (N.eqb_spec y 0); [lia|]. destruct (N.eqb_spec y 1); [lia|reflexivity].
        -- intros y Hy. specialize (C2 _ Hy). cbn [setKVP ebool]. destruct (N.eqb_spec y 0); [lia|reflexivity].
    + intros x Hin. destruct (SB x Hin) as [[Lx E]|[z [NE [Lx E]]]]; rewrite E.
      * cbn [evalb setKVP ebool tenv]. destruct (N.ltb_spec x nin); [|lia]. destruct (I x Lx) as [_ ->]. reflexivity.
      * destruct (CL _ _ NE) as [_ [[C0 [C1 C2]] [cv [E1 E2]]]].
        cbn [setKVP ebool tenv]. destruct (N.eqb_spec x 0); [lia|].
        destruct (N.ltb_spec x nin); [lia|]. rewrite E1, <- E2. cbn [snd].
        apply evalb_agree. split.
        -- intros y v Hy. specialize (C1 _ _ Hy). cbn [setKVP ebv]. destruct (N.eqb_spec y 0); [lia|]. destruct (N.eqb_spec y 1); [lia|reflexivity].
        -- intros y Hy. specialize (C2 _ Hy). cbn [setKVP ebool]. destruct (N.eqb_spec y 0); [lia|reflexivity].
Qed.

End Templates.

(** ** Histories *)

Section History.
Variable s : solver.
Variable k : claripy.
Variable fuel : nat.
Variable nin : N.
Variable inp : env.
Variable sz : N.
Variable uk : N -> N.
Hypothesis SOK : solver_ok s.
Hypothesis KOK : claripy_ok k.
Hypothesis NIN : 2 <= nin.

Record hsim (r : env) (st : gst) (rs : list (bv * bexp)) (cm : N -> option cmap) (cr : list (N * bool)) : Prop := {
  h_sim : sim r st cm uk;
  h_in : isim nin inp r;
  h_n : nin <= gnext st;
  h_rs : rsim r (gnext st) rs cr;
  h_sz : gsz st = sz }.

Lemma hsim_next : forall r r' st st' rs cm cm' cr a b,
  hsim r st rs cm cr -> eqbelow (gnext st) r r' -> gnext st <= gnext st' -> gsz st' = gsz st ->
  sim r' st' cm' uk ->
  (ev r' (fst a), eb r' (snd a)) = b -> dep (gnext st') (fst a) -> depb (gnext st') (snd a) ->
  cleanv (fst a) -> cleanb (snd a) ->
  hsim r' st' (rs ++ [a]) cm' (cr ++ [b]).
Proof.
  intros r r' st st' rs cm cm' cr a b [H1 H2 H3 H4 H5] E L Z S V D1 D2 C1 C2. constructor; auto.
  - eapply eqbelow_trans; [exact H2|]. eapply eqbelow_le; [|exact E]. auto.
  - lia.
  - apply Forall2_app; [eapply rsim_mono; eauto|]. constructor; [|constructor]. split; [auto|]. split; [auto|]. auto.
  - congruence.
Qed.
Lemma hsim_done : forall r r' st st' rs cm cm' cr,
  hsim r st rs cm cr -> eqbelow (gnext st) r r' -> gnext st <= gnext st' -> gsz st' = gsz st ->
  sim r' st' cm' uk -> hsim r' st' (rs ++ [sdone]) cm' (cr ++ [done]).
Proof.
  intros. eapply hsim_next; eauto.
  - apply dep_BVV.
  - apply depb_BTrue.
  - apply clean_BVV.
  - apply clean_BTrue.
Qed.

Lemma clean_setKVP : forall r q vp e, cleanv e -> ev (setKVP r q vp) e = ev r e.
Proof.
  intros r q vp e [C0 [C1 C2]]. apply evalv_agree. split.
  - intros y v Hy. specialize (C1 _ _ Hy). cbn [setKVP ebv]. destruct (N.eqb_spec y 0); [lia|]. destruct (N.eqb_spec y 1); [lia|reflexivity].
  - intros y Hy. specialize (C2 _ Hy). cbn [setKVP ebool]. destruct (N.eqb_spec y 0); [lia|reflexivity].
Qed.

Lemma array_sim : forall r st cm m ks vs len bound C st',
  sim r st cm uk -> uk m < 2 ^ ks -> (forall q, fst (C q) < 2 ^ vs) ->
  dep (gnext st) len -> cleanv bound -> dep (gnext st) bound ->
  ev r len = ev r bound -> width bound = ks ->
  (forall q, q < 2 ^ ks -> snd (C q) = (q <? ev r bound)) ->
  map_new s k fuel st m ks vs (Some (len, [array_inv ks bound])) = Ok st' ->
  exists r', eqbelow (gnext st) r r' /\ gnext st <= gnext st' /\ gsz st' = gsz st /\
    sim r' st' (upd cm m (Some (mkC ks vs (width len) C (ev r len) []))) uk.
Proof.
  intros r st cm m ks vs len bound C st' S U V D CB DB E W HC H.
  pose proof (sim_n _ _ _ _ S) as N2.
  apply (map_new_sim s k r st cm uk fuel m ks vs len [array_inv ks bound] C st'); auto.
  - apply card_prefix; [|rewrite E; auto]. rewrite E, <- W. apply N.lt_le_incl, evalv_lt.
  - constructor; [|constructor]. split; [|split].
    + cbn. destruct CB as [-> _]. reflexivity.
    + unfold kv_sized, array_inv, KEY, PRESENT. cbn [bvvars vvars app]. rewrite app_nil_r. cbn [forallb fst snd].
      change (0 =? 0) with true. cbn iota. rewrite N.eqb_refl. cbn [andb].
      apply forallb_forall. intros [x w] Hx. cbn [fst snd]. pose proof (proj1 (proj2 CB) _ _ Hx).
      destruct (N.eqb_spec x 0); [lia|]. destruct (N.eqb_spec x 1); [lia|reflexivity].
    + apply depb_BIff; [apply depb_BUlt; [apply dep_BVS; lia|auto]|apply depb_BoolS; lia].
  - intros inv [<-|[]] q Hq. unfold array_inv. cbn [evalb]. rewrite (clean_setKVP r q (C q) bound CB).
    cbn [KEY PRESENT evalv evalb setKVP ebv ebool]. change (0 =? 0) with true. cbn iota.
    rewrite wrap_small by auto. rewrite HC by auto. apply eqb_reflx.
Qed.

Lemma hsim_step : forall r st rs cm cr o st' rs' cm' cr',
  hsim r st rs cm cr -> sstep s k fuel nin (st, rs) o = Ok (st', rs') -> unfolded st' ->
  generic inp nin uk (cm, cr) o -> cstep inp nin sz (cm, cr) o (cm', cr') ->
  exists r', eqbelow (gnext st) r r' /\ gnext st <= gnext st' /\ hsim r' st' rs' cm' cr'.
Proof.
  intros r st rs cm cr o st' rs' cm' cr' HS H UF G CS.
  destruct (HS) as [S I LN R Z].
  inversion CS; subst; cbn [sstep] in H; cbn [generic fst snd] in G.
  - (* empty *)
    destruct (map_new s k fuel st m ks vs None) as [st1| |] eqn:E; try discriminate H. cbn [bindr] in H. injection H as <- <-.
    destruct (map_new_sim s k r st cm uk fuel m ks vs (BVV (gsz st) 0) [BNot PRESENT] C st1 S G) as [r' [Q1 [Q2 [Q3 Q4]]]]; auto.
    + apply dep_BVV.
    + cbn [evalv]. rewrite wrap_0. apply card_prefix; [lia|]. intros q Hq. rewrite H6 by auto. symmetry. apply N.ltb_ge. lia.
    + constructor; [|constructor]. split; [reflexivity|]. split; [reflexivity|]. apply depb_BNot, depb_BoolS.
      pose proof (sim_n _ _ _ _ S). lia.
    + intros inv [<-|[]] q Hq. cbn. rewrite H6 by auto. reflexivity.
    + exists r'. split; [auto|]. split; [auto|]. eapply hsim_done; eauto.
      cbn [width evalv] in Q4. rewrite wrap_0, Z in Q4. auto.
  - (* new *)
    destruct (tv_ok nin rs len && forallb (tp_ok nin rs) invs) eqn:GD; [|discriminate H]. cbn [guard] in H.
    apply andb_prop in GD as [G1 G2]. rewrite forallb_forall in G2.
    destruct (map_new s k fuel st m ks vs _) as [st1| |] eqn:E; try discriminate H. cbn [bindr] in H. injection H as <- <-.
    destruct (tv_spec nin inp NIN r (gnext st) rs cr len I R LN G1) as [[T1 [T2 T3]] T4].
    destruct (map_new_sim s k r st cm uk fuel m ks vs (substv (tsub nin rs) len) (map (substb (tsub nin rs)) invs) C st1 S G)
      as [r' [Q1 [Q2 [Q3 Q4]]]]; auto.
    + rewrite T4. auto.
    + apply Forall_forall. intros x Hx. apply in_map_iff in Hx as [p [<- Hp]].
      apply (tp_spec nin inp NIN r (gnext st) rs cr p ks vs); auto.
    + intros x Hx q Hq. apply in_map_iff in Hx as [p [<- Hp]].
      rewrite (proj2 (tp_spec nin inp NIN r (gnext st) rs cr p ks vs I R LN (G2 p Hp) (H7 p Hp))). apply H8; auto.
    + exists r'. split; [auto|]. split; [auto|]. eapply hsim_done; eauto. rewrite T1, T4 in Q4. auto.
  - (* array of symbolic length *)
    destruct (tv_ok nin rs e) eqn:GD; [|discriminate H]. cbn [guard] in H. unfold new_array in H.
    destruct (tv_spec nin inp NIN r (gnext st) rs cr e I R LN GD) as [[T1 [T2 T3]] T4].
    rewrite T1, N.eqb_refl in H.
    destruct (map_new s k fuel st m _ vs _) as [st1| |] eqn:E; try discriminate H. cbn [bindr] in H. injection H as <- <-.
    destruct (array_sim r st cm m (width e) vs (substv (tsub nin rs) e) (substv (tsub nin rs) e) C st1 S G) as [r' [Q1 [Q2 [Q3 Q4]]]]; auto.
    + rewrite T4. auto.
    + exists r'. split; [auto|]. split; [auto|]. eapply hsim_done; eauto. rewrite T1, T4 in Q4. auto.
  - (* array of constant length *)
    cbn [guard] in H. unfold new_array in H.
    destruct (map_new s k fuel st m ks vs _) as [st1| |] eqn:E; try discriminate H. cbn [bindr] in H. injection H as <- <-.
    destruct (array_sim r st cm m ks vs (BVV (gsz st) n) (BVV ks n) C st1 S G) as [r' [Q1 [Q2 [Q3 Q4]]]]; auto using dep_BVV, clean_BVV.
    + cbn [evalv]. rewrite Z, !wrap_small; auto.
    + cbn [evalv]. rewrite wrap_small by auto. auto.
    + exists r'. split; [auto|]. split; [auto|]. eapply hsim_done; eauto.
      cbn [width evalv] in Q4. rewrite Z, wrap_small in Q4 by auto. auto.
  - (* get *)
    destruct (tv_ok nin rs key) eqn:GD; [|discriminate H]. cbn [guard] in H.
    destruct (tv_spec nin inp NIN r (gnext st) rs cr key I R LN GD) as [[T1 [T2 T3]] T4].
    destruct (get s k fuel st m _ None BTrue None) as [[st1 [v p]]| |] eqn:E; try discriminate H. cbn [bindr] in H. injection H as <- <-.
    destruct (get_sim s k SOK KOK r st cm uk fuel m _ st1 v p c S H4 (conj (eq_trans T1 H6) (conj T2 T3)) E)
      as [r1 [g [g1 [E1 [L1 [S1 [V1 [W1 [D1 [D2 [C1 [C2 [G0 [G1 [O1 [F1 Z1]]]]]]]]]]]]]]]].
    exists r1. split; [auto|]. split; [auto|]. rewrite T4 in *.
    eapply hsim_next with (a := (v, p)); eauto.
  - (* set *)
    destruct (tv_ok nin rs key && tv_ok nin rs value) eqn:GD; [|discriminate H]. cbn [guard] in H. apply andb_prop in GD as [GD1 GD2].
    destruct (tv_spec nin inp NIN r (gnext st) rs cr key I R LN GD1) as [[T1 [T2 T3]] T4].
    destruct (tv_spec nin inp NIN r (gnext st) rs cr value I R LN GD2) as [[U1 [U2 U3]] U4].
    destruct (set_ s k fuel st m _ _) as [st1| |] eqn:E; try discriminate H. cbn [bindr] in H. injection H as <- <-.
    pose proof (set_sim s k SOK KOK r st cm uk fuel m _ _ st1 c S H4 (conj (eq_trans T1 H6) (conj T2 T3)) (conj (eq_trans U1 H7) (conj U2 U3)) E UF) as SS.
    cbv zeta in SS. rewrite T4, U4 in SS. destruct (SS G H8) as [r' [Q1 [Q2 [Q3 Q4]]]].
    exists r'. split; [auto|]. split; [auto|]. eapply hsim_done; eauto.
  - (* remove *)
    destruct (tv_ok nin rs key) eqn:GD; [|discriminate H]. cbn [guard] in H.
    destruct (tv_spec nin inp NIN r (gnext st) rs cr key I R LN GD) as [[T1 [T2 T3]] T4].
    destruct (remove s k fuel st m _) as [st1| |] eqn:E; try discriminate H. cbn [bindr] in H. injection H as <- <-.
    pose proof (remove_sim s k SOK KOK r st cm uk fuel m _ st1 c junk S H5 (conj (eq_trans T1 H6) (conj T2 T3)) H7 E UF) as SS.
    cbv zeta in SS. rewrite T4 in SS. destruct (SS G) as [r' [Q1 [Q2 [Q3 Q4]]]].
    exists r'. split; [auto|]. split; [auto|]. eapply hsim_done; eauto.
  - (* forall *)
    destruct (tp_ok nin rs pred) eqn:GD; [|discriminate H]. cbn [guard] in H.
    destruct (forall_ s k fuel st m _) as [[st1 res]| |] eqn:E; try discriminate H. cbn [bindr] in H. injection H as <- <-.
    destruct (tp_spec nin inp NIN r (gnext st) rs cr pred (cks c) (cvs c) I R LN GD H6) as [T1 T2].
    destruct (forall_sim s k KOK r st cm' uk fuel m _ st1 res c b S H5 T1 E)
      as [r1 [g [g1 [E1 [L1 [Z1 [S1 [V1 [D1 [C1 _]]]]]]]]]].
    + rewrite H7. unfold holds_at. split; intros Q q; [rewrite T2|rewrite <- T2]; apply Q.
    + destruct (G c H5) as [Q|[q [Q1 [Q2 Q3]]]]; [left|right].
      * intros q. rewrite T2. apply Q.
      * exists q. rewrite T2. auto.
    + exists r1. split; [auto|]. split; [auto|]. eapply hsim_next with (a := (BVV 1 0, res)); eauto.
      * cbn [fst snd]. rewrite V1. reflexivity.
      * apply dep_BVV.
      * apply clean_BVV.
  - (* assume *)
    destruct (tb_ok nin rs c) eqn:GD; [|discriminate H]. cbn [guard] in H. injection H as <- <-.
    destruct (tb_spec nin inp NIN r (gnext st) rs cr c I R LN GD) as [T1 T2].
    exists r. split; [apply eqbelow_refl|]. split; [cbn; lia|]. eapply hsim_done; eauto using eqbelow_refl; [cbn; lia|].
    destruct S as [A B Cn D]. constructor; auto.
    + cbn [add_cs gcs]. apply holds_app. split; [auto|]. intros x [<-|[]]. rewrite T2. auto.
    + cbn [add_cs gcs gnext]. apply Forall_app. auto.
Qed.

Lemma hsim_run : forall os r st rs cm cr st' rs' cm' cr',
  hsim r st rs cm cr -> srun s k fuel nin (st, rs) os = Ok (st', rs') ->
  stays_unfolded s k fuel nin (st, rs) os ->
  crun inp nin sz uk (cm, cr) os (cm', cr') ->
  exists r', hsim r' st' rs' cm' cr'.
Proof.
  induction os as [|o os IH]; intros r st rs cm cr st' rs' cm' cr' HS H U C; cbn [srun stays_unfolded] in *.
  - injection H as <- <-. inversion C; subst. eauto.
  - destruct (sstep s k fuel nin (st, rs) o) as [[st1 rs1]| |] eqn:E; try discriminate H. cbn [bindr] in H.
    destruct U as [U1 U2]. inversion C as [|? ? [cm1 cr1] ? ? G CS CR]; subst.
    destruct (hsim_step r st rs cm cr o st1 rs1 cm1 cr1 HS E U1 G CS) as [r1 [_ [_ HS1]]].
    eapply IH; eauto.
Qed.

Lemma history : forall os st rs cm cr,
  srun s k fuel nin (ginit nin sz, []) os = Ok (st, rs) ->
  stays_unfolded s k fuel nin (ginit nin sz, []) os ->
  crun inp nin sz uk (fun _ => None, []) os (cm, cr) ->
  exists r, eqbelow nin inp r /\ holds r (gcs st) /\
    Forall2 (fun a b => (ev r (fst a), eb r (snd a)) = b) rs cr /\
    (forall m c, cm m = Some c -> exists g, gmaps st m = Some g /\ ev r (len_at g 0) = csize c).
Proof.
  intros os st rs cm cr H U C.
  destruct (hsim_run os inp (ginit nin sz) [] (fun _ => None) [] st rs cm cr) as [r HS]; auto.
  - constructor.
    + constructor; cbn; auto. intros x [].
    + apply eqbelow_refl.
    + cbn. lia.
    + constructor.
    + reflexivity.
  - destruct HS as [S I LN R Z]. exists r. split; [exact I|]. split; [apply (sim_cs _ _ _ _ S)|]. split.
    + clear -R. induction R as [|a b rs cr [E _] R IH]; constructor; auto.
    + intros m c Hc. destruct (sim_get _ _ _ _ _ _ S Hc) as [g [G M]]. exists g. split; [auto|apply (ms_size _ _ _ _ _ M)].
Qed.

End History.

(** Two foralls after a history. *)
Lemma crun_app : forall inp nin sz uk st os st' os' st'', crun inp nin sz uk st os st' -> crun inp nin sz uk st' os' st'' ->
  crun inp nin sz uk st (os ++ os') st''.
Proof. intros inp nin sz uk st os st' os' st'' H H'. induction H; [exact H'|]. cbn [app]. eapply crun_cons; eauto. Qed.
Lemma both_false : forall s k fuel nin inp sz uk,
  solver_ok s -> claripy_ok k -> 2 <= nin ->
  forall os m p1 p2 st rs t1 t2 cm cr c q1 q2,
  srun s k fuel nin (ginit nin sz, []) (os ++ [OForall m p1; OForall m p2]) = Ok (st, rs ++ [t1; t2]) ->
  stays_unfolded s k fuel nin (ginit nin sz, []) (os ++ [OForall m p1; OForall m p2]) ->
  crun inp nin sz uk (fun _ => None, []) os (cm, cr) -> length rs = length cr ->
  cm m = Some c -> kv_sized (cks c) (cvs c) p1 = true -> kv_sized (cks c) (cvs c) p2 = true ->
  q1 < 2 ^ cks c -> In q1 (cseen c) \/ q1 = uk m -> snd (ccont c q1) = true -> ~ holds_at (tenv inp nin cr) (ccont c) p1 q1 ->
  q2 < 2 ^ cks c -> In q2 (cseen c) \/ q2 = uk m -> snd (ccont c q2) = true -> ~ holds_at (tenv inp nin (cr ++ [(0, false)])) (ccont c) p2 q2 ->
  exists r, (forall v, v < nin -> ebv r v = ebv inp v /\ ebool r v = ebool inp v) /\ holds r (gcs st) /\
    Forall2 (fun a b => (ev r (fst a), eb r (snd a)) = b) rs cr /\
    eb r (snd t1) = false /\ eb r (snd t2) = false.
Proof.
  intros s k fuel nin inp sz uk SOK KOK NX os m p1 p2 st rs t1 t2 cm cr c q1 q2 HS HU HC LN Hc K1 K2 L1 S1 P1 N1 L2 S2 P2 N2.
  assert (C : crun inp nin sz uk (fun _ => None, []) (os ++ [OForall m p1; OForall m p2]) (cm, cr ++ [(0, false); (0, false)])).
  { eapply crun_app; [exact HC|]. eapply crun_cons; [|eapply (c_forall _ _ _ _ _ _ _ _ false); [exact Hc|exact K1|]|].
    - intros c' Hc'. cbn [fst] in Hc'. right. exists q1. assert (c' = c) by congruence. subst c'. auto.
    - split; [discriminate|]. intros H. exfalso. apply N1. apply H; auto.
    - replace (cr ++ [(0, false); (0, false)]) with ((cr ++ [(0, false)]) ++ [(0, false)]) by (rewrite <- app_assoc; reflexivity).
      eapply crun_cons; [|eapply (c_forall _ _ _ _ _ _ _ _ false); [exact Hc|exact K2|]|apply crun_nil].
      + intros c' Hc'. cbn [fst] in Hc'. right. exists q2. assert (c' = c) by congruence. subst c'. auto.
      + split; [discriminate|]. intros H. exfalso. apply N2. apply H; auto. }
  destruct (history _ _ _ _ _ _ _ SOK KOK NX _ _ _ _ _ HS HU C) as [r [EB [HR [F _]]]]. exists r.
  split; [intros v Hv; destruct (EB v Hv); auto|]. split; [exact HR|].
  apply Forall2_app_inv_l in F as (a & b & Fa & Fb & E).
  assert (E1 : a = cr /\ b = [(0, false); (0, false)]).
  { assert (LA : length a = length cr) by (rewrite <- LN; symmetry; clear -Fa; induction Fa; cbn; congruence).
    revert E LA. clear. revert cr. induction a as [|x a IH]; intros [|y cr] E LA; try discriminate LA; cbn in *; [auto|].
    injection E as <- E. injection LA as LA. destruct (IH cr E LA). subst. auto. }
  destruct E1 as [-> ->]. split; [exact Fa|]. inversion Fb as [|? ? ? ? E2 Fb']; subst. inversion Fb' as [|? ? ? ? E3 _]; subst.
  split; congruence.
Qed.
