(** * Reading the oldest version again

    A key that was read before the first write to a map is answered, when the oldest
    version is read later, as it was then: whatever was read, written, removed or
    quantified in between, with folded layers and nested lookups. *)

From Coq Require Import NArith List Bool Lia Arith.
From Verif Require Import Expr Solver KMerge Wt GhostMap GhostSpec GhostFacts GhostReal GhostFold.
Import ListNotations.
Open Scope N_scope.

(** ** Every key of the oldest version is known in every version *)

Fixpoint cinv (ls : list layer) (base : list item) : Prop :=
  match ls with
  | [] => True
  | L :: rest => cinv rest base /\ (fst (lcache L) <= length (K rest base))%nat /\
      forall i, In i (firstn (fst (lcache L)) (K rest base)) -> exists j, In j (litems L ++ snd (lcache L)) /\ ik j = ik i
  end.

Lemma not_own_false : forall kis i, not_own kis i = false -> exists j, In j kis /\ ik j = ik i.
Proof.
  intros kis i H. unfold not_own in H. induction kis as [|a l IH]; cbn in H; [discriminate|].
  apply andb_false_iff in H as [H|H].
  - apply negb_false_iff, bv_eqb_eq in H. exists a. split; [left; auto|auto].
  - destruct (IH H) as [j [A B]]. exists j. split; [right; auto|auto].
Qed.
Lemma transform_keys : forall kis l i, In i l -> exists j, In j (kis ++ transform_previous kis l) /\ ik j = ik i.
Proof.
  intros kis l i H. destruct (not_own kis i) eqn:E.
  - exists (transform1 kis i). split; [|reflexivity]. apply in_or_app. right. apply in_map. apply filter_In. auto.
  - destruct (not_own_false _ _ E) as [j [A B]]. exists j. split; [apply in_or_app; auto|auto].
Qed.
Lemma layer_keys : forall L rest base, cinv (L :: rest) base ->
  forall i, In i (K rest base) -> exists j, In j (K (L :: rest) base) /\ ik j = ik i.
Proof.
  intros L rest base [_ [CL CE]] i Hi. rewrite K_cons by auto.
  rewrite <- (firstn_skipn (fst (lcache L))) in Hi. apply in_app_or in Hi as [Hi|Hi].
  - destruct (CE i Hi) as [j [A B]]. exists j. split; [|auto]. rewrite app_assoc. apply in_or_app. auto.
  - destruct (transform_keys (litems L) _ _ Hi) as [j [A B]]. exists j. split; [|auto].
    apply in_app_or in A as [A|A]; apply in_or_app; [auto|]. right. apply in_or_app. auto.
Qed.
Lemma base_keys : forall ls base, cinv ls base -> forall i, In i base -> exists j, In j (K ls base) /\ ik j = ik i.
Proof.
  induction ls as [|L rest IH]; intros base C i Hi; [exists i; auto|].
  destruct (IH base (proj1 C) i Hi) as [j [A B]]. destruct (layer_keys _ _ _ C j A) as [j' [A' B']].
  exists j'. split; [auto|congruence].
Qed.

Lemma crefresh : forall ls base, cinv ls base ->
  let ls' := snd (known_layers ls base) in K ls' base = K ls base /\ cinv ls' base /\ length ls' = length ls.
Proof.
  induction ls as [|L rest IH]; intros base C; cbn zeta; [cbn; auto|].
  pose proof C as [C0 [CL CE]]. destruct (IH base C0) as [IK [IC IL]].
  pose proof (K_cons L rest base CL) as KC. pose proof (layer_keys _ _ _ C) as LK.
  destruct (known_layers (L :: rest) base) as [kn ls'] eqn:EK.
  cbn [known_layers] in EK. destruct (known_layers rest base) as [prev rest'] eqn:ER.
  assert (EP : prev = K rest base) by (unfold K; rewrite ER; reflexivity). cbn [snd] in *.
  assert (G : ls' = mkLayer (litems L) (llen L)
               (length prev, snd (lcache L) ++ transform_previous (litems L) (skipn (fst (lcache L)) prev)) :: rest').
  { destruct (lcache L) as [count cached]. cbn [fst snd] in *.
    destruct (Nat.eqb_spec (length prev) count) as [E|E]; injection EK as <- <-; cbn [fst snd].
    - subst count. rewrite skipn_all. cbn. rewrite app_nil_r. reflexivity.
    - reflexivity. }
  assert (KE : K ls' base = K (L :: rest) base).
  { rewrite G, K_cons; cbn [lcache fst snd litems]; rewrite IK, <- EP; [|lia].
    rewrite skipn_all. cbn [transform_previous filter map]. rewrite app_nil_r, KC, <- EP. reflexivity. }
  split; [exact KE|]. rewrite G. split; [|cbn; congruence]. cbn [cinv lcache fst snd litems]. rewrite IK, <- EP. split; [exact IC|]. split; [lia|].
  rewrite firstn_all. intros i Hi. rewrite EP in Hi. destruct (LK i Hi) as [j [A B]]. rewrite KC in A. exists j. split; [|auto].
  rewrite EP. exact A.
Qed.
Lemma cgrows : forall ls base x, cinv ls base -> exists t, K ls (base ++ [x]) = K ls base ++ t /\ cinv ls (base ++ [x]).
Proof.
  induction ls as [|L rest IH]; intros base x C; [exists [x]; split; [reflexivity|exact I]|].
  destruct C as [C [CL CE]]. destruct (IH base x C) as [t [Et Ct]].
  assert (CL' : (fst (lcache L) <= length (K rest (base ++ [x])))%nat) by (rewrite Et, app_length; lia).
  rewrite (K_cons L rest base CL), (K_cons L rest (base ++ [x]) CL'), Et, skipn_app.
  replace (fst (lcache L) - length (K rest base))%nat with O by lia.
  cbn [skipn]. rewrite transform_app, !app_assoc. eexists. split; [reflexivity|].
  cbn [cinv]. split; [exact Ct|]. rewrite Et. split; [rewrite app_length; lia|].
  rewrite firstn_app. replace (fst (lcache L) - length (K rest base))%nat with O by lia.
  cbn [firstn]. rewrite app_nil_r. auto.
Qed.
Lemma cunder : forall up ls ls' base, cinv (up ++ ls) base -> cinv ls' base -> K ls' base = K ls base ->
  cinv (up ++ ls') base /\ K (up ++ ls') base = K (up ++ ls) base.
Proof.
  induction up as [|L up IH]; intros ls ls' base C C' E; [auto|].
  cbn [app] in *. destruct C as [C [CL CE]]. destruct (IH _ _ _ C C' E) as [C1 E1].
  cbn [cinv]. rewrite E1. split; [auto|]. rewrite !K_cons by (rewrite ?E1; auto). rewrite E1. reflexivity.
Qed.
Lemma csuffix : forall up ls base, cinv (up ++ ls) base -> cinv ls base.
Proof. induction up as [|L up IH]; intros ls base C; [auto|]. apply IH, C. Qed.

(** ** What every operation keeps *)

Definition paired (r : env) (g : gmap) : Prop :=
  forall a b, In a (gitems g ++ [gunk g]) -> In b (gitems g ++ [gunk g]) -> ev r (ik a) = ev r (ik b) -> val r a = val r b.
Definition with_unk (r : env) (g : gmap) : Prop :=
  forall a, In a (gitems g) -> ev r (ik a) = ev r (ik (gunk g)) -> val r a = val r (gunk g).
(** [key] is provably the key of an item of the oldest version. *)
Definition resolved (cs : list bexp) (key : bv) (g : gmap) : Prop :=
  exists j, In j (gitems g ++ [gunk g]) /\ (ik j = key \/ symbolic key = true /\ forall r, holds r cs -> ev r key = ev r (ik j)).

Definition grel (r : env) (cs : list bexp) (g g' : gmap) : Prop :=
  gks g' = gks g /\ gunk g' = gunk g /\ glen g' = glen g /\ (glayers g' = [] -> glayers g = []) /\
  (cinv (glayers g) (gitems g) -> cinv (glayers g') (gitems g')) /\
  (exists l, gitems g' = gitems g ++ l /\
     (cinv (glayers g) (gitems g) -> forall key, resolved cs key g -> ~ In key (map ik l))) /\
  (with_unk r g -> with_unk r g') /\ (glayers g' = [] -> paired r g -> paired r g').
Definition fresh_map (r : env) (g : gmap) : Prop :=
  cinv (glayers g) (gitems g) /\ with_unk r g /\ (glayers g = [] -> paired r g).
Definition orel (r : env) (cs : list bexp) (a b : option gmap) : Prop :=
  match a, b with
  | Some g, Some g' => grel r cs g g'
  | None, Some g' => fresh_map r g'
  | None, None => True
  | Some _, None => False
  end.
Definition relr (r : env) (st st' : gst) : Prop :=
  incl (gcs st) (gcs st') /\ forall m, orel r (gcs st) (gmaps st m) (gmaps st' m).
Definition rel (st st' : gst) : Prop := incl (gcs st) (gcs st') /\ forall r, holds r (gcs st') -> relr r st st'.

Lemma grel_refl : forall r cs g, grel r cs g g.
Proof.
  intros r cs g. unfold grel. split; [auto|]. split; [auto|]. split; [auto|]. split; [auto|]. split; [auto|].
  split; [exists []; split; [rewrite app_nil_r; auto|intros _ key _ []]|]. auto.
Qed.
Lemma resolved_mono : forall r cs cs' key g g', incl cs cs' -> grel r cs g g' -> resolved cs key g -> resolved cs' key g'.
Proof.
  intros r cs cs' key g g' I [_ [U [_ [_ [_ [[l [E _]] _]]]]]] [j [Hj C]]. exists j. split.
  - rewrite E, U. rewrite <- app_assoc. apply in_app_or in Hj as [Hj|Hj]; apply in_or_app; [auto|]. right. apply in_or_app. auto.
  - destruct C as [C|[S C]]; [auto|]. right. split; [auto|]. intros r' H. apply C. intros c Hc. apply H. auto.
Qed.
Lemma grel_trans : forall r cs cs' a b c, incl cs cs' -> grel r cs a b -> grel r cs' b c -> grel r cs a c.
Proof.
  intros r cs cs' a b c I AB BC. pose proof (fun key => resolved_mono r cs cs' key a b I AB) as RM.
  destruct AB as [A1 [A2 [A3 [A4 [A5 [[l [A6 A7]] [A8 A9]]]]]]], BC as [B1 [B2 [B3 [B4 [B5 [[l' [B6 B7]] [B8 B9]]]]]]].
  unfold grel. split; [congruence|]. split; [congruence|]. split; [congruence|]. split; [auto|]. split; [auto|]. split.
  - exists (l ++ l'). split; [rewrite B6, A6, app_assoc; auto|]. intros CI key R H. rewrite map_app in H. apply in_app_or in H as [H|H].
    + eapply A7; eauto.
    + eapply B7; eauto.
  - split; [auto|]. intros F P. auto.
Qed.
Lemma fresh_rel : forall r cs g g', fresh_map r g -> grel r cs g g' -> fresh_map r g'.
Proof. intros r cs g g' [A [B C]] [_ [_ [_ [D [E [_ [F G]]]]]]]. split; [auto|]. split; [auto|]. intros H. auto. Qed.
Lemma relr_refl : forall r st, relr r st st.
Proof.
  intros r st. split; [apply incl_refl|]. intros m. unfold orel. destruct (gmaps st m); [apply grel_refl|exact I].
Qed.
Lemma relr_trans : forall r a b c, relr r a b -> relr r b c -> relr r a c.
Proof.
  intros r a b c [I1 H1] [I2 H2]. split; [eapply incl_tran; eauto|]. intros m. specialize (H1 m). specialize (H2 m). unfold orel in *.
  destruct (gmaps a m) as [ga|], (gmaps b m) as [gb|], (gmaps c m) as [gc|]; auto; try contradiction.
  - eapply grel_trans; eauto.
  - eapply fresh_rel; eauto.
Qed.
Lemma rel_refl : forall st, rel st st.
Proof. intros st. split; [apply incl_refl|]. intros r _. apply relr_refl. Qed.
Lemma holds_incl : forall r a b, incl a b -> holds r b -> holds r a.
Proof. intros r a b I H c Hc. auto. Qed.
Lemma rel_trans : forall a b c, rel a b -> rel b c -> rel a c.
Proof.
  intros a b c [I1 H1] [I2 H2]. split; [eapply incl_tran; eauto|]. intros r H.
  eapply relr_trans; [apply H1; eapply holds_incl; eauto|apply H2; auto].
Qed.
Lemma relr_maps : forall r st st', incl (gcs st) (gcs st') -> gmaps st' = gmaps st -> relr r st st'.
Proof. intros r st st' I E. split; [auto|]. intros m. rewrite E. apply relr_refl. Qed.
Lemma rel_maps : forall st st', incl (gcs st) (gcs st') -> gmaps st' = gmaps st -> rel st st'.
Proof. intros st st' I E. split; [auto|]. intros r _. apply relr_maps; auto. Qed.
Lemma relr_set : forall r st m g g', gmaps st m = Some g -> grel r (gcs st) g g' -> relr r st (set_map st m g').
Proof.
  intros r st m g g' E H. split; [apply incl_refl|]. intros x. cbn. destruct (N.eqb_spec x m) as [->|_]; [rewrite E; exact H|].
  apply relr_refl.
Qed.
Lemma relr_get : forall r st st' m g, relr r st st' -> gmaps st m = Some g ->
  exists g', gmaps st' m = Some g' /\ grel r (gcs st) g g'.
Proof. intros r st st' m g [_ H] E. specialize (H m). rewrite E in H. destruct (gmaps st' m) as [g'|]; [eauto|destruct H]. Qed.

Lemma grel_known : forall r cs g d, grel r cs g (snd (known_items g d)).
Proof.
  intros r cs g d. unfold known_items.
  pose proof (crefresh (skipn d (glayers g)) (gitems g)) as CR.
  assert (LN : length (snd (known_layers (skipn d (glayers g)) (gitems g))) = length (skipn d (glayers g))).
  { clear CR. generalize (skipn d (glayers g)). induction l as [|L l IH]; [reflexivity|]. cbn [known_layers].
    destruct (known_layers l (gitems g)) as [p l']. cbn in IH. destruct (lcache L). cbn. congruence. }
  destruct (known_layers (skipn d (glayers g)) (gitems g)) as [kn ls'] eqn:E. cbn [snd] in *.
  unfold grel. cbn [set_layers gks gunk glen glayers gitems].
  split; [auto|]. split; [auto|]. split; [auto|]. split.
  { intros H. apply app_eq_nil in H as [H1 H2]. subst ls'. cbn in LN. symmetry in LN. apply length_zero_iff_nil in LN.
    rewrite <- (firstn_skipn d (glayers g)), H1, LN. reflexivity. }
  split.
  { intros C. rewrite <- (firstn_skipn d (glayers g)) in C. destruct (CR (csuffix _ _ _ C)) as [E1 [C1 _]].
    apply (cunder _ _ _ _ C C1 E1). }
  split; [exists []; split; [rewrite app_nil_r; auto|intros _ key _ []]|]. auto.
Qed.
Lemma grel_inv : forall r cs g invs, grel r cs g (mkGmap (gks g) (gvs g) (gitems g) invs (gunk g) (glen g) (glayers g)).
Proof. intros r cs g invs. destruct (grel_refl r cs g) as [A [B [C [D [E [F [G H]]]]]]]. repeat (split; [auto; fail|]). auto. Qed.
(** An item for a key that is not resolved, with the constraints of a read. *)
Lemma grel_add : forall r cs g0 g it,
  grel r cs g0 g -> gitems g = gitems g0 ->
  (cinv (glayers g0) (gitems g0) -> ~ resolved cs (ik it) g0) ->
  (ev r (ik it) = ev r (ik (gunk g)) -> val r it = val r (gunk g)) ->
  (glayers g = [] -> forall i, In i (gitems g ++ [gunk g]) -> ev r (ik it) = ev r (ik i) -> val r it = val r i) ->
  grel r cs g0 (add_item g it).
Proof.
  intros r cs g0 g it [A1 [A2 [A3 [A4 [A5 [_ [A8 A9]]]]]]] EI NR SU SA. unfold grel. cbn [add_item gks gunk glen glayers gitems].
  split; [auto|]. split; [auto|]. split; [auto|]. split; [auto|]. split.
  { intros C. destruct (cgrows _ _ it (A5 C)) as [t [_ C']]. exact C'. }
  split.
  { exists [it]. split; [rewrite EI; auto|]. intros C key R [<-|[]]. apply (NR C R). }
  split.
  - intros W0 a Ha. pose proof (A8 W0) as W. cbn in Ha. apply in_app_or in Ha as [Ha|[<-|[]]]; [apply W; auto|exact SU].
  - intros F P0 a b Ha Hb E. pose proof (A9 F P0) as P. cbn [add_item gitems gunk] in Ha, Hb. specialize (SA F).
    rewrite <- app_assoc in Ha, Hb. apply in_app_or in Ha, Hb.
    assert (X : forall c, In c (gitems g) \/ In c ([it] ++ [gunk g]) -> c = it \/ In c (gitems g ++ [gunk g])).
    { intros c [H|[H|[H|[]]]]; [right; apply in_or_app; auto|left; auto|right; apply in_or_app; right; left; auto]. }
    destruct (X a Ha) as [->|A], (X b Hb) as [->|B]; auto.
    symmetry. apply SA; auto.
Qed.

Lemma em_rel : forall (get : gst -> N -> bv -> option bv -> bexp -> option nat -> res (gst * (bv * bexp))) sg cond,
  (forall st m key cv c ver st' vp, get st m key cv c ver = Ok (st', vp) -> rel st st') ->
  (forall e st st' e', emv get sg cond st e = Ok (st', e') -> rel st st') /\
  (forall e st st' e', emb get sg cond st e = Ok (st', e') -> rel st st').
Proof.
  intros get sg cond G. apply expr_mind; intros; cbn [emv emb] in *;
  repeat match goal with
  | H : bindr ?x _ = Ok _ |- _ => let E := fresh "E" in destruct x as [[? ?]| |] eqn:E; cbn [bindr] in H; try discriminate H
  end;
  match goal with H : Ok _ = Ok _ |- _ => injection H as <- <- end;
  repeat match goal with
  | IH : forall st st' e', emv _ _ _ st ?e = _ -> _, H : emv _ _ _ _ ?e = Ok _ |- _ => apply IH in H
  | IH : forall st st' e', emb _ _ _ st ?e = _ -> _, H : emb _ _ _ _ ?e = Ok _ |- _ => apply IH in H
  | H : get _ _ _ _ _ _ = Ok _ |- _ => apply G in H
  end; eauto using rel_refl, rel_trans.
Qed.

Section Ops.
Variable s : solver.
Variable k : claripy.
Hypothesis SOK : solver_ok s.

Lemma overfull_rel : forall st m d, rel st (fst (is_not_overfull s k st m d)).
Proof.
  intros st m d. unfold is_not_overfull. destruct (gmaps st m) as [g|] eqn:E; [|apply rel_refl].
  pose proof (fun r => grel_known r (gcs st) g d) as KK. destruct (known_items g d) as [kn g']. cbn [snd] in KK.
  destruct (definitely_true _ _ _); cbn [fst]; (split; [apply incl_refl|]; intros r _; eapply relr_set; eauto).
Qed.
Lemma inv_calls_rel : forall call invs st st' cs,
  (forall st inv st' c, call st inv = Ok (st', c) -> rel st st') ->
  inv_calls call st invs = Ok (st', cs) -> rel st st'.
Proof.
  intros call invs. induction invs as [|inv invs IH]; intros st st' cs C H; cbn [inv_calls] in H.
  - injection H as <- <-. apply rel_refl.
  - destruct (call st inv) as [[st1 c]| |] eqn:E; try discriminate H. cbn [bindr] in H.
    destruct (inv_calls call st1 invs) as [[st2 cs2]| |] eqn:E2; try discriminate H. injection H as <- <-.
    eapply rel_trans; [eapply C; eauto|eapply IH; eauto].
Qed.

(** A resolved key is found, in every version. *)
Lemma resolved_found : forall cs key g d cond,
  cinv (glayers g) (gitems g) -> resolved cs key g ->
  get_exact_match s cs key (fst (known_items g d) ++ [gunk g]) cond ik <> None.
Proof.
  intros cs key g d cond C [j [Hj R]].
  assert (X : exists j', In j' (fst (known_items g d) ++ [gunk g]) /\ ik j' = ik j).
  { apply in_app_or in Hj as [Hj|[<-|[]]]; [|exists (gunk g); split; [apply in_or_app; right; left; auto|auto]].
    rewrite <- (firstn_skipn d (glayers g)) in C.
    destruct (base_keys _ _ (csuffix _ _ _ C) j Hj) as [j' [A B]]. exists j'. split; [|auto]. apply in_or_app. left.
    unfold known_items. unfold K in A. destruct (known_layers (skipn d (glayers g)) (gitems g)). exact A. }
  destruct X as [j' [A B]]. destruct R as [R|[SY R]].
  - unfold get_exact_match. destruct (find _ _) eqn:F; [discriminate|]. exfalso.
    eapply find_none in F; [|exact A]. cbn in F. rewrite B, R in F. rewrite (proj2 (bv_eqb_eq _ _) eq_refl) in F. discriminate.
  - apply (get_exact_match_complete s SOK); [auto|]. exists j'. split; [auto|]. intros r Hr _. rewrite B. auto.
Qed.

Lemma get_rel : forall fuel st m key cv cond ver st' vp,
  get s k fuel st m key cv cond ver = Ok (st', vp) -> rel st st'.
Proof.
  induction fuel as [|fuel IH]; intros st m key cv cond ver st' vp H; [discriminate|].
  pose proof (proj1 (get_mono s k _ _ _ _ _ _ _ _ _ H)) as IN. split; [exact IN|]. intros r Hr.
  cbn [get] in H. destruct (gmaps st m) as [g|] eqn:E; [|discriminate].
  destruct (is_definitely_empty g (skip_of g ver)).
  { injection H as <- <-. apply relr_maps; [apply incl_refl|reflexivity]. }
  destruct (N.eqb_spec (width key) (gks g)) as [W|]; [|discriminate]. cbn [negb] in H.
  set (d := skip_of g ver) in *.
  pose proof (grel_known r (gcs st) g d) as KK. pose proof (resolved_found (gcs st) key g d cond) as RF.
  assert (KL : skipn d (glayers g) = [] -> fst (known_items g d) = gitems g).
  { unfold known_items. intros ->. reflexivity. }
  destruct (known_items g d) as [kn g1] eqn:EK. cbn [fst snd] in KK, RF, KL.
  assert (G1 : gitems g1 = gitems g /\ gunk g1 = gunk g).
  { unfold known_items in EK. destruct (known_layers _ _) in EK. injection EK as <- <-. auto. }
  destruct G1 as [G1I G1U].
  change (gcs (set_map st m g1)) with (gcs st) in H.
  destruct (get_exact_match _ _ _ _ _ _) as [i|] eqn:GE.
  { injection H as <- <-. eapply relr_set; eauto. }
  match type of H with bindr ?x _ = _ => destruct x as [[st4 invs]| |] eqn:EI; try discriminate H end. cbn [bindr] in H.
  destruct (is_not_overfull s k st4 m d) as [st5 fits] eqn:EO. injection H as <- <-.
  pose proof (overfull_rel st4 m d) as SO. rewrite EO in SO. cbn [fst] in SO.
  apply inv_calls_rel in EI; [|intros; eapply (proj2 (em_rel _ _ _ IH)); eauto].
  set (it := mkItem key (BVS (gvs g) (gnext (set_map st m g1))) (BoolS (gnext (set_map st m g1)))) in *.
  cbn [add_cs gcs] in Hr. apply holds_app in Hr as [Hr5 Hr]. apply holds_app in Hr as [HS _].
  assert (R5 : relr r st4 st5) by (apply SO; auto).
  pose proof (holds_incl _ _ _ (proj1 R5) Hr5) as Hr4. pose proof (proj2 EI r Hr4) as R4.
  assert (SV : forall i, In i (kn ++ [gunk g]) -> ev r (ik it) = ev r (ik i) -> val r it = val r i).
  { intros i Hi EQ.
    assert (HI : In (BImp (BEq key (ik i)) (BAnd (BEq (iv it) (iv i)) (BIff (ip it) (ip i))))
       (map (fun i => BImp (BEq key (ik i)) (BAnd (BEq (iv it) (iv i)) (BIff (ip it) (ip i))))
          (match skipn d (glayers g) with [] => kn ++ [it] | _ => kn end ++ [gunk g]))).
    { apply (in_map (fun i => BImp (BEq key (ik i)) (BAnd (BEq (iv it) (iv i)) (BIff (ip it) (ip i))))).
      apply in_app_or in Hi as [Hi|Hi]; apply in_or_app; [left|auto]. destruct (skipn d (glayers g)); [apply in_or_app|]; auto. }
    specialize (HS _ HI). rewrite BImp_true in HS. cbn [evalb] in HS. rewrite N.eqb_eq in HS. specialize (HS EQ).
    apply andb_prop in HS as [S1 S2]. apply N.eqb_eq in S1. apply eqb_prop in S2. unfold val. congruence. }
  apply (relr_trans _ _ st5); [|apply relr_maps; [cbn [add_cs gcs]; apply incl_appl, incl_refl|reflexivity]].
  eapply relr_trans; [|exact R5]. eapply relr_trans; [|exact R4].
  apply (relr_trans _ _ (set_map st m (add_item g1 it))).
  - eapply relr_set; [exact E|]. apply grel_add; auto.
    + intros C R. apply (RF C R). reflexivity.
    + rewrite G1U. apply SV. apply in_or_app. right. left. reflexivity.
    + intros F i Hi. rewrite G1I, G1U in Hi. apply SV. rewrite KL; [exact Hi|].
      destruct KK as [_ [_ [_ [KK _]]]]. rewrite (KK F). apply skipn_nil.
  - split; [cbn [add_cs bump gcs set_map]; apply incl_appl, incl_refl|]. intros x.
    replace (gmaps (set_map (add_cs (bump (set_map st m g1) 1) match cv with
      | Some cv => [BImp cond (BEq (BVS (gvs g) (gnext (set_map st m g1))) cv)] | None => [] end) m (add_item g1 it)) x)
      with (gmaps (set_map st m (add_item g1 it)) x) by (cbn; destruct (N.eqb_spec x m); reflexivity).
    apply relr_refl.
Qed.

Lemma inv_call_rel : forall fuel st ks vs inv i cond st' c,
  inv_call s k fuel st ks vs inv i cond = Ok (st', c) -> rel st st'.
Proof. intros. eapply (proj2 (em_rel _ _ _ (get_rel fuel))). exact H. Qed.
Lemma inv_items_rel : forall fuel ks vs inv items st st' cs,
  inv_items s k fuel st ks vs inv items = Ok (st', cs) -> rel st st'.
Proof.
  intros fuel ks vs inv items. induction items as [|i items IH]; intros st st' cs H; cbn [inv_items] in H.
  - injection H as <- <-. apply rel_refl.
  - destruct (inv_call s k fuel st ks vs inv i BTrue) as [[st1 c]| |] eqn:E; try discriminate H. cbn [bindr] in H.
    destruct (inv_items s k fuel st1 ks vs inv items) as [[st2 cs2]| |] eqn:E2; try discriminate H. injection H as <- <-.
    eapply rel_trans; [eapply inv_call_rel; eauto|eapply IH; eauto].
Qed.
Lemma rel_set : forall st m g g', gmaps st m = Some g -> (forall r, grel r (gcs st) g g') -> rel st (set_map st m g').
Proof. intros st m g g' E H. split; [apply incl_refl|]. intros r _. eapply relr_set; eauto. Qed.
Lemma rel_add_cs : forall st cs, rel st (add_cs st cs).
Proof. intros st cs. apply rel_maps; [cbn [add_cs gcs]; apply incl_appl, incl_refl|reflexivity]. Qed.
Lemma add_inv_rel : forall fuel st m inv st', add_inv s k fuel st m inv = Ok st' -> rel st st'.
Proof.
  intros fuel st m inv st' H. unfold add_inv in H. destruct (gmaps st m) as [g|] eqn:E; [|discriminate].
  destruct (inv_call _ _ _ _ _ _ _ _ _) as [[st1 c]| |] eqn:EC; try discriminate H. cbn [bindr] in H.
  apply inv_call_rel in EC. destruct (gmaps st1 m) as [g1|] eqn:E1; [|discriminate]. injection H as <-.
  eapply rel_trans; [exact EC|].
  match goal with |- rel ?a (set_map ?b m ?x) => apply (rel_trans _ b _); [apply rel_add_cs|] end.
  eapply rel_set; [exact E1|]. intros r. apply grel_inv.
Qed.
Lemma add_invs_rel : forall fuel m invs st st', add_invs s k fuel st m invs = Ok st' -> rel st st'.
Proof.
  intros fuel m invs. induction invs as [|inv invs IH]; intros st st' H; cbn [add_invs] in H.
  - injection H as <-. apply rel_refl.
  - destruct (add_inv s k fuel st m (freezeb st inv)) as [st1| |] eqn:E; try discriminate H. cbn [bindr] in H.
    eapply rel_trans; [eapply add_inv_rel; eauto|eauto].
Qed.
Lemma forall_rel : forall fuel st m pred st' b, forall_ s k fuel st m pred = Ok (st', b) -> rel st st'.
Proof.
  intros fuel st m pred st' b H. unfold forall_ in H. destruct (gmaps st m) as [g|] eqn:E; [|discriminate].
  destruct (is_definitely_empty g 0); [injection H as <- <-; apply rel_refl|].
  pose proof (fun r => grel_known r (gcs st) g 0) as KK. destruct (known_items g 0) as [kn g1]. cbn [snd] in KK.
  destruct (inv_items _ _ _ _ _ _ _ _) as [[st2 rs]| |] eqn:EI; try discriminate H. cbn [bindr] in H.
  pose proof (overfull_rel st2 m 0) as SO. destruct (is_not_overfull s k st2 m 0) as [st3 fits]. cbn [fst] in SO.
  destruct (inv_call _ _ _ _ _ _ _ _ _) as [[st4 u]| |] eqn:EC; try discriminate H. cbn [bindr] in H.
  destruct (add_inv _ _ _ _ _ _) as [st6| |] eqn:EA; try discriminate H. injection H as <- <-.
  apply inv_items_rel in EI. apply inv_call_rel in EC. apply add_inv_rel in EA.
  eapply rel_trans; [eapply rel_set; eauto|]. eapply rel_trans; [exact EI|].
  eapply rel_trans; [exact SO|]. eapply rel_trans; [exact EC|]. eapply rel_trans; [|exact EA].
  match goal with |- rel ?a (bump ?b _) => apply (rel_trans _ b _); [apply rel_add_cs|apply rel_maps; [apply incl_refl|reflexivity]]
  | |- rel ?a (add_cs ?b ?c) => apply (rel_trans _ b _); [apply rel_maps; [apply incl_refl|reflexivity]|apply rel_add_cs]
  | |- _ => apply rel_maps; [cbn; apply incl_appl, incl_refl|reflexivity] end.
Qed.

(** ** Writes *)

Lemma grel_write : forall r cs g i ch, grel r cs g (with_item_layer k g i ch).
Proof.
  intros r cs g i ch.
  assert (X : forall L rest, (cinv (glayers g) (gitems g) -> cinv (L :: rest) (gitems g)) -> grel r cs g (set_layers g (L :: rest))).
  { intros L rest C. unfold grel. cbn [set_layers gks gunk glen glayers gitems].
    split; [auto|]. split; [auto|]. split; [auto|]. split; [discriminate|]. split; [exact C|].
    split; [exists []; split; [rewrite app_nil_r; auto|intros _ key _ []]|]. split; [auto|discriminate]. }
  assert (N : forall len, cinv (glayers g) (gitems g) -> cinv (mkLayer [i] len (O, []) :: glayers g) (gitems g)).
  { intros len C. cbn [cinv lcache fst snd firstn]. split; [exact C|]. split; [lia|]. intros j []. }
  unfold with_item_layer. destruct (glayers g) as [|L rest] eqn:GL; [apply X, N|].
  destruct (negb _ && _); [|apply X, N]. apply X. cbn [cinv lcache litems]. intros [C [CL CE]]. split; [auto|]. split; [auto|].
  intros j Hj. destruct (CE j Hj) as [j' [A B]]. exists j'. split; [|auto]. rewrite <- app_assoc.
  apply in_app_or in A as [A|A]; apply in_or_app; [auto|right; apply in_or_app; auto].
Qed.
Lemma set_rel : forall fuel st m key value st', set_ s k fuel st m key value = Ok st' -> rel st st'.
Proof.
  intros fuel st m key value st' H. unfold set_ in H.
  destruct (get s k fuel st m key None BTrue None) as [[st1 vp]| |] eqn:G; try discriminate H. cbn [bindr] in H.
  destruct (get_if_constant_b s (gcs st1) (snd vp)) as [c| |]; try discriminate H. cbn [bindr] in H.
  apply get_rel in G. destruct (gmaps st1 m) as [g1|] eqn:E1; [|discriminate H]. injection H as <-.
  eapply rel_trans; [exact G|]. eapply rel_set; [exact E1|]. intros r. apply grel_write.
Qed.
Lemma remove_rel : forall fuel st m key st', remove s k fuel st m key = Ok st' -> rel st st'.
Proof.
  intros fuel st m key st' H. unfold remove in H.
  destruct (get s k fuel st m key None BTrue None) as [[st1 vp]| |] eqn:G; try discriminate H. cbn [bindr] in H.
  apply get_rel in G. destruct (gmaps st1 m) as [g1|] eqn:E1; [|discriminate H]. injection H as <-.
  eapply rel_trans; [exact G|]. 
  match goal with |- rel ?a (set_map ?b m ?x) => apply (rel_trans _ b _); [apply rel_maps; [apply incl_refl|reflexivity]|] end.
  eapply rel_set; [exact E1|]. intros r. apply grel_write.
Qed.
Lemma step_rel : forall fuel st o st', step s k fuel st o st' -> rel st st'.
Proof.
  intros fuel st o st' H. destruct H as
    [st m ks vs spec st' N H|st m key cval cond ver st' vp H|st m g key value st' E WK WV FO H|st m g key st' E WK FO H|st m pred st' b H|st c].
  - assert (Q : exists len invs, add_invs s k fuel (raw_new st m ks vs len) m invs = Ok st').
    { unfold map_new in H. destruct spec as [[len invs]|]; eauto. }
    destruct Q as [len [invs Q]]. apply add_invs_rel in Q. eapply rel_trans; [|exact Q].
    split; [apply incl_refl|]. intros r _. split; [apply incl_refl|]. intros x. cbn [raw_new set_map bump gmaps gcs].
    destruct (N.eqb_spec x m) as [->|_]; [|apply relr_refl]. rewrite N. split; [exact I|]. split; [intros a []|].
    intros _ a b [<-|[]] [<-|[]] _. reflexivity.
  - eapply get_rel; eauto.
  - eapply set_rel; eauto.
  - eapply remove_rel; eauto.
  - eapply forall_rel; eauto.
  - apply rel_add_cs.
Qed.
Lemma steps_rel : forall fuel st os st', steps s k fuel st os st' -> rel st st'.
Proof. intros fuel st os st' H. induction H; [apply rel_refl|]. eapply rel_trans; [eapply step_rel; eauto|auto]. Qed.
Lemma all_fresh : forall fuel nin sz os st, steps s k fuel (ginit nin sz) os st ->
  forall r m g, holds r (gcs st) -> gmaps st m = Some g -> fresh_map r g.
Proof.
  intros fuel nin sz os st H r m g Hr E. apply steps_rel in H. destruct H as [_ H]. destruct (H r Hr) as [_ X].
  specialize (X m). cbn in X. rewrite E in X. exact X.
Qed.

(** ** What a read answers with *)

Lemma get_answer : forall fuel st m g key cv ver st' v p, gmaps st m = Some g -> glayers g = [] ->
  get s k fuel st m key cv BTrue ver = Ok (st', (v, p)) -> (exists r, holds r (gcs st')) ->
  (is_definitely_empty g 0 = true /\ p = BFalse) \/
  (is_definitely_empty g 0 = false /\ width key = gks g /\ exists g' j, gmaps st' m = Some g' /\ In j (gitems g' ++ [gunk g']) /\ iv j = v /\ ip j = p /\
     (ik j = key \/ symbolic key = true /\ forall r, holds r (gcs st') -> ev r key = ev r (ik j))).
Proof.
  intros fuel st m g key cv ver st' v p E GL H [r0 H0]. destruct fuel as [|fuel]; [discriminate|].
  cbn [get] in H. rewrite E in H.
  assert (SK : skipn (skip_of g ver) (glayers g) = []) by (rewrite GL; apply skipn_nil).
  assert (EMP : is_definitely_empty g (skip_of g ver) = is_definitely_empty g 0).
  { unfold is_definitely_empty, len_at. rewrite SK, GL. reflexivity. }
  rewrite EMP in H. destruct (is_definitely_empty g 0); [left; injection H as <- <- <-; auto|right].
  destruct (N.eqb_spec (width key) (gks g)) as [W|]; [|discriminate]. cbn [negb] in H.
  set (d := skip_of g ver) in *.
  assert (KL : known_items g d = (gitems g, set_layers g [])).
  { unfold known_items. rewrite SK, GL, firstn_nil. reflexivity. }
  rewrite KL in H. change (gcs (set_map st m (set_layers g []))) with (gcs st) in H.
  split; [auto|]. split; [auto|].
  destruct (get_exact_match _ _ _ _ _ _) as [i|] eqn:GE.
  { injection H as <- <- <-. exists (set_layers g []), i. cbn [set_map gmaps]. rewrite N.eqb_refl. split; [auto|].
    split; [apply (get_exact_match_sound _ SOK) in GE; exact (proj1 GE)|]. split; [auto|]. split; [auto|].
    unfold get_exact_match in GE. destruct (find _ _) eqn:F.
    - injection GE as ->. apply find_some in F as [_ F]. apply bv_eqb_eq in F. auto.
    - destruct (symbolic key) eqn:SY; [|discriminate]. cbn [negb] in GE. apply find_some in GE as [_ GE]. right. split; [auto|].
      apply (definitely_true_spec _ SOK) in GE || rewrite (definitely_true_spec _ SOK) in GE.
      intros r Hr. specialize (GE r Hr). cbn in GE. apply N.eqb_eq in GE. exact GE. }
  match type of H with bindr ?x _ = _ => destruct x as [[st4 invs]| |] eqn:EI; try discriminate H end. cbn [bindr] in H.
  destruct (is_not_overfull s k st4 m d) as [st5 fits] eqn:EO. injection H as <- <- <-.
  pose proof (overfull_rel st4 m d) as SO. rewrite EO in SO. cbn [fst] in SO.
  apply inv_calls_rel in EI; [|intros; eapply (proj2 (em_rel _ _ _ (get_rel fuel))); eauto].
  cbn [add_cs gcs] in H0. apply holds_app in H0 as [H0 _].
  pose proof (proj2 (rel_trans _ _ _ EI SO) r0 H0) as R.
  eapply relr_get in R; [|cbn [set_map gmaps]; rewrite N.eqb_refl; reflexivity].
  destruct R as [g' [E' [_ [_ [_ [_ [_ [[l [EL _]] _]]]]]]]]. exists g'. eexists. split; [exact E'|].
  split; [rewrite EL; cbn [add_item gitems]; rewrite <- !app_assoc; apply in_or_app; right; left; reflexivity|].
  cbn [ik iv ip]. auto.
Qed.

Lemma find_app' : forall (f : item -> bool) a b,
  find f (a ++ b) = match find f a with Some i => Some i | None => find f b end.
Proof. intros f a b. induction a as [|x a IH]; [reflexivity|]. cbn. destruct (f x); auto. Qed.

(** A key read at the first version answers the same when that version is read again. *)
Lemma first_version : forall fuel nin sz before st1 m g1 key cv ver st2 g2 v p between st3 cv' cond st4 v' p' r,
  steps s k fuel (ginit nin sz) before st1 ->
  gmaps st1 m = Some g1 -> get s k fuel st1 m key cv BTrue ver = Ok (st2, (v, p)) ->
  gmaps st2 m = Some g2 -> glayers g2 = [] ->
  steps s k fuel st2 between st3 ->
  get s k fuel st3 m key cv' cond (Some O) = Ok (st4, (v', p')) ->
  holds r (gcs st4) -> eb r cond = true ->
  eb r p' = eb r p /\ (eb r p = true -> ev r v' = ev r v).
Proof.
  intros fuel nin sz before st1 m g1 key cv ver st2 g2 v p between st3 cv' cond st4 v' p' r
    B E1 G1 E2 L2 S G4 Hr HC.
  pose proof (get_rel _ _ _ _ _ _ _ _ _ G1) as R12. pose proof (steps_rel _ _ _ _ S) as R23.
  pose proof (proj1 (get_mono s k _ _ _ _ _ _ _ _ _ G4)) as I34.
  pose proof (holds_incl _ _ _ I34 Hr) as H3. pose proof (holds_incl _ _ _ (proj1 R23) H3) as H2.
  assert (B2 : steps s k fuel (ginit nin sz) (before ++ [AGet m key]) st2).
  { clear - B G1. induction B as [st|st o sta os stb Hs B IH]; cbn [app]; econstructor; eauto; [econstructor; eauto|constructor]. }
  pose proof (all_fresh _ _ _ _ _ B2 r m g2 H2 E2) as [C2 [W2 P2]]. specialize (P2 L2).
  destruct (relr_get _ _ _ _ _ (proj2 R12 r H2) E1) as [g2' [E2' [_ [_ [GL12 [F12 _]]]]]].
  rewrite E2 in E2'. injection E2' as <-. specialize (F12 L2).
  pose proof (relr_get _ _ _ _ _ (proj2 R23 r H3) E2) as [g3 [E3 GR]].
  pose proof (fun key => resolved_mono r (gcs st2) (gcs st3) key g2 g3 (proj1 R23) GR) as RM.
  destruct GR as [KS3 [U3 [GL3 [F3 [C3 [[l [EL FR]] [W3 _]]]]]]].
  specialize (C3 C2). specialize (W3 W2). specialize (FR C2).
  assert (SK : skipn (skip_of g3 (Some O)) (glayers g3) = []).
  { unfold skip_of, version. rewrite Nat.sub_0_r. apply skipn_all. }
  assert (EMP : is_definitely_empty g3 (skip_of g3 (Some O)) = is_definitely_empty g1 0).
  { unfold is_definitely_empty, len_at. rewrite SK, F12. cbn [skipn]. rewrite GL3, GL12. reflexivity. }
  assert (G4' := G4). destruct fuel as [|fuel]; [discriminate|]. cbn [get] in G4'. rewrite E3, EMP in G4'.
  destruct (get_answer _ _ _ _ _ _ _ _ _ _ E1 F12 G1 (ex_intro _ r H2)) as [[EM PF]|[EM [WK [g2' [j [E2' [Hj [Vj [Pj KJ]]]]]]]]].
  { rewrite EM in G4'. injection G4' as <- <- <-. subst p. split; [reflexivity|discriminate]. }
  rewrite E2 in E2'. injection E2' as <-. rewrite EM in G4'.
  destruct (negb (width key =? gks g3)); [discriminate|].
  pose proof (RM key (ex_intro _ j (conj Hj KJ))) as R3.
  pose proof (resolved_found (gcs st3) key g3 (skip_of g3 (Some O)) cond C3 R3) as RF.
  assert (KL : fst (known_items g3 (skip_of g3 (Some O))) = gitems g3) by (unfold known_items; rewrite SK; reflexivity).
  destruct (known_items g3 (skip_of g3 (Some O))) as [kn gk]. cbn [fst] in KL, RF. subst kn.
  change (gcs (set_map st3 m gk)) with (gcs st3) in G4'.
  destruct (get_exact_match _ _ _ _ _ _) as [i|] eqn:GE; [|congruence]. injection G4' as <- <- <-.
  pose proof (get_exact_match_sound _ SOK _ _ _ _ _ _ _ GE) as [Hi KI]. specialize (KI r H3 HC).
  assert (KJ' : ev r key = ev r (ik j)) by (destruct KJ as [<-|[_ KJ]]; auto).
  assert (V : val r i = val r j).
  { assert (OLD : In i (gitems g2 ++ [gunk g2]) -> val r i = val r j) by (intros X; apply P2; auto; congruence).
    unfold get_exact_match in GE. rewrite EL, U3, <- app_assoc in GE.
    destruct (find (fun c => bv_eqb key (ik c)) (gitems g2 ++ l ++ [gunk g2])) as [i'|] eqn:F.
    - injection GE as ->. rewrite find_app' in F. destruct (find _ (gitems g2)) eqn:Fa.
      + injection F as ->. apply find_some in Fa as [Fa _]. apply OLD. apply in_or_app. auto.
      + rewrite find_app' in F. destruct (find _ l) as [i2|] eqn:Fl.
        * apply find_some in Fl as [Fl Fe]. apply bv_eqb_eq in Fe. exfalso.
          apply (FR key (ex_intro _ j (conj Hj KJ))). rewrite Fe. apply in_map. exact Fl.
        * apply find_some in F as [F _]. apply OLD. apply in_or_app. auto.
    - destruct (symbolic key) eqn:SY; [|discriminate]. cbn [negb] in GE. rewrite find_app' in GE.
      destruct (find _ (gitems g2)) eqn:Fa.
      + injection GE as ->. apply find_some in Fa as [Fa _]. apply OLD. apply in_or_app. auto.
      + assert (JU : j = gunk g2).
        { apply in_app_or in Hj as [Hj|[<-|[]]]; [|reflexivity]. exfalso.
          eapply find_none in Fa; [|exact Hj]. cbv beta in Fa.
          assert (T : definitely_true s (gcs st3) (BOr (BNot cond) (BEq key (ik j))) = true).
          { apply (definitely_true_spec _ SOK). intros r' Hr'. cbn [evalb]. apply orb_true_iff. right. apply N.eqb_eq.
            destruct KJ as [<-|[_ KJ]]; [reflexivity|]. apply KJ. eapply holds_incl; [exact (proj1 R23)|exact Hr']. }
          congruence. }
        apply find_some in GE as [GE _]. apply in_app_or in GE as [GE|[<-|[]]]; [|congruence].
        rewrite JU, <- U3. apply W3; [rewrite EL; apply in_or_app; auto|]. rewrite U3, <- JU. congruence. }
  unfold val in V. injection V as V1 V2. rewrite <- Vj, <- Pj. split; auto.
Qed.
End Ops.

(** ** Testing a pair whose key is known *)

Lemma em_plain : forall (gt : gst -> N -> bv -> option bv -> bexp -> option nat -> res (gst * (bv * bexp))) cond,
  (forall e st, nolkv e = true -> emv gt (mkSubst BVS BoolS) cond st e = Ok (st, e)) /\
  (forall e st, nolkb e = true -> emb gt (mkSubst BVS BoolS) cond st e = Ok (st, e)).
Proof.
  intros gt cond. apply expr_mind; intros; cbn [emv emb nolkv nolkb] in *;
  repeat match goal with
  | H : (_ && _)%bool = true |- _ => apply andb_prop in H as [? ?]
  end; try discriminate;
  repeat match goal with
  | IH : forall st, nolkv ?e = true -> _, H : nolkv ?e = true |- _ => specialize (fun st => IH st H)
  | IH : forall st, nolkb ?e = true -> _, H : nolkb ?e = true |- _ => specialize (fun st => IH st H)
  end;
  repeat match goal with
  | IH : forall st, _ = Ok (st, ?e) |- _ => rewrite IH; clear IH; cbn [bindr]
  end; try reflexivity.
Qed.
Lemma known_key_test : forall s k fuel st m key value cond ver st' v p,
  nolkv key = true -> nolkv value = true ->
  get s k fuel st m key None cond ver = Ok (st', (v, p)) -> gnext st' = gnext st ->
  gcs st' = gcs st /\
  emb (get s k fuel) (mkSubst BVS BoolS) cond st (MapHasV m key value ver) = Ok (st', BAnd p (BEq v value)).
Proof.
  intros s k fuel st m key value cond ver st' v p NK NV H NX. cbn [emb].
  pose proof (proj1 (em_plain (get s k fuel) cond) key st NK) as EK. pose proof (proj1 (em_plain (get s k fuel) cond) value st NV) as EV.
  unfold emv, emb in *. fold emv emb in *.
  rewrite EK. cbn [bindr]. rewrite EV. cbn [bindr].
  enough (Q : gcs st' = gcs st /\ get s k fuel st m key (Some value) cond ver = Ok (st', (v, p))).
  { destruct Q as [Q1 Q2]. rewrite Q2. auto. }
  destruct fuel as [|fuel]; [discriminate|]. cbn [get] in *. destruct (gmaps st m) as [g|] eqn:E; [|discriminate].
  destruct (is_definitely_empty g (skip_of g ver)).
  { injection H as <- <- <-. cbn in NX. lia. }
  destruct (negb (width key =? gks g)); [discriminate|]. destruct (known_items g (skip_of g ver)) as [kn g1].
  destruct (get_exact_match _ _ _ _ _ _) as [i|]; [injection H as <- <- <-; auto|]. exfalso.
  match type of H with bindr ?x _ = _ => destruct x as [[st4 invs]| |] eqn:EI; try discriminate H end. cbn [bindr] in H.
  destruct (is_not_overfull s k st4 m (skip_of g ver)) as [st5 fits] eqn:EO. injection H as <- <- <-.
  apply overfull_mono in EO. apply inv_calls_mono in EI.
  2:{ intros st0 inv st0' o0. apply (em_mono (get s k fuel) _ _ (get_mono s k fuel)). }
  destruct EO as [_ N5]. destruct EI as [_ N4]. cbn [add_cs bump set_map gnext] in NX, N4. lia.
Qed.
