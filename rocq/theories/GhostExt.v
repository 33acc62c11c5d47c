(** * What exploring a packet leaves of a state

    Operations only add to a state: constraints, known items and invariants of maps; the
    sizes, unknown item and first length of a map stay. *)

From Coq Require Import NArith List Bool Lia Arith.
From Verif Require Import Expr Solver KMerge Wt GhostMap GhostSpec Infer.
Import ListNotations.
Open Scope N_scope.

Definition ext (g g' : gmap) : Prop :=
  gks g' = gks g /\ gvs g' = gvs g /\ gunk g' = gunk g /\ glen g' = glen g /\
  incl (gitems g) (gitems g') /\ incl (ginvs g) (ginvs g') /\ (glayers g' = [] -> glayers g = []).
Definition oext (a b : option gmap) : Prop :=
  match a, b with None, None => True | Some g, Some g' => ext g g' | _, _ => False end.
Definition sext (st st' : gst) : Prop :=
  gsz st' = gsz st /\ incl (gcs st) (gcs st') /\ forall m, oext (gmaps st m) (gmaps st' m).

Lemma ext_refl : forall g, ext g g.
Proof. intros g. repeat (split; [reflexivity|]). split; [apply incl_refl|]. split; [apply incl_refl|auto]. Qed.
Lemma ext_trans : forall a b c, ext a b -> ext b c -> ext a c.
Proof.
  intros a b c [A1 [A2 [A3 [A4 [A5 [A6 A7]]]]]] [B1 [B2 [B3 [B4 [B5 [B6 B7]]]]]].
  repeat (split; [congruence|]). split; [eapply incl_tran; eauto|]. split; [eapply incl_tran; eauto|auto].
Qed.
Lemma oext_refl : forall a, oext a a.
Proof. intros [g|]; [apply ext_refl|exact I]. Qed.
Lemma sext_refl : forall st, sext st st.
Proof. intros st. split; [reflexivity|]. split; [apply incl_refl|]. intros m. apply oext_refl. Qed.
Lemma sext_trans : forall a b c, sext a b -> sext b c -> sext a c.
Proof.
  intros a b c [A1 [A2 A3]] [B1 [B2 B3]]. split; [congruence|]. split; [eapply incl_tran; eauto|].
  intros m. specialize (A3 m). specialize (B3 m). unfold oext in *.
  destruct (gmaps a m), (gmaps b m), (gmaps c m); try contradiction; auto. eapply ext_trans; eauto.
Qed.
Lemma sext_get : forall st st' m g, sext st st' -> gmaps st m = Some g -> exists g', gmaps st' m = Some g' /\ ext g g'.
Proof. intros st st' m g [_ [_ H]] E. specialize (H m). rewrite E in H. destruct (gmaps st' m); [eauto|destruct H]. Qed.
Lemma sext_set : forall st m g g', gmaps st m = Some g -> ext g g' -> sext st (set_map st m g').
Proof.
  intros st m g g' E H. split; [reflexivity|]. split; [apply incl_refl|]. intros x. cbn.
  destruct (N.eqb_spec x m) as [->|_]; [rewrite E; exact H|apply oext_refl].
Qed.
Lemma sext_bump : forall st n, sext st (bump st n).
Proof. intros st n. split; [reflexivity|]. split; [apply incl_refl|]. intros m. apply oext_refl. Qed.
Lemma sext_add_cs : forall st l, sext st (add_cs st l).
Proof. intros st l. split; [reflexivity|]. split; [intros x Hx; cbn; apply in_or_app; auto|]. intros m. apply oext_refl. Qed.
Lemma ext_layers : forall g l, (l = [] -> glayers g = []) -> ext g (set_layers g l).
Proof. intros g l H. repeat (split; [reflexivity|]). split; [apply incl_refl|]. split; [apply incl_refl|exact H]. Qed.
Lemma ext_known : forall g d, ext g (snd (known_items g d)).
Proof. intros g d. unfold known_items. destruct (known_layers _ _) as [kn ls] eqn:E. cbn [snd]. apply ext_layers.
  intros H. apply app_eq_nil in H as [H1 H2]. rewrite <- (firstn_skipn d (glayers g)), H1. cbn [app].
  destruct (skipn d (glayers g)) as [|L rest]; [reflexivity|]. exfalso. cbn [known_layers] in E.
  repeat match type of E with context [let '(_, _) := ?x in _] => destruct x end.
  subst ls. discriminate E.
Qed.
Lemma ext_add : forall g i, ext g (add_item g i).
Proof. intros g i. repeat (split; [reflexivity|]). split; [intros x Hx; apply in_or_app; auto|]. split; [apply incl_refl|auto]. Qed.
Lemma ext_layer : forall k g i ch, ext g (with_item_layer k g i ch).
Proof.
  intros k g i ch. unfold with_item_layer. destruct (glayers g); [apply ext_layers; discriminate|].
  match goal with |- context [if ?c then _ else _] => destruct c end; apply ext_layers; discriminate.
Qed.

Lemma emv_sext : forall (get : gst -> N -> bv -> option bv -> bexp -> option nat -> res (gst * (bv * bexp))) sg cond,
  (forall st m key cv c ver st' vp, get st m key cv c ver = Ok (st', vp) -> sext st st') ->
  (forall e st st' e', emv get sg cond st e = Ok (st', e') -> sext st st') /\
  (forall e st st' e', emb get sg cond st e = Ok (st', e') -> sext st st').
Proof.
  intros get sg cond G. apply expr_mind; intros; cbn [emv emb] in *;
  repeat match goal with
  | H : bindr ?x _ = Ok _ |- _ => let E := fresh "E" in destruct x as [[? ?]| |] eqn:E; cbn [bindr] in H; try discriminate H
  end;
  match goal with H : Ok _ = Ok _ |- _ => injection H as <- <- end;
  repeat match goal with
  | IH : forall st st' e', emv _ _ _ st ?e = _ -> _, H : emv _ _ _ _ ?e = Ok _ |- _ => apply IH in H
  | IH : forall st st' e', emb _ _ _ st ?e = _ -> _, H : emb _ _ _ _ ?e = Ok _ |- _ => apply IH in H
  | H : get _ _ _ _ _ _ = Ok _ |- _ => apply G in H
  end; eauto using sext_refl, sext_trans.
Qed.

Section Ops.
Variable s : solver.
Variable k : claripy.

Lemma overfull_sext : forall st m d, sext st (fst (is_not_overfull s k st m d)).
Proof.
  intros st m d. unfold is_not_overfull. destruct (gmaps st m) as [g|] eqn:E; [|apply sext_refl].
  pose proof (ext_known g d) as KK. destruct (known_items g d) as [kn g']. cbn [snd] in KK.
  destruct (definitely_true _ _ _); cbn [fst]; eapply sext_set; eauto.
Qed.
Lemma inv_calls_sext : forall call invs st st' cs,
  (forall st inv st' c, call st inv = Ok (st', c) -> sext st st') ->
  inv_calls call st invs = Ok (st', cs) -> sext st st'.
Proof.
  intros call invs. induction invs as [|inv invs IH]; intros st st' cs C H; cbn [inv_calls] in H.
  - injection H as <- <-. apply sext_refl.
  - destruct (call st inv) as [[st1 c]| |] eqn:E; try discriminate H. cbn [bindr] in H.
    destruct (inv_calls call st1 invs) as [[st2 cs2]| |] eqn:E2; try discriminate H. injection H as <- <-.
    eapply sext_trans; [eapply C; eauto|eapply IH; eauto].
Qed.

Lemma get_sext : forall fuel st m key cv cond ver st' vp,
  get s k fuel st m key cv cond ver = Ok (st', vp) -> sext st st'.
Proof.
  induction fuel as [|fuel IH]; intros st m key cv cond ver st' vp H; [discriminate|]. cbn [get] in H.
  destruct (gmaps st m) as [g|] eqn:E; [|discriminate].
  destruct (is_definitely_empty g (skip_of g ver)).
  { injection H as <- <-. apply sext_bump. }
  destruct (N.eqb_spec (width key) (gks g)) as [W|]; [|discriminate]. cbn [negb] in H.
  pose proof (ext_known g (skip_of g ver)) as KK.
  destruct (known_items g (skip_of g ver)) as [kn g1] eqn:EK. cbn [snd] in KK.
  destruct (get_exact_match _ _ _ _ _ _) as [i|].
  { injection H as <- <-. eapply sext_set; eauto. }
  match type of H with bindr ?x _ = _ => destruct x as [[st4 invs]| |] eqn:EI; try discriminate H end. cbn [bindr] in H.
  destruct (is_not_overfull s k st4 m (skip_of g ver)) as [st5 fits] eqn:EO. injection H as <- <-.
  pose proof (overfull_sext st4 m (skip_of g ver)) as SO. rewrite EO in SO. cbn [fst] in SO.
  eapply sext_trans; [|apply sext_add_cs]. eapply sext_trans; [|exact SO]. eapply sext_trans.
  2:{ eapply inv_calls_sext; [|exact EI]. intros. eapply (proj2 (emv_sext _ _ _ IH)). eauto. }
  eapply sext_trans; [apply (sext_set st m g g1 E KK)|].
  match goal with |- sext ?a (set_map ?b m ?x) => apply (sext_trans _ b _) end.
  { eapply sext_trans; [|apply sext_add_cs]. apply sext_bump. }
  eapply sext_set; [cbn; rewrite N.eqb_refl; reflexivity|apply ext_add].
Qed.

Lemma inv_call_sext : forall fuel st ks vs inv i cond st' c,
  inv_call s k fuel st ks vs inv i cond = Ok (st', c) -> sext st st'.
Proof. intros. eapply (proj2 (emv_sext _ _ _ (get_sext fuel))). exact H. Qed.
Lemma inv_items_sext : forall fuel ks vs inv items st st' cs,
  inv_items s k fuel st ks vs inv items = Ok (st', cs) -> sext st st'.
Proof.
  intros fuel ks vs inv items. induction items as [|i items IH]; intros st st' cs H; cbn [inv_items] in H.
  - injection H as <- <-. apply sext_refl.
  - destruct (inv_call s k fuel st ks vs inv i BTrue) as [[st1 c]| |] eqn:E; try discriminate H. cbn [bindr] in H.
    destruct (inv_items s k fuel st1 ks vs inv items) as [[st2 cs2]| |] eqn:E2; try discriminate H. injection H as <- <-.
    eapply sext_trans; [eapply inv_call_sext; eauto|eapply IH; eauto].
Qed.
Lemma add_inv_sext : forall fuel st m inv st', add_inv s k fuel st m inv = Ok st' ->
  sext st st' /\ exists g, gmaps st' m = Some g /\ In inv (ginvs g).
Proof.
  intros fuel st m inv st' H. unfold add_inv in H. destruct (gmaps st m) as [g|] eqn:E; [|discriminate].
  destruct (inv_call _ _ _ _ _ _ _ _ _) as [[st1 c]| |] eqn:EC; try discriminate H. cbn [bindr] in H.
  apply inv_call_sext in EC. destruct (gmaps st1 m) as [g1|] eqn:E1; [|discriminate]. injection H as <-. split.
  - eapply sext_trans; [exact EC|].
    match goal with |- sext ?a (set_map ?b m ?x) => apply (sext_trans _ b _); [apply sext_add_cs|] end.
    eapply sext_set; [exact E1|]. repeat (split; [reflexivity|]). split; [apply incl_refl|]. split; [intros x Hx; apply in_or_app; auto|auto].
  - eexists. cbn. rewrite N.eqb_refl. split; [reflexivity|]. cbn. apply in_or_app. right. left. reflexivity.
Qed.
Lemma forall_with_sext : forall fuel st m e st' b, forall_with s k fuel st m e = Ok (st', b) ->
  sext st st' /\
  ((exists g, gmaps st m = Some g /\ is_definitely_empty g 0 = true) \/
   exists x g, b = BoolS x /\ gmaps st' m = Some g /\ In (BImp b e) (ginvs g)).
Proof.
  intros fuel st m e st' b H. unfold forall_with in H. destruct (gmaps st m) as [g|] eqn:E; [|discriminate].
  destruct (is_definitely_empty g 0) eqn:DE; [injection H as <- <-; split; [apply sext_refl|eauto]|].
  pose proof (ext_known g 0) as KK. destruct (known_items g 0) as [kn g1]. cbn [snd] in KK.
  destruct (inv_items _ _ _ _ _ _ _ _) as [[st2 rs]| |] eqn:EI; try discriminate H. cbn [bindr] in H.
  pose proof (overfull_sext st2 m 0) as SO. destruct (is_not_overfull s k st2 m 0) as [st3 fits]. cbn [fst] in SO.
  destruct (inv_call _ _ _ _ _ _ _ _ _) as [[st4 u]| |] eqn:EC; try discriminate H. cbn [bindr] in H.
  destruct (add_inv _ _ _ _ _ _) as [st6| |] eqn:EA; try discriminate H. injection H as <- <-.
  apply inv_items_sext in EI. apply inv_call_sext in EC. apply add_inv_sext in EA as [EA [g6 [G6 I6]]]. split.
  - eapply sext_trans; [eapply sext_set; eauto|]. eapply sext_trans; [exact EI|].
    eapply sext_trans; [exact SO|]. eapply sext_trans; [exact EC|]. eapply sext_trans; [|exact EA].
    eapply sext_trans; [|apply sext_add_cs]. apply sext_bump.
  - right. exists (gnext st4), g6. auto.
Qed.
Lemma forall_sext : forall fuel st m pred st' b, forall_ s k fuel st m pred = Ok (st', b) -> sext st st'.
Proof. intros fuel st m pred st' b H. apply (forall_with_sext fuel st m (freezeb st (BImp PRESENT pred)) st' b). exact H. Qed.
Lemma set_sext : forall fuel st m key v st', set_ s k fuel st m key v = Ok st' -> sext st st'.
Proof.
  intros fuel st m key v st' H. unfold set_ in H.
  destruct (get _ _ _ _ _ _ _ _ _) as [[st1 r]| |] eqn:E; cbn [bindr] in H; try discriminate. apply get_sext in E.
  destruct (get_if_constant_b _ _ _); cbn [bindr] in H; try discriminate.
  destruct (gmaps st1 m) as [g|] eqn:G; [|discriminate]. injection H as <-.
  eapply sext_trans; [exact E|]. eapply sext_set; [exact G|apply ext_layer].
Qed.
Lemma remove_sext : forall fuel st m key st', remove s k fuel st m key = Ok st' -> sext st st'.
Proof.
  intros fuel st m key st' H. unfold remove in H.
  destruct (get _ _ _ _ _ _ _ _ _) as [[st1 r]| |] eqn:E; cbn [bindr] in H; try discriminate. apply get_sext in E.
  destruct (gmaps st1 m) as [g|] eqn:G; [|discriminate]. injection H as <-.
  eapply sext_trans; [exact E|]. eapply sext_trans; [apply (sext_bump st1 1)|]. eapply sext_set; [exact G|apply ext_layer].
Qed.

(** A packet's operations: no map is created. *)
Definition no_new (o : op) : bool := match o with OEmpty _ _ _ | ONew _ _ _ _ _ | OArray _ _ _ _ => false | _ => true end.

Lemma srun_sext : forall fuel nin os st rs st' rs', forallb no_new os = true ->
  srun s k fuel nin (st, rs) os = Ok (st', rs') -> sext st st'.
Proof.
  intros fuel nin. induction os as [|o os IH]; intros st rs st' rs' NN H; cbn [srun forallb] in *.
  - injection H as <- <-. apply sext_refl.
  - apply andb_prop in NN as [N1 N2].
    destruct (sstep s k fuel nin (st, rs) o) as [[st1 rs1]| |] eqn:E; cbn [bindr] in H; try discriminate.
    eapply sext_trans; [|eapply IH; eauto]. clear IH H. unfold sstep in E.
    destruct o; try discriminate N1; unfold guard in E;
    match type of E with context [if ?c then _ else _] => destruct c; try discriminate E end;
    match type of E with
    | bindr ?x _ = _ => let X := fresh "X" in destruct x as [y| |] eqn:X; cbn [bindr] in E; try discriminate E
    | _ => idtac
    end.
    + destruct y as [y1 y2]. injection E as <- <-. eapply get_sext; eauto.
    + injection E as <- <-. eapply set_sext; eauto.
    + injection E as <- <-. eapply remove_sext; eauto.
    + destruct y as [y1 y2]. injection E as <- <-. eapply forall_sext; eauto.
    + injection E as <- <-. apply sext_add_cs.
Qed.

Lemma assume_items_sext : forall fuel m invs st st', assume_items s k fuel m invs st = Ok st' ->
  sext st st' /\
  forall e, In (IConj e) invs -> (forall g, gmaps st' m = Some g -> glayers g = []) ->
    (exists g, gmaps st' m = Some g /\ glen g = BVV (width (glen g)) 0) \/
    exists x g, gmaps st' m = Some g /\ In (BImp (BoolS x) e) (ginvs g) /\ In (BoolS x) (gcs st').
Proof.
  intros fuel m. induction invs as [|i invs IH]; intros st st' H; cbn [assume_items] in H.
  - injection H as <-. split; [apply sext_refl|]. intros e [].
  - destruct (match i with IConj e => forall_with s k fuel st m e | IGuess p => forall_ s k fuel st m p end) as [[st1 b]| |] eqn:E; cbn [bindr] in H; try discriminate.
    destruct (IH _ _ H) as [S2 K].
    assert (S1 : sext st st1) by (destruct i; [eapply forall_with_sext; eauto|eapply forall_sext; eauto]).
    assert (S12 : sext st st') by (eapply sext_trans; [exact S1|]; eapply sext_trans; [apply sext_add_cs|exact S2]).
    split; [exact S12|]. intros e [->|He] LE; [|apply K; auto].
    destruct (forall_with_sext _ _ _ _ _ _ E) as [_ [[g [G DE]]|[x [g [-> [G IN]]]]]].
    + destruct (sext_get _ _ m g S12 G) as [g' [G' X]]. left. exists g'. split; [exact G'|].
      destruct X as [_ [_ [_ [X4 [_ [_ X7]]]]]]. specialize (X7 (LE g' G')).
      unfold is_definitely_empty, len_at in DE. rewrite X7 in DE. cbn in DE. rewrite X4. apply bv_eqb_eq. exact DE.
    + right. destruct (sext_get _ _ m g S2 G) as [g' [G' X]]. exists x, g'. split; [exact G'|].
      split; [apply X; exact IN|]. apply S2. cbn. apply in_or_app. right. left. reflexivity.
Qed.

Lemma assume_all_sext : forall fuel items lens relevant st st', assume_all s k fuel relevant items lens st = Ok st' ->
  sext st st' /\
  forall m e, In m relevant -> In (IConj e) (match assoc items m with Some l => l | None => [] end) ->
    (forall g, gmaps st' m = Some g -> glayers g = []) ->
    (exists g, gmaps st' m = Some g /\ glen g = BVV (width (glen g)) 0) \/
    exists x g, gmaps st' m = Some g /\ In (BImp (BoolS x) e) (ginvs g) /\ In (BoolS x) (gcs st').
Proof.
  intros fuel items lens. induction relevant as [|m relevant IH]; intros st st' H; cbn [assume_all] in H.
  - injection H as <-. split; [apply sext_refl|]. intros m e [].
  - destruct (assume_items s k fuel m _ st) as [st1| |] eqn:E; cbn [bindr] in H; try discriminate.
    destruct (assume_items_sext _ _ _ _ _ E) as [S1 K1]. destruct (IH _ _ H) as [S2 K2].
    assert (S1' : sext st1 st') by (eapply sext_trans; [apply sext_add_cs|exact S2]).
    split; [eapply sext_trans; eauto|]. intros m' e [<-|Hm] He LE; [|apply K2; auto].
    destruct (K1 e He) as [[g [G Z]]|[x [g [G [I1 I2]]]]].
    + intros g G. destruct (sext_get _ _ m g S1' G) as [g' [G' X]]. apply X. apply LE. exact G'.
    + left. destruct (sext_get _ _ m g S1' G) as [g' [G' X]]. exists g'. split; [exact G'|].
      destruct X as [_ [_ [_ [X4 _]]]]. rewrite X4. exact Z.
    + right. destruct (sext_get _ _ m g S1' G) as [g' [G' X]]. exists x, g'. split; [exact G'|]. split; [apply X; exact I1|].
      apply S1'. exact I2.
Qed.

Lemma havoc_other : forall relevant lens st st', havoc relevant lens st = Ok st' ->
  gsz st' = gsz st /\ gcs st' = gcs st /\ forall m, memN m relevant = false -> gmaps st' m = gmaps st m.
Proof.
  induction relevant as [|m relevant IH]; intros lens st st' H; cbn [havoc] in H; [injection H as <-; auto|].
  destruct (gmaps st m) as [g|] eqn:G; [|discriminate].
  assert (X : exists st1 len, match assoc lens m with None => (st, len_at g 0) | Some _ => (bump st 1, BVS (width (len_at g 0)) (gnext st)) end = (st1, len) /\
     gsz st1 = gsz st /\ gcs st1 = gcs st /\ gmaps st1 = gmaps st) by (destruct (assoc lens m); do 2 eexists; repeat split).
  destruct X as [st1 [len [E [E1 [E2 E3]]]]]. rewrite E in H. destruct (IH _ _ _ H) as [A [B C]].
  split; [rewrite A; exact E1|]. split; [rewrite B; exact E2|]. intros m' Hm'. cbn [memN existsb] in Hm'.
  apply orb_false_iff in Hm' as [N1 N2]. rewrite (C m' N2). cbn. rewrite N1. rewrite E3. reflexivity.
Qed.
End Ops.
