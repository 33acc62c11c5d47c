(** * Comparing the contents of two packets in a specification

    [transmitted_packet.data == packet.data] (tool/klint/verif/spec_prefix.py 308-316 and 383-398): the packet's map as it is now against the
    oldest version of the same map.  Models _SpecPacketData.__eq__ with Map.forall (ghostmaps.py 255-277), whose predicate looks the pair up in
    the oldest version: freezing (72-76) gives it that map's version, 0. *)

From Coq Require Import NArith List Bool Lia Arith.
From Verif Require Import Expr Solver KMerge Wt GhostMap GhostSpec GhostFacts GhostReal GhostFold GhostOld.
Import ListNotations.
Open Scope N_scope.

(** spec_prefix.py 316 and ghostmaps.py 257: the pair is in the oldest version. *)
Definition in_oldest (m ks vs : N) : bexp := BImp PRESENT (MapHasV m (KEY ks) (VALUE vs) (Some O)).
(** spec_prefix.py 315-316; from the second test on, ghostmaps.py 261-277. *)
Definition data_eq (s : solver) (k : claripy) (fuel : nat) (st : gst) (m : N) : res (gst * bexp) :=
  match gmaps st m with
  | None => Err
  | Some g =>
      let lengths := BEq (len_at g 0) (glen g) in
      let inv := in_oldest m (gks g) (gvs g) in
      if is_definitely_empty g 0 then Ok (st, BAnd lengths BTrue)
      else
        let '(known, g1) := known_items g 0 in
        let st1 := set_map st m g1 in
        do (st2, known_results) <- inv_items s k fuel st1 (gks g) (gvs g) inv known;
        let unknown_is_not_known := BAndL (map (fun i => BNe (ik (gunk g)) (ik i)) known) in
        let '(st3, fits) := is_not_overfull s k st2 m 0 in
        do (st4, u) <- inv_call s k fuel st3 (gks g) (gvs g) inv (gunk g) BTrue;
        let unknown_result := BImp fits (BImp unknown_is_not_known u) in
        let result := BoolS (gnext st4) in
        let st5 := add_cs (bump st4 1) [BIff result (BAnd (BAndL known_results) unknown_result)] in
        do st6 <- add_inv s k fuel st5 m (BImp result inv);
        Ok (st6, BAnd lengths result)
  end.

(** ** Operations that write nothing keep the layers *)

Definition lay (g g' : gmap) : Prop := Forall2 same_layer (glayers g) (glayers g').
Lemma layers_refl : forall l : list layer, Forall2 same_layer l l.
Proof. induction l; constructor; auto. split; reflexivity. Qed.
Lemma lay_refl : forall g, lay g g.
Proof. intros g. apply layers_refl. Qed.
Lemma layers_trans : forall a b c : list layer, Forall2 same_layer a b -> Forall2 same_layer b c -> Forall2 same_layer a c.
Proof.
  intros a b c H. revert c. induction H as [|x y a b [E1 E2] H IH]; intros c Q; inversion_clear Q as [|? z ? c' [F1 F2] Q']; constructor; auto.
  split; congruence.
Qed.
Lemma lay_trans : forall a b c, lay a b -> lay b c -> lay a c.
Proof. intros a b c. apply layers_trans. Qed.
Lemma known_layers_same : forall ls base, Forall2 same_layer ls (snd (known_layers ls base)).
Proof.
  induction ls as [|L rest IH]; intros base; cbn [known_layers]; [constructor|]. specialize (IH base).
  destruct (known_layers rest base) as [prev rest']. destruct (lcache L) as [count cached]. cbn [snd] in *. constructor; [split; reflexivity|exact IH].
Qed.
Lemma lay_known : forall g d, lay g (snd (known_items g d)).
Proof.
  intros g d. unfold known_items, lay. pose proof (known_layers_same (skipn d (glayers g)) (gitems g)) as Q.
  destruct (known_layers (skipn d (glayers g)) (gitems g)) as [kn ls']. cbn [snd set_layers glayers] in *.
  rewrite <- (firstn_skipn d (glayers g)) at 1. apply Forall2_app; [apply layers_refl|exact Q].
Qed.
Lemma lay_add : forall g i, lay g (add_item g i).
Proof. intros g i. apply layers_refl. Qed.
Lemma lay_inv : forall g invs, lay g (mkGmap (gks g) (gvs g) (gitems g) invs (gunk g) (glen g) (glayers g)).
Proof. intros g invs. apply layers_refl. Qed.
Definition olay (a b : option gmap) : Prop :=
  match a, b with None, None => True | Some g, Some g' => lay g g' | _, _ => False end.
Definition slay (st st' : gst) : Prop := forall m, olay (gmaps st m) (gmaps st' m).
Lemma slay_refl : forall st, slay st st.
Proof. intros st m. unfold olay. destruct (gmaps st m); [apply lay_refl|exact I]. Qed.
Lemma slay_trans : forall a b c, slay a b -> slay b c -> slay a c.
Proof.
  intros a b c H1 H2 m. specialize (H1 m). specialize (H2 m). unfold olay in *.
  destruct (gmaps a m), (gmaps b m), (gmaps c m); try contradiction; auto. eapply lay_trans; eauto.
Qed.
Lemma slay_set : forall st m g g', gmaps st m = Some g -> lay g g' -> slay st (set_map st m g').
Proof.
  intros st m g g' E H x. cbn. destruct (N.eqb_spec x m) as [->|_]; [rewrite E; exact H|]. apply slay_refl.
Qed.
Lemma slay_maps : forall st st', gmaps st' = gmaps st -> slay st st'.
Proof. intros st st' E m. rewrite E. apply slay_refl. Qed.
Lemma slay_get : forall st st' m g, slay st st' -> gmaps st m = Some g -> exists g', gmaps st' m = Some g' /\ lay g g'.
Proof.
  intros st st' m g H E. specialize (H m). rewrite E in H. destruct (gmaps st' m) as [g'|]; [eauto|destruct H].
Qed.

Lemma emv_slay : forall (get : gst -> N -> bv -> option bv -> bexp -> option nat -> res (gst * (bv * bexp))) sg cond,
  (forall st m key cv c ver st' vp, get st m key cv c ver = Ok (st', vp) -> slay st st') ->
  (forall e st st' e', emv get sg cond st e = Ok (st', e') -> slay st st') /\
  (forall e st st' e', emb get sg cond st e = Ok (st', e') -> slay st st').
Proof.
  intros get sg cond G. apply expr_mind; intros; cbn [emv emb] in *;
  repeat match goal with
  | H : bindr ?x _ = Ok _ |- _ => let E := fresh "E" in destruct x as [[? ?]| |] eqn:E; cbn [bindr] in H; try discriminate H
  end;
  match goal with H : Ok _ = Ok _ |- _ => injection H as <- <- end;
  repeat match goal with
  | IH : forall st st' e', emv _ _ _ st ?e = _ -> _, H : emv _ _ _ _ ?e = Ok _ |- _ => apply IH in H
  | IH : forall st st' e', emb _ _ _ st ?e = _ -> _, H : emb _ _ _ _ ?e = Ok _ |- _ => apply IH in H
  | H : get _ _ _ _ _ _ = Ok _ |- _ => apply G in H
  end; eauto using slay_refl, slay_trans.
Qed.

Section Ops.
Variable s : solver.
Variable k : claripy.

Lemma overfull_slay : forall st m d, slay st (fst (is_not_overfull s k st m d)).
Proof.
  intros st m d. unfold is_not_overfull. destruct (gmaps st m) as [g|] eqn:E; [|apply slay_refl].
  pose proof (lay_known g d) as KK. destruct (known_items g d) as [kn g']. cbn [snd] in KK.
  destruct (definitely_true _ _ _); cbn [fst]; eapply slay_set; eauto.
Qed.
Lemma inv_calls_slay : forall call invs st st' cs,
  (forall st inv st' c, call st inv = Ok (st', c) -> slay st st') ->
  inv_calls call st invs = Ok (st', cs) -> slay st st'.
Proof.
  intros call invs. induction invs as [|inv invs IH]; intros st st' cs C H; cbn [inv_calls] in H.
  - injection H as <- <-. apply slay_refl.
  - destruct (call st inv) as [[st1 c]| |] eqn:E; try discriminate H. cbn [bindr] in H.
    destruct (inv_calls call st1 invs) as [[st2 cs2]| |] eqn:E2; try discriminate H. injection H as <- <-.
    eapply slay_trans; [eapply C; eauto|eapply IH; eauto].
Qed.

Lemma get_slay : forall fuel st m key cv cond ver st' vp,
  get s k fuel st m key cv cond ver = Ok (st', vp) -> slay st st'.
Proof.
  induction fuel as [|fuel IH]; intros st m key cv cond ver st' vp H; [discriminate|]. cbn [get] in H.
  destruct (gmaps st m) as [g|] eqn:E; [|discriminate].
  destruct (is_definitely_empty g (skip_of g ver)).
  { injection H as <- <-. apply slay_maps. reflexivity. }
  destruct (N.eqb_spec (width key) (gks g)) as [W|]; [|discriminate]. cbn [negb] in H.
  pose proof (lay_known g (skip_of g ver)) as KK.
  destruct (known_items g (skip_of g ver)) as [kn g1] eqn:EK. cbn [snd] in KK.
  destruct (get_exact_match _ _ _ _ _ _) as [i|].
  { injection H as <- <-. eapply slay_set; eauto. }
  match type of H with bindr ?x _ = _ => destruct x as [[st4 invs]| |] eqn:EI; try discriminate H end. cbn [bindr] in H.
  destruct (is_not_overfull s k st4 m (skip_of g ver)) as [st5 fits] eqn:EO. injection H as <- <-.
  pose proof (overfull_slay st4 m (skip_of g ver)) as SO. rewrite EO in SO. cbn [fst] in SO.
  assert (S5 : slay st st5).
  { eapply slay_trans; [|exact SO]. eapply slay_trans.
    2:{ eapply inv_calls_slay; [|exact EI]. intros. eapply (proj2 (emv_slay _ _ _ IH)). eauto. }
    eapply slay_trans; [apply (slay_set st m g g1 E KK)|].
    match goal with |- slay ?a (set_map ?b m ?x) => apply (slay_trans _ b _); [apply slay_maps; reflexivity|] end.
    eapply slay_set.
    - cbn. rewrite N.eqb_refl. reflexivity.
    - apply lay_add. }
  eapply slay_trans; [exact S5|]. apply slay_maps. reflexivity.
Qed.

Lemma inv_call_slay : forall fuel st ks vs inv i cond st' c,
  inv_call s k fuel st ks vs inv i cond = Ok (st', c) -> slay st st'.
Proof. intros. eapply (proj2 (emv_slay _ _ _ (get_slay fuel))). exact H. Qed.
Lemma inv_items_slay : forall fuel ks vs inv items st st' cs,
  inv_items s k fuel st ks vs inv items = Ok (st', cs) -> slay st st'.
Proof.
  intros fuel ks vs inv items. induction items as [|i items IH]; intros st st' cs H; cbn [inv_items] in H.
  - injection H as <- <-. apply slay_refl.
  - destruct (inv_call s k fuel st ks vs inv i BTrue) as [[st1 c]| |] eqn:E; try discriminate H. cbn [bindr] in H.
    destruct (inv_items s k fuel st1 ks vs inv items) as [[st2 cs2]| |] eqn:E2; try discriminate H. injection H as <- <-.
    eapply slay_trans; [eapply inv_call_slay; eauto|eapply IH; eauto].
Qed.
Lemma add_inv_slay : forall fuel st m inv st', add_inv s k fuel st m inv = Ok st' -> slay st st'.
Proof.
  intros fuel st m inv st' H. unfold add_inv in H. destruct (gmaps st m) as [g|] eqn:E; [|discriminate].
  destruct (inv_call _ _ _ _ _ _ _ _ _) as [[st1 c]| |] eqn:EC; try discriminate H. cbn [bindr] in H.
  apply inv_call_slay in EC. destruct (gmaps st1 m) as [g1|] eqn:E1; [|discriminate]. injection H as <-.
  eapply slay_trans; [exact EC|].
  match goal with |- slay ?a (set_map ?b m ?x) => apply (slay_trans _ b _); [apply slay_maps; reflexivity|] end.
  eapply slay_set; [exact E1|]. apply lay_inv.
Qed.
Lemma add_invs_slay : forall fuel m invs st st', add_invs s k fuel st m invs = Ok st' -> slay st st'.
Proof.
  intros fuel m invs. induction invs as [|inv invs IH]; intros st st' H; cbn [add_invs] in H.
  - injection H as <-. apply slay_refl.
  - destruct (add_inv s k fuel st m (freezeb st inv)) as [st1| |] eqn:E; try discriminate H. cbn [bindr] in H.
    eapply slay_trans; [eapply add_inv_slay; eauto|eauto].
Qed.
Lemma forall_slay : forall fuel st m pred st' b, forall_ s k fuel st m pred = Ok (st', b) -> slay st st'.
Proof.
  intros fuel st m pred st' b H. unfold forall_ in H. destruct (gmaps st m) as [g|] eqn:E; [|discriminate].
  destruct (is_definitely_empty g 0); [injection H as <- <-; apply slay_refl|].
  pose proof (lay_known g 0) as KK. destruct (known_items g 0) as [kn g1]. cbn [snd] in KK.
  destruct (inv_items _ _ _ _ _ _ _ _) as [[st2 rs]| |] eqn:EI; try discriminate H. cbn [bindr] in H.
  pose proof (overfull_slay st2 m 0) as SO. destruct (is_not_overfull s k st2 m 0) as [st3 fits]. cbn [fst] in SO.
  destruct (inv_call _ _ _ _ _ _ _ _ _) as [[st4 u]| |] eqn:EC; try discriminate H. cbn [bindr] in H.
  destruct (add_inv _ _ _ _ _ _) as [st6| |] eqn:EA; try discriminate H. injection H as <- <-.
  apply inv_items_slay in EI. apply inv_call_slay in EC. apply add_inv_slay in EA.
  eapply slay_trans; [eapply slay_set; eauto|]. eapply slay_trans; [exact EI|].
  eapply slay_trans; [exact SO|]. eapply slay_trans; [exact EC|]. eapply slay_trans; [|exact EA].
  apply slay_maps. reflexivity.
Qed.

End Ops.

(** ** Facts *)

Lemma look_in : forall r key L i ls base, In L ls -> In i (litems L) -> ik i = key -> exists x, look r key ls base = Some x.
Proof.
  intros r key L i ls base HL Hi <-. induction ls as [|L' ls IH]; [destruct HL|]. cbn [look].
  destruct (fm (ik i) (litems L')) as [j|] eqn:F; [eauto|]. destruct HL as [->|HL]; [exfalso; eapply fm_none; eauto|].
  destruct (IH HL) as [x ->]. cbn. eauto.
Qed.
Lemma look_bare : forall r key ks ls base, literal key -> width key = ks ->
  (forall L i, In L ls -> In i (litems L) -> literal (ik i) /\ width (ik i) = ks /\ ik i <> key) ->
  look r key ls base = option_map (val r) (fm key base).
Proof.
  intros r key ks ls base LK WK. induction ls as [|L ls IH]; intros H; cbn [look]; [reflexivity|].
  rewrite (fm_notin key (litems L)) by (intros i Hi; apply (H L i); [left; auto|auto]).
  rewrite IH by (intros L' i HL Hi; apply (H L' i); [right; auto|auto]).
  assert (Q : forall x, sem r key L x = x).
  { intros x. unfold sem. destruct (find _ (litems L)) as [j|] eqn:F; [|reflexivity]. exfalso. apply find_some in F as [Fj F].
    destruct (H L j (or_introl eq_refl) Fj) as (Lj & Wj & Nj). apply N.eqb_eq in F. apply Nj. apply (literal_inj r); auto; congruence. }
  destruct (fm key base) as [i|]; cbn [option_map]; [rewrite Q|]; reflexivity.
Qed.
Lemma layers_in : forall a b, Forall2 same_layer a b -> forall L i, In L b -> In i (litems L) -> exists L', In L' a /\ In i (litems L').
Proof.
  intros a b H. induction H as [|x y a b [E _] H IH]; intros L i HL Hi; [destruct HL|]. destruct HL as [->|HL].
  - exists x. split; [left; auto|]. rewrite E. exact Hi.
  - destruct (IH L i HL Hi) as (L' & A & B). exists L'. split; [right; auto|auto].
Qed.

(** All writes to the map, and so all its layers, are at constant keys. *)
Definition const_layers (g : gmap) : Prop := forall L i, In L (glayers g) -> In i (litems L) -> literal (ik i).
Definition const_writes (m : N) (os : list act) : Prop :=
  forall o, In o os -> match o with ASet m' key _ | ARemove m' key => m' = m -> literal key | _ => True end.

Section Main.
Variable s : solver.
Variable k : claripy.
Hypothesis SOK : solver_ok s.

Lemma const_lay : forall st st' m, slay st st' -> (forall g, gmaps st m = Some g -> const_layers g) -> forall g', gmaps st' m = Some g' -> const_layers g'.
Proof.
  intros st st' m H C g' E L i HL Hi. specialize (H m). rewrite E in H. unfold olay in H. destruct (gmaps st m) as [g|]; [|destruct H].
  destruct (layers_in _ _ H L i HL Hi) as (L' & A & B). exact (C g eq_refl L' i A B).
Qed.
Lemma const_write : forall g i ch, const_layers g -> literal (ik i) -> const_layers (with_item_layer k g i ch).
Proof.
  intros g i ch C LI L j HL Hj. unfold with_item_layer in HL. destruct (glayers g) as [|L0 rest] eqn:GL.
  - destruct HL as [<-|[]]. destruct Hj as [<-|[]]. exact LI.
  - destruct (negb _ && _) in HL; cbn [set_layers glayers] in HL; destruct HL as [<-|HL].
    + cbn [litems] in Hj. apply in_app_or in Hj as [Hj|[<-|[]]]; [|exact LI]. apply (C L0 j); [rewrite GL; left; auto|auto].
    + apply (C L j); [rewrite GL; right; auto|auto].
    + destruct Hj as [<-|[]]. exact LI.
    + apply (C L j); [rewrite GL; auto|auto].
Qed.
Lemma step_const : forall fuel st o st' m, step s k fuel st o st' -> const_writes m [o] ->
  (forall g, gmaps st m = Some g -> const_layers g) -> forall g', gmaps st' m = Some g' -> const_layers g'.
Proof.
  intros fuel st o st' m H W C. specialize (W o (or_introl eq_refl)). destruct H as
    [st m' ks vs spec st' N H|st m' key cval cond ver st' vp H|st m' g key value st' E WK WV FO H|st m' g key st' E WK FO H|st m' pred st' b H|st c].
  - assert (Q : exists len invs, add_invs s k fuel (raw_new st m' ks vs len) m' invs = Ok st').
    { unfold map_new in H. destruct spec as [[len invs]|]; eauto. }
    destruct Q as [len [invs Q]]. apply add_invs_slay in Q. eapply const_lay; [exact Q|]. intros g E. cbn in E.
    destruct (N.eqb_spec m m') as [->|_]; [injection E as <-; intros L i []|auto].
  - apply get_slay in H. eapply const_lay; eauto.
  - unfold set_ in H. destruct (get s k fuel st m' key None BTrue None) as [[st1 vp]| |] eqn:G; try discriminate H. cbn [bindr] in H.
    destruct (get_if_constant_b s (gcs st1) (snd vp)) as [c| |]; try discriminate H. cbn [bindr] in H.
    apply get_slay in G. destruct (gmaps st1 m') as [g1|] eqn:E1; [|discriminate]. injection H as <-.
    intros g' E'. cbn in E'. destruct (N.eqb_spec m m') as [->|_]; [|eapply const_lay; eauto].
    injection E' as <-. apply const_write; [eapply const_lay; eauto|]. apply W. reflexivity.
  - unfold remove in H. destruct (get s k fuel st m' key None BTrue None) as [[st1 vp]| |] eqn:G; try discriminate H. cbn [bindr] in H.
    apply get_slay in G. destruct (gmaps st1 m') as [g1|] eqn:E1; [|discriminate]. injection H as <-.
    intros g' E'. cbn in E'. destruct (N.eqb_spec m m') as [->|_]; [|eapply const_lay; eauto].
    injection E' as <-. apply const_write; [eapply const_lay; eauto|]. apply W. reflexivity.
  - apply forall_slay in H. eapply const_lay; eauto.
  - intros g'. apply C.
Qed.
Lemma steps_const : forall fuel st os st' m, steps s k fuel st os st' -> const_writes m os ->
  (forall g, gmaps st m = Some g -> const_layers g) -> forall g', gmaps st' m = Some g' -> const_layers g'.
Proof.
  intros fuel st os st' m H. induction H as [st|st o st1 os st2 H1 H2 IH]; intros W C; [exact C|]. apply IH.
  - intros x Hx. apply W. right. exact Hx.
  - eapply step_const; [exact H1| |exact C]. intros x [<-|[]]. apply W. left. reflexivity.
Qed.

Lemma data_eq_keeps : forall fuel st m st' t, data_eq s k fuel st m = Ok (st', t) -> rel st st' /\ skept st st' /\ slay st st'.
Proof.
  intros fuel st m st' b H. unfold data_eq in H. destruct (gmaps st m) as [g|] eqn:E; [|discriminate].
  destruct (is_definitely_empty g 0); [injection H as <- <-; auto using rel_refl, skept_refl, slay_refl|].
  pose proof (fun r => grel_known r (gcs st) g 0) as KK1. pose proof (kept_known g 0) as KK2. pose proof (lay_known g 0) as KK3.
  destruct (known_items g 0) as [kn g1]. cbn [snd] in KK1, KK2, KK3.
  destruct (inv_items _ _ _ _ _ _ _ _) as [[st2 rs]| |] eqn:EI; try discriminate H. cbn [bindr] in H.
  pose proof (overfull_rel s k st2 m 0) as S1. pose proof (overfull_skept s k st2 m 0) as S2. pose proof (overfull_slay s k st2 m 0) as S3.
  destruct (is_not_overfull s k st2 m 0) as [st3 fits]. cbn [fst] in S1, S2, S3.
  destruct (inv_call _ _ _ _ _ _ _ _ _) as [[st4 u]| |] eqn:EC; try discriminate H. cbn [bindr] in H.
  destruct (add_inv _ _ _ _ _ _) as [st6| |] eqn:EA; try discriminate H. injection H as <- <-. split; [|split].
  - apply (inv_items_rel s k SOK) in EI. apply (inv_call_rel s k SOK) in EC. apply (add_inv_rel s k SOK) in EA.
    eapply rel_trans; [eapply rel_set; eauto|]. eapply rel_trans; [exact EI|].
    eapply rel_trans; [exact S1|]. eapply rel_trans; [exact EC|]. eapply rel_trans; [|exact EA].
    apply rel_maps; [cbn; apply incl_appl, incl_refl|reflexivity].
  - apply inv_items_skept in EI. apply inv_call_skept in EC. apply add_inv_skept in EA.
    eapply skept_trans; [eapply skept_set; eauto|]. eapply skept_trans; [exact EI|].
    eapply skept_trans; [exact S2|]. eapply skept_trans; [exact EC|]. eapply skept_trans; [|exact EA]. apply skept_maps. reflexivity.
  - apply inv_items_slay in EI. apply inv_call_slay in EC. apply add_inv_slay in EA.
    eapply slay_trans; [eapply slay_set; eauto|]. eapply slay_trans; [exact EI|].
    eapply slay_trans; [exact S3|]. eapply slay_trans; [exact EC|]. eapply slay_trans; [|exact EA]. apply slay_maps. reflexivity.
Qed.

(** ** Reads of the oldest version at a constant key *)
Definition oldest_says (key : bv) (g : gmap) : option item := fm key (gitems g ++ [gunk g]).
Lemma oldest_stable : forall r st st' m g key i, rel st st' -> holds r (gcs st') -> gmaps st m = Some g -> cinv (glayers g) (gitems g) ->
  oldest_says key g = Some i -> exists g', gmaps st' m = Some g' /\ oldest_says key g' = Some i /\ cinv (glayers g') (gitems g') /\ glen g' = glen g /\ gunk g' = gunk g /\ gks g' = gks g.
Proof.
  intros r st st' m g key i R Hr E C F. pose proof (relr_get _ _ _ _ _ (proj2 R r Hr) E) as (g' & E' & KS & U & GL & _ & CI & (l & EL & FR) & _).
  exists g'. split; [exact E'|]. split; [|auto]. unfold oldest_says in *. rewrite EL, U, <- app_assoc. rewrite fm_app in F |- *.
  destruct (fm key (gitems g)) as [j|] eqn:Fb; [exact F|]. rewrite fm_app, (fm_notin key l); [exact F|]. intros j Hj EJ.
  apply fm_some in F as [[<-|[]] FK]. apply (FR C key).
  - exists (gunk g). split; [apply in_or_app; right; left; reflexivity|]. left. exact FK.
  - rewrite <- EJ. apply in_map. exact Hj.
Qed.
Lemma oldest_read : forall r fuel st m g key cv cond st' v p, gmaps st m = Some g -> cinv (glayers g) (gitems g) -> literal key ->
  is_definitely_empty g (version g) = false -> get s k fuel st m key cv cond (Some O) = Ok (st', (v, p)) -> holds r (gcs st') ->
  exists g' i, gmaps st' m = Some g' /\ cinv (glayers g') (gitems g') /\ oldest_says key g' = Some i /\ iv i = v /\ ip i = p.
Proof.
  intros r fuel st m g key cv cond st' v p E C LK NE H Hr. destruct fuel as [|fuel]; [discriminate|]. cbn [get] in H. rewrite E in H.
  assert (SK : skip_of g (Some O) = version g) by (unfold skip_of; lia). rewrite SK, NE in H.
  destruct (N.eqb_spec (width key) (gks g)) as [W|]; [|discriminate]. cbn [negb] in H.
  assert (SN : skipn (version g) (glayers g) = []) by apply skipn_all.
  pose proof (grel_known r (gcs st) g (version g)) as KK.
  assert (KI : fst (known_items g (version g)) = gitems g) by (unfold known_items; rewrite SN; reflexivity).
  destruct (known_items g (version g)) as [kn g1] eqn:EK. cbn [fst snd] in KK, KI. subst kn.
  assert (G1 : gitems g1 = gitems g /\ gunk g1 = gunk g).
  { unfold known_items in EK. destruct (known_layers _ _) in EK. injection EK as _ <-. auto. }
  destruct G1 as [G1I G1U]. pose proof (proj1 (proj2 (proj2 (proj2 (proj2 KK)))) C) as C1.
  change (gcs (set_map st m g1)) with (gcs st) in H. unfold get_exact_match in H.
  change (find (fun c => bv_eqb key (ik c)) (gitems g ++ [gunk g])) with (fm key (gitems g ++ [gunk g])) in H.
  destruct (fm key (gitems g ++ [gunk g])) as [i|] eqn:F.
  { injection H as <- <- <-. exists g1, i. cbn [set_map gmaps]. rewrite N.eqb_refl. split; [reflexivity|]. split; [exact C1|].
    split; [unfold oldest_says; rewrite G1I, G1U; exact F|auto]. }
  rewrite (literal_const _ LK) in H. cbn [negb] in H.
  match type of H with bindr ?x _ = _ => destruct x as [[st4 invs]| |] eqn:EI; try discriminate H end. cbn [bindr] in H.
  destruct (is_not_overfull s k st4 m (version g)) as [st5 fits] eqn:EO. injection H as <- <- <-.
  pose proof (overfull_rel s k st4 m (version g)) as SO. rewrite EO in SO. cbn [fst] in SO.
  apply inv_calls_rel in EI; [|intros; eapply (proj2 (em_rel _ _ _ (get_rel s k SOK fuel))); eauto].
  cbn [add_cs gcs] in Hr. apply holds_app in Hr as [Hr _].
  pose proof (rel_trans _ _ _ EI SO) as R.
  set (it := mkItem key (BVS (gvs g) (gnext (set_map st m g1))) (BoolS (gnext (set_map st m g1)))) in *.
  destruct (cgrows _ _ it C1) as (tl & _ & C2).
  eapply (oldest_stable r _ _ m _ key it) in R; [|exact Hr|cbn [set_map gmaps]; rewrite N.eqb_refl; reflexivity|exact C2|].
  - destruct R as (g' & E' & F' & C' & _). exists g', it. split; [exact E'|]. split; [exact C'|]. split; [exact F'|]. split; reflexivity.
  - unfold oldest_says. cbn [add_item gitems gunk]. rewrite G1I, G1U, <- app_assoc. rewrite fm_app in F |- *. destruct (fm key (gitems g)); [discriminate|].
    cbn [app]. unfold fm. cbn [find ik it]. rewrite (proj2 (bv_eqb_eq _ _) eq_refl). reflexivity.
Qed.

(** ** What the comparison looks at *)
Lemma in_oldest_call : forall fuel st m ks vs a st' c, inv_call s k fuel st ks vs (in_oldest m ks vs) a BTrue = Ok (st', c) ->
  exists v0 p0, get s k fuel st m (ik a) (Some (iv a)) (BAnd (ip a) BTrue) (Some O) = Ok (st', (v0, p0)) /\
    c = BOr (BNot (ip a)) (BAnd p0 (BEq v0 (iv a))).
Proof.
  intros fuel st m ks vs a st' c H. unfold inv_call, in_oldest, BImp, PRESENT, KEY, VALUE in H. cbn [emb emv item_subst sv sb] in H.
  rewrite !N.eqb_refl in H. cbn [andb bindr] in H. replace (1 =? 0) with false in H by reflexivity. cbn [andb bindr] in H.
  match type of H with bindr (bindr ?x _) _ = _ => destruct x as [[st3 [v0 p0]]| |] eqn:G; try discriminate H end.
  cbn [bindr fst snd] in H. injection H as <- <-. eauto.
Qed.
Lemma inv_items_each : forall fuel ks vs inv items st st' cs, inv_items s k fuel st ks vs inv items = Ok (st', cs) ->
  forall a, In a items -> exists sta stb c, rel st sta /\ inv_call s k fuel sta ks vs inv a BTrue = Ok (stb, c) /\ rel stb st' /\ In c cs.
Proof.
  intros fuel ks vs inv items. induction items as [|i items IH]; intros st st' cs H a Ha; [destruct Ha|]. cbn [inv_items] in H.
  destruct (inv_call s k fuel st ks vs inv i BTrue) as [[st1 c]| |] eqn:E; try discriminate H. cbn [bindr] in H.
  destruct (inv_items s k fuel st1 ks vs inv items) as [[st2 cs2]| |] eqn:E2; try discriminate H. injection H as <- <-. destruct Ha as [->|Ha].
  - exists st, st1, c. split; [apply rel_refl|]. split; [exact E|]. split; [eapply inv_items_rel; eauto|left; reflexivity].
  - destruct (IH _ _ _ E2 a Ha) as (sta & stb & c' & R1 & CC & R2 & I2). exists sta, stb, c'.
    split; [eapply rel_trans; [eapply inv_call_rel; eauto|exact R1]|]. split; [exact CC|]. split; [exact R2|right; exact I2].
Qed.
Lemma BAndL_in : forall r l c, eb r (BAndL l) = true -> In c l -> eb r c = true.
Proof.
  intros r l c. induction l as [|x l IH]; intros H I; [destruct I|]. cbn in H. apply andb_prop in H as [H1 H2]. destruct I as [->|I]; auto.
Qed.

Lemma lay_len : forall g g', lay g g' -> glen g' = glen g -> len_at g' 0 = len_at g 0.
Proof.
  intros g g' H E. unfold len_at. cbn [skipn]. unfold lay in H. destruct H as [|a b l l' [_ Q] H]; [exact E|auto].
Qed.
(** Reading the newest version and then the oldest, at a constant key that no layer has: the answers are the same. *)
Lemma untouched_key : forall r fuel st m g key st1 v p st2 v0 p0, all_ok st -> gmaps st m = Some g -> cinv (glayers g) (gitems g) -> const_layers g ->
  literal key -> is_definitely_empty g (version g) = false -> (forall L i, In L (glayers g) -> In i (litems L) -> ik i <> key) ->
  get s k fuel st m key None BTrue None = Ok (st1, (v, p)) -> get s k fuel st1 m key None BTrue (Some O) = Ok (st2, (v0, p0)) ->
  holds r (gcs st2) -> eb r p = true -> val r (mkItem key v p) = val r (mkItem key v0 p0).
Proof.
  intros r fuel st m g key st1 v p st2 v0 p0 A E C CL LK NE NL G1 G2 Hr P.
  pose proof (get_rel s k SOK _ _ _ _ _ _ _ _ _ G1) as R1. pose proof (get_rel s k SOK _ _ _ _ _ _ _ _ _ G2) as R2.
  pose proof (holds_incl _ _ _ (proj1 R2) Hr) as H1.
  destruct (relr_get _ _ _ _ _ (proj2 R1 r H1) E) as (g1 & E1 & _ & _ & GL1 & _ & CI1 & _). specialize (CI1 C).
  assert (NE1 : is_definitely_empty g1 (version g1) = false).
  { unfold is_definitely_empty, len_at, version in *. rewrite skipn_all in *. rewrite GL1. exact NE. }
  destruct (oldest_read r _ _ _ _ _ _ _ _ _ _ E1 CI1 LK NE1 G2 Hr) as (g2 & j & E2 & C2 & F2 & <- & <-).
  assert (STAB : forall i, oldest_says key g1 = Some i -> i = j).
  { intros i F1. destruct (oldest_stable r _ _ _ _ _ _ R2 Hr E1 CI1 F1) as (g2' & E2' & F2' & _). congruence. }
  assert (WK : is_definitely_empty g 0 = false -> width key = gks g).
  { intros NE0. destruct fuel as [|fuel]; [discriminate|]. cbn [get skip_of] in G1. rewrite E, NE0 in G1.
    destruct (N.eqb_spec (width key) (gks g)) as [W|]; [exact W|discriminate]. }
  destruct (is_definitely_empty g 0) eqn:NE0.
  { destruct fuel as [|fuel]; [discriminate|]. cbn [get skip_of] in G1. rewrite E, NE0 in G1. injection G1 as <- <- <-. discriminate. }
  specialize (WK eq_refl). destruct (A _ _ E) as [FI SZ].
  assert (LB : forall gx, glayers gx = glayers g -> look r key (glayers gx) (gitems gx) = option_map (val r) (fm key (gitems gx))).
  { intros gx ->. apply (look_bare r key (gks g)); auto. intros L i HL Hi. split; [exact (CL L i HL Hi)|]. split; [|exact (NL L i HL Hi)].
    clear - FI HL Hi. revert FI. generalize (gitems g). induction (glayers g) as [|L' ls IH]; intros base FI; [destruct HL|]. destruct FI as [F OK]. destruct HL as [->|HL]; [|eauto].
    destruct OK as (_ & _ & SZ & _). rewrite Forall_forall in SZ. apply (SZ i Hi). }
  pose proof (LB g eq_refl) as L0. destruct (fm key (gitems g)) as [i|] eqn:F0.
  - (* the key was known before *)
    pose proof (get_says s k _ _ _ _ r _ _ _ _ _ _ _ A E LK NE0 L0 G1) as Q. unfold val at 1. cbn [iv ip]. rewrite Q. cbn [option_map].
    assert (F1 : oldest_says key g = Some i) by (unfold oldest_says; rewrite fm_app, F0; reflexivity).
    destruct (oldest_stable r _ _ _ _ _ _ R1 H1 E C F1) as (g1' & E1' & F1' & _). rewrite E1 in E1'. injection E1' as <-. rewrite (STAB i F1'). reflexivity.
  - (* it is new *)
    cbn [option_map] in L0. destruct fuel as [|fuel]; [discriminate|]. cbn [get skip_of] in G1. rewrite E, NE0, WK, N.eqb_refl in G1. cbn [negb] in G1.
    pose proof (look_known _ _ r key _ _ LK WK FI SZ) as LKN. rewrite L0 in LKN. unfold known_items in G1. cbn [skipn firstn app] in G1. unfold K in LKN.
    pose proof (grel_known r (gcs st) g 0) as KK. unfold known_items in KK. cbn [skipn firstn app] in KK.
    destruct (known_layers (glayers g) (gitems g)) as [kn ls'] eqn:EKL. cbn [fst snd] in LKN, KK. destruct (fm key kn) as [i|] eqn:FK; [discriminate|].
    pose proof (proj1 (proj2 (proj2 (proj2 (proj2 KK)))) C) as C1.
    unfold get_exact_match in G1. change (find (fun c => bv_eqb key (ik c)) (kn ++ [gunk g])) with (fm key (kn ++ [gunk g])) in G1. rewrite fm_app, FK in G1.
    destruct (fm key [gunk g]) as [i|] eqn:FU.
    + injection G1 as <- <- <-. unfold val. cbn [iv ip]. rewrite (STAB i); [reflexivity|].
      cbn [set_map gmaps] in E1. rewrite N.eqb_refl in E1. injection E1 as <-. unfold oldest_says. cbn [set_layers gitems gunk]. rewrite fm_app, F0. exact FU.
    + rewrite (literal_const _ LK) in G1. cbn [negb] in G1.
      match type of G1 with bindr ?x _ = _ => destruct x as [[st4 invs]| |] eqn:EI; try discriminate G1 end. cbn [bindr] in G1.
      destruct (is_not_overfull s k st4 m 0) as [st5 fits] eqn:EO. injection G1 as <- <- <-.
      pose proof (overfull_rel s k st4 m 0) as SO. rewrite EO in SO. cbn [fst] in SO.
      apply inv_calls_rel in EI; [|intros; eapply (proj2 (em_rel _ _ _ (get_rel s k SOK fuel))); eauto].
      cbn [add_cs gcs] in H1. apply holds_app in H1 as [H1 _].
      pose proof (rel_trans _ _ _ EI SO) as R.
      set (g1' := set_layers g ls') in *.
      set (it := mkItem key (BVS (gvs g) (gnext (set_map st m g1'))) (BoolS (gnext (set_map st m g1')))) in *.
      destruct (cgrows _ _ it C1) as (tl & _ & C3).
      eapply (oldest_stable r _ _ m _ key it) in R; [|exact H1|cbn [set_map gmaps]; rewrite N.eqb_refl; reflexivity|exact C3|].
      * destruct R as (g' & E' & F' & _). cbn [add_cs gmaps] in E1. rewrite E1 in E'. injection E' as <-. rewrite <- (STAB it F'). reflexivity.
      * unfold oldest_says. cbn [add_item gitems gunk g1' set_layers]. rewrite <- app_assoc, fm_app, F0.
        cbn [app]. unfold fm. cbn [find ik it]. rewrite (proj2 (bv_eqb_eq _ _) eq_refl). reflexivity.
Qed.

Lemma only_unchanged : forall fuel nin sz os st m g st1 t key st2 v p st3 v0 p0 r,
  steps s k fuel (ginit nin sz) os st -> const_writes m os -> gmaps st m = Some g -> is_definitely_empty g (version g) = false ->
  data_eq s k fuel st m = Ok (st1, t) -> literal key ->
  get s k fuel st1 m key None BTrue None = Ok (st2, (v, p)) -> get s k fuel st2 m key None BTrue (Some O) = Ok (st3, (v0, p0)) ->
  holds r (gcs st3) -> eb r t = true -> eb r p = true -> eb r p0 = true /\ ev r v0 = ev r v.
Proof.
  intros fuel nin sz os st m g st1 t key st2 v p st3 v0 p0 r ST CW E NE D LK G1 G2 Hr T P.
  destruct (data_eq_keeps _ _ _ _ _ D) as (RD & SD & LD).
  pose proof (get_rel s k SOK _ _ _ _ _ _ _ _ _ G1) as R1. pose proof (get_rel s k SOK _ _ _ _ _ _ _ _ _ G2) as R2.
  pose proof (holds_incl _ _ _ (proj1 R2) Hr) as H2. pose proof (holds_incl _ _ _ (proj1 R1) H2) as H1. pose proof (holds_incl _ _ _ (proj1 RD) H1) as H0.
  destruct (all_fresh s k SOK _ _ _ _ _ ST r m g H0 E) as (C & _ & _).
  destruct (steps_ok s k _ _ _ _ ST (init_ok nin sz)) as [A _]. pose proof (skept_ok _ _ SD A) as A1.
  pose proof (steps_const _ _ _ _ m ST CW ltac:(intros g0 E0; discriminate E0)) as CL. specialize (CL g E).
  destruct (relr_get _ _ _ _ _ (proj2 RD r H1) E) as (g1 & E1 & KS1 & U1 & GL1 & _ & CI1 & _). specialize (CI1 C).
  pose proof (const_lay _ _ m LD ltac:(intros g0 E0; rewrite E in E0; injection E0 as <-; exact CL) g1 E1) as CL1.
  assert (L1 : lay g g1) by (specialize (LD m); rewrite E, E1 in LD; exact LD).
  assert (NE1 : is_definitely_empty g1 (version g1) = false).
  { unfold is_definitely_empty, len_at, version in *. rewrite skipn_all in *. rewrite GL1. exact NE. }
  enough (Q : val r (mkItem key v p) = val r (mkItem key v0 p0)) by (unfold val in Q; cbn [iv ip] in Q; injection Q as Q1 Q2; split; congruence).
  destruct (fm key (flat_map litems (glayers g))) as [i|] eqn:FM.
  2:{ eapply (untouched_key r fuel st1 m g1); eauto. intros L i HL Hi. destruct (layers_in _ _ L1 L i HL Hi) as (L' & HL' & Hi').
      apply (fm_none _ _ FM i). apply in_flat_map. exists L'. auto. }
  apply fm_some in FM as [FM KI]. apply in_flat_map in FM as (L & HL & Hi).
  assert (LE : len_at g1 0 = len_at g 0) by (apply lay_len; auto).
  destruct (is_definitely_empty g 0) eqn:NE0.
  { exfalso. destruct fuel as [|fuel]; [discriminate|]. cbn [get skip_of] in G1. rewrite E1 in G1. unfold is_definitely_empty in *. rewrite LE, NE0 in G1. injection G1 as <- <- <-. discriminate. }
  assert (NE10 : is_definitely_empty g1 0 = false) by (unfold is_definitely_empty in *; rewrite LE; exact NE0).
  assert (WK : width key = gks g).
  { destruct fuel as [|fuel]; [discriminate|]. cbn [get skip_of] in G1. rewrite E1, NE10 in G1.
    destruct (N.eqb_spec (width key) (gks g1)) as [W|]; [congruence|discriminate]. }
  destruct (A _ _ E) as [FI SZ]. pose proof (look_known _ _ r key _ _ LK WK FI SZ) as LKN.
  destruct (look_in r key L i (glayers g) (gitems g) HL Hi KI) as [x LX]. rewrite LX in LKN.
  destruct (skept_says _ _ _ _ r key x SD A E LK LX) as (g1' & E1' & _ & _ & S1). rewrite E1 in E1'. injection E1' as <-.
  pose proof (get_says s k _ _ _ _ r _ _ _ _ _ _ _ A1 E1 LK NE10 S1 G1) as Q1.
  unfold data_eq in D. rewrite E, NE0 in D. unfold known_items in D. cbn [skipn firstn app] in D. unfold K in LKN.
  destruct (known_layers (glayers g) (gitems g)) as [kn ls'] eqn:EKL. cbn [fst] in LKN. destruct (fm key kn) as [a|] eqn:FA; [|discriminate]. cbn [option_map] in LKN. injection LKN as LKN.
  assert (RK : rel st (set_map st m (set_layers g ls'))).
  { apply (rel_set st m g); [exact E|]. intros r'. pose proof (grel_known r' (gcs st) g 0) as KK. unfold known_items in KK. cbn [skipn firstn app] in KK. rewrite EKL in KK. exact KK. }
  destruct (inv_items _ _ _ _ _ _ _ _) as [[sa rs]| |] eqn:EI; try discriminate D. cbn [bindr] in D.
  pose proof (overfull_rel s k sa m 0) as SO. destruct (is_not_overfull s k sa m 0) as [sb fits]. cbn [fst] in SO.
  destruct (inv_call _ _ _ _ _ _ _ _ _) as [[sc u]| |] eqn:EC; try discriminate D. cbn [bindr] in D.
  destruct (add_inv _ _ _ _ _ _) as [sd| |] eqn:EA; try discriminate D. injection D as <- <-.
  apply (inv_call_rel s k SOK) in EC. pose proof (add_inv_rel s k SOK _ _ _ _ _ EA) as RA.
  cbn in T. apply andb_prop in T as [_ T].
  pose proof (holds_incl _ _ _ (proj1 RA) H1) as H5. cbn [add_cs gcs bump] in H5. apply holds_app in H5 as [H4 H5].
  assert (TR : eb r (BAndL rs) = true).
  { specialize (H5 _ (or_introl eq_refl)). cbn [evalb] in H5. rewrite T in H5. apply eqb_prop in H5. symmetry in H5. apply andb_prop in H5 as [H5 _]. exact H5. }
  pose proof (fm_some _ _ _ FA) as [IA KA].
  destruct (inv_items_each _ _ _ _ _ _ _ _ EI a IA) as (sta & stb & c & RS1 & CC & RS2 & IC).
  apply in_oldest_call in CC as (v0' & p0' & GO & ->).
  pose proof (BAndL_in _ _ _ TR IC) as TC. cbn in TC.
  assert (RB : rel stb sd).
  { eapply rel_trans; [exact RS2|]. eapply rel_trans; [exact SO|]. eapply rel_trans; [exact EC|]. eapply rel_trans; [|exact RA].
    apply rel_maps; [cbn; apply incl_appl, incl_refl|reflexivity]. }
  pose proof (holds_incl _ _ _ (proj1 RB) H1) as HB. pose proof (get_rel s k SOK _ _ _ _ _ _ _ _ _ GO) as RO. pose proof (holds_incl _ _ _ (proj1 RO) HB) as HA.
  destruct (relr_get _ _ _ _ _ (proj2 (rel_trans _ _ _ RK RS1) r HA) E) as (ga & EGA & _ & _ & GLa & _ & CIa & _). specialize (CIa C).
  assert (NEa : is_definitely_empty ga (version ga) = false).
  { unfold is_definitely_empty, len_at, version in *. rewrite skipn_all in *. rewrite GLa. exact NE. }
  rewrite KA in GO. destruct (oldest_read r _ _ _ _ _ _ _ _ _ _ EGA CIa LK NEa GO HB) as (gb & j & EB & CB & FB & <- & <-).
  (* the later read of the oldest version finds the same item *)
  destruct (relr_get _ _ _ _ _ (proj2 R1 r H2) E1) as (g2 & E2 & _ & _ & GL2 & _ & CI2 & _). specialize (CI2 CI1).
  assert (NE2 : is_definitely_empty g2 (version g2) = false).
  { unfold is_definitely_empty, len_at, version in *. rewrite skipn_all in *. rewrite GL2. exact NE1. }
  destruct (oldest_read r _ _ _ _ _ _ _ _ _ _ E2 CI2 LK NE2 G2 Hr) as (g3 & j' & E3 & C3 & F3 & <- & <-).
  destruct (oldest_stable r _ _ _ _ _ _ (rel_trans _ _ _ (rel_trans _ _ _ RB R1) R2) Hr EB CB FB) as (g3' & E3' & F3' & _).
  rewrite E3 in E3'. injection E3' as <-. rewrite F3 in F3'. injection F3' as ->.
  unfold val in *. cbn [iv ip]. rewrite Q1, <- LKN. rewrite <- LKN in Q1. injection Q1 as Q1 Q2. rewrite Q2 in P. rewrite P in TC |- *. cbn in TC.
  apply andb_prop in TC as [TC1 TC2]. apply N.eqb_eq in TC2. rewrite TC1, TC2. reflexivity.
Qed.

(** ** A packet that was not written to *)
Lemma oldest_call : forall fuel st m g a st' c, gmaps st m = Some g -> glayers g = [] -> is_definitely_empty g 0 = false -> In a (gitems g ++ [gunk g]) ->
  inv_call s k fuel st (gks g) (gvs g) (in_oldest m (gks g) (gvs g)) a BTrue = Ok (st', c) ->
  gcs st' = gcs st /\ gnext st' = gnext st /\ gmaps st' m = Some g /\ forall r, holds r (gcs st) -> paired r g -> eb r c = true.
Proof.
  intros fuel st m g a st' c E GL NE IA H. apply in_oldest_call in H as (v0 & p0 & G & ->).
  destruct fuel as [|fuel]; [discriminate|]. cbn [get] in G. rewrite E in G.
  assert (SK : skip_of g (Some O) = O) by (unfold skip_of, version; rewrite GL; reflexivity). rewrite SK, NE in G.
  destruct (N.eqb_spec (width (ik a)) (gks g)) as [W|]; [|discriminate]. cbn [negb] in G.
  assert (KI : known_items g 0 = (gitems g, g)).
  { unfold known_items. rewrite GL. cbn [skipn known_layers firstn app]. f_equal. destruct g. cbn in *. subst. reflexivity. }
  rewrite KI in G. change (gcs (set_map st m g)) with (gcs st) in G.
  destruct (get_exact_match s (gcs st) (ik a) (gitems g ++ [gunk g]) (BAnd (ip a) BTrue) ik) as [i|] eqn:GE.
  - injection G as <- <- <-. cbn [set_map gcs gnext gmaps]. rewrite N.eqb_refl. split; [reflexivity|]. split; [reflexivity|]. split; [reflexivity|].
    intros r Hr PR. destruct (get_exact_match_sound s SOK _ _ _ _ _ _ _ GE) as [II EQ]. cbn. destruct (eb r (ip a)) eqn:PA; [|reflexivity]. cbn.
    assert (V : val r i = val r a) by (apply PR; auto; symmetry; apply EQ; [exact Hr|cbn; rewrite PA; reflexivity]).
    unfold val in V. injection V as V1 V2. rewrite V2, V1, PA, N.eqb_refl. reflexivity.
  - exfalso. unfold get_exact_match in GE. destruct (find (fun c => bv_eqb (ik a) (ik c)) (gitems g ++ [gunk g])) eqn:F; [discriminate|].
    eapply find_none in F; [|exact IA]. cbn in F. rewrite (proj2 (bv_eqb_eq _ _) eq_refl) in F. discriminate.
Qed.
Lemma oldest_calls : forall fuel m g, glayers g = [] -> is_definitely_empty g 0 = false ->
  forall items st st' cs, gmaps st m = Some g -> incl items (gitems g) ->
  inv_items s k fuel st (gks g) (gvs g) (in_oldest m (gks g) (gvs g)) items = Ok (st', cs) ->
  gcs st' = gcs st /\ gnext st' = gnext st /\ gmaps st' m = Some g /\ forall r, holds r (gcs st) -> paired r g -> eb r (BAndL cs) = true.
Proof.
  intros fuel m g GL NE. induction items as [|i items IH]; intros st st' cs E I H; cbn [inv_items] in H.
  - injection H as <- <-. repeat split; auto.
  - destruct (inv_call s k fuel st _ _ _ i BTrue) as [[st1 c]| |] eqn:E1; try discriminate H. cbn [bindr] in H.
    destruct (inv_items s k fuel st1 _ _ _ items) as [[st2 cs2]| |] eqn:E2; try discriminate H. injection H as <- <-.
    destruct (oldest_call _ _ _ _ _ _ _ E GL NE (in_or_app _ _ _ (or_introl (I i (or_introl eq_refl)))) E1) as (A1 & A2 & A3 & A4).
    destruct (IH _ _ _ A3 (fun x Hx => I x (or_intror Hx)) E2) as (B1 & B2 & B3 & B4).
    split; [congruence|]. split; [congruence|]. split; [exact B3|]. intros r Hr PR. cbn. rewrite (A4 r Hr PR). rewrite A1 in B4. exact (B4 r Hr PR).
Qed.
Lemma unwritten_equal : forall fuel nin sz os st m g st1 t,
  steps s k fuel (ginit nin sz) os st -> gmaps st m = Some g -> glayers g = [] -> data_eq s k fuel st m = Ok (st1, t) ->
  (forall r, holds r (gcs st1) -> eb r t = true) /\
  exists cs, gcs st1 = gcs st ++ cs /\ forall r, holds r (gcs st) -> ebool r (gnext st) = true -> holds r cs.
Proof.
  intros fuel nin sz os st m g st1 t ST E GL D. unfold data_eq in D. rewrite E in D.
  assert (LN : len_at g 0 = glen g) by (unfold len_at; rewrite GL; reflexivity).
  destruct (is_definitely_empty g 0) eqn:NE.
  { injection D as <- <-. rewrite LN. split; [intros r _; cbn; rewrite N.eqb_refl; reflexivity|]. exists []. split; [rewrite app_nil_r; reflexivity|]. intros r _ _ c []. }
  assert (KI : known_items g 0 = (gitems g, g)).
  { unfold known_items. rewrite GL. cbn [skipn known_layers firstn app]. f_equal. destruct g. cbn in *. subst. reflexivity. }
  rewrite KI in D. destruct (inv_items _ _ _ _ _ _ _ _) as [[sa rs]| |] eqn:EI; try discriminate D. cbn [bindr] in D.
  apply (oldest_calls fuel m g GL NE) in EI as (A1 & A2 & A3 & A4); [|cbn [set_map gmaps]; rewrite N.eqb_refl; reflexivity|apply incl_refl].
  cbn [set_map gcs gnext] in A1, A2, A4.
  destruct (is_not_overfull s k sa m 0) as [sb fits] eqn:EO.
  assert (SB : gcs sb = gcs st /\ gnext sb = gnext st /\ gmaps sb m = Some g).
  { unfold is_not_overfull in EO. rewrite A3, KI in EO. destruct (definitely_true _ _ _) in EO; injection EO as <- _; cbn [set_map gcs gnext gmaps]; rewrite N.eqb_refl; auto. }
  destruct SB as (B1 & B2 & B3).
  assert (UI : In (gunk g) (gitems g ++ [gunk g])) by (apply in_or_app; right; left; reflexivity).
  destruct (inv_call _ _ _ _ _ _ _ _ _) as [[sc u]| |] eqn:EC; try discriminate D. cbn [bindr] in D.
  destruct (oldest_call _ _ _ _ _ _ _ B3 GL NE UI EC) as (C1 & C2 & C3 & C4).
  rewrite C2, B2 in D.
  destruct (add_inv _ _ _ _ _ _) as [sd| |] eqn:EA; try discriminate D. injection D as <- <-.
  unfold add_inv in EA. cbn [add_cs bump gmaps] in EA. rewrite C3 in EA.
  destruct (inv_call s k fuel _ (gks g) (gvs g) (BImp (BoolS (gnext st)) (in_oldest m (gks g) (gvs g))) (gunk g) BTrue) as [[se c]| |] eqn:EF; try discriminate EA. cbn [bindr] in EA.
  unfold inv_call, BImp in EF. cbn [emb] in EF.
  match type of EF with bindr ?x _ = _ => destruct x as [[sf nb]| |] eqn:EN; try discriminate EF end. cbn [bindr] in EN.
  injection EN as <- <-. cbn [bindr] in EF.
  match type of EF with bindr ?x _ = _ => destruct x as [[sg ub]| |] eqn:EG; try discriminate EF end. cbn [bindr] in EF. injection EF as <- <-.
  change (inv_call s k fuel (add_cs (bump sc 1) [BIff (BoolS (gnext st)) (BAnd (BAndL rs) (BImp fits (BImp (BAndL (map (fun i => BNe (ik (gunk g)) (ik i)) (gitems g))) u)))]) (gks g) (gvs g) (in_oldest m (gks g) (gvs g)) (gunk g) BTrue = Ok (sg, ub)) in EG.
  apply oldest_call in EG as (G1 & G2 & G3 & G4); [|exact C3|exact GL|exact NE|exact UI].
  rewrite G3 in EA. injection EA as <-. cbn [set_map add_cs gcs bump] in *. rewrite G1, C1, B1, <- app_assoc.
  assert (TR : forall r, holds r (gcs st) -> eb r (BAnd (BAndL rs) (BImp fits (BImp (BAndL (map (fun i => BNe (ik (gunk g)) (ik i)) (gitems g))) u))) = true).
  { intros r Hr. destruct (all_fresh s k SOK _ _ _ _ _ ST r m g Hr E) as (_ & _ & PR). specialize (PR GL). unfold BImp. cbn. rewrite (A4 r Hr PR). rewrite B1 in C4. rewrite (C4 r Hr PR), !orb_true_r. reflexivity. }
  split.
  - intros r Hr. apply holds_app in Hr as [H0 H1]. rewrite LN. cbn. rewrite N.eqb_refl. cbn.
    specialize (H1 _ (or_introl eq_refl)). cbn [evalb] in H1. apply eqb_prop in H1. cbn [evalb] in H1. rewrite H1. exact (TR r H0).
  - eexists. split; [reflexivity|]. intros r Hr B c [<-|[<-|[]]].
    + cbn [evalb]. rewrite B. change (Bool.eqb true (eb r (BAnd (BAndL rs) (BImp fits (BImp (BAndL (map (fun i => BNe (ik (gunk g)) (ik i)) (gitems g))) u)))) = true). rewrite (TR r Hr). reflexivity.
    + destruct (all_fresh s k SOK _ _ _ _ _ ST r m g Hr E) as (_ & _ & PR). specialize (PR GL).
      change (eb r (BOr (BNot (Expr.sb (item_subst (gks g) (gvs g) (gunk g)) (gnext st))) ub) = true). cbn [evalb]. rewrite (G4 r); [apply orb_true_r| |exact PR].
      rewrite C1, B1. intros c Hc. apply in_app_or in Hc as [Hc|[<-|[]]]; [exact (Hr c Hc)|].
      cbn [evalb]. rewrite B. change (Bool.eqb true (eb r (BAnd (BAndL rs) (BImp fits (BImp (BAndL (map (fun i => BNe (ik (gunk g)) (ik i)) (gitems g))) u)))) = true). rewrite (TR r Hr). reflexivity.
Qed.
End Main.
