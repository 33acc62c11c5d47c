(** * Constant keys and folded layers

    Several writes of constants share a layer (ghostmaps.py 421-434), whose cache of
    older items is then stale. Facts about reads of constant keys that hold
    nevertheless: on the map of the newest write for a key, and on any history of map
    operations, nested lookups included. *)

From Coq Require Import NArith List Bool Lia Arith.
From Verif Require Import Expr Solver KMerge Wt GhostMap GhostSpec GhostFacts.
Import ListNotations.
Open Scope N_scope.

(** ** Specification *)

(** claripy folds operations on constants, so that a bit-vector without symbols is a
    literal in its range. *)
Definition literal (e : bv) : Prop := exists w v, e = BVV w v /\ v < 2 ^ w.
Definition folded_key (e : bv) : Prop := symbolic e = false -> literal e.

Section Steps.
Variable s : solver.
Variable k : claripy.
Variable fuel : nat.

(** Any operation on maps, with any arguments of the right sizes. *)
Inductive act : Type :=
| ANew (m : N) | AGet (m : N) (key : bv) | ASet (m : N) (key value : bv) | ARemove (m : N) (key : bv)
| AForall (m : N) | AAssume.
Inductive step : gst -> act -> gst -> Prop :=
| s_new : forall st m ks vs spec st', gmaps st m = None ->
    map_new s k fuel st m ks vs spec = Ok st' -> step st (ANew m) st'
| s_get : forall st m key cval cond ver st' vp,
    get s k fuel st m key cval cond ver = Ok (st', vp) -> step st (AGet m key) st'
| s_set : forall st m g key value st',
    gmaps st m = Some g -> width key = gks g -> width value = gvs g -> folded_key key ->
    set_ s k fuel st m key value = Ok st' -> step st (ASet m key value) st'
| s_remove : forall st m g key st',
    gmaps st m = Some g -> width key = gks g -> folded_key key ->
    remove s k fuel st m key = Ok st' -> step st (ARemove m key) st'
| s_forall : forall st m pred st' b,
    forall_ s k fuel st m pred = Ok (st', b) -> step st (AForall m) st'
| s_assume : forall st c, step st AAssume (add_cs st [c]).
Inductive steps : gst -> list act -> gst -> Prop :=
| steps_nil : forall st, steps st [] st
| steps_cons : forall st o st1 os st2, step st o st1 -> steps st1 os st2 -> steps st (o :: os) st2.

(** No operation writes or removes key [q] of map [m]. *)
Definition spared (r : env) (m q : N) (os : list act) : Prop := forall o, In o os ->
  match o with ASet m' key _ | ARemove m' key => m' = m -> ev r key <> q | _ => True end.
End Steps.

(** ** First match of a literal *)

Definition fm (key : bv) (items : list item) : option item := find (fun i => bv_eqb key (ik i)) items.
Definition K (ls : list layer) (base : list item) : list item := fst (known_layers ls base).
(** What layer [L] says about [key], if [x] is what the layers below say. *)
Definition sem (r : env) (key : bv) (L : layer) (x : N * bool) : N * bool :=
  match find (fun j => ev r (ik j) =? ev r key) (litems L) with Some j => val r j | None => x end.

Definition distinct (items : list item) : Prop :=
  length items = 1%nat \/ (Forall (fun j => literal (ik j)) items /\ NoDup (map ik items)).

Section Inv.
Variables ks vs : N.

Definition layer_ok (L : layer) (prev : list item) : Prop :=
  distinct (litems L) /\ Forall (fun j => folded_key (ik j)) (litems L) /\
  Forall (sized ks vs) (litems L) /\ Forall (sized ks vs) (snd (lcache L)) /\
  (fst (lcache L) <= length prev)%nat /\
  forall r key, literal key -> width key = ks -> fm key (litems L) = None ->
    option_map (val r) (fm key (snd (lcache L))) =
    option_map (fun i => sem r key L (val r i)) (fm key (firstn (fst (lcache L)) prev)).
Fixpoint finv (ls : list layer) (base : list item) : Prop :=
  match ls with
  | [] => True
  | L :: rest => finv rest base /\ layer_ok L (K rest base)
  end.

Lemma literal_inj : forall r a b, literal a -> literal b -> width a = width b -> ev r a = ev r b -> a = b.
Proof.
  intros r a b [w [v [-> Hv]]] [w' [v' [-> Hv']]] W E. cbn [width] in W. subst w'.
  cbn [evalv] in E. rewrite !wrap_small in E by assumption. subst. reflexivity.
Qed.
Lemma literal_const : forall e, literal e -> symbolic e = false.
Proof. intros e [w [v [-> _]]]. reflexivity. Qed.

Lemma fm_app : forall key a b, fm key (a ++ b) = match fm key a with Some i => Some i | None => fm key b end.
Proof. intros. unfold fm. induction a as [|x a IH]; cbn; [reflexivity|]. destruct (bv_eqb key (ik x)); auto. Qed.
Lemma fm_split : forall key n l, fm key l =
  match fm key (firstn n l) with Some i => Some i | None => fm key (skipn n l) end.
Proof. intros. rewrite <- fm_app, firstn_skipn. reflexivity. Qed.
Lemma fm_some : forall key l i, fm key l = Some i -> In i l /\ ik i = key.
Proof. intros key l i H. apply find_some in H as [H E]. apply bv_eqb_eq in E. auto. Qed.
Lemma fm_none : forall key l, fm key l = None -> forall i, In i l -> ik i <> key.
Proof. intros key l H i Hi E. eapply find_none in H; [|exact Hi]. apply bv_eqb_neq in H. congruence. Qed.

Lemma fm_transform : forall key kis items, fm key kis = None ->
  fm key (transform_previous kis items) = option_map (transform1 kis) (fm key items).
Proof.
  intros key kis items H. unfold transform_previous, fm.
  induction items as [|i items IH]; cbn; [reflexivity|].
  destruct (bv_eqb key (ik i)) eqn:E.
  - apply bv_eqb_eq in E. assert (NO : not_own kis i = true).
    { apply forallb_forall. intros ki Hi. apply negb_true_iff, bv_eqb_neq.
      intros E'. apply (fm_none _ _ H ki Hi). congruence. }
    rewrite NO. cbn. rewrite E, (proj2 (bv_eqb_eq _ _) eq_refl). reflexivity.
  - destruct (not_own kis i); [|exact IH]. cbn. rewrite E. exact IH.
Qed.

Lemma transform_sized : forall kis items, Forall (sized ks vs) kis -> Forall (sized ks vs) items ->
  Forall (sized ks vs) (transform_previous kis items).
Proof.
  intros kis items F H. apply Forall_forall. intros i Hi. apply in_map_iff in Hi as [j [<- Hi]].
  apply filter_In in Hi as [Hi _]. rewrite Forall_forall in H. apply transform1_sized; auto.
Qed.

Lemma K_cons : forall L rest base, (fst (lcache L) <= length (K rest base))%nat ->
  K (L :: rest) base = litems L ++ snd (lcache L) ++
    transform_previous (litems L) (skipn (fst (lcache L)) (K rest base)).
Proof.
  intros L rest base Hc. unfold K in *. cbn [known_layers].
  destruct (known_layers rest base) as [prev rest']. cbn [fst] in *.
  destruct (lcache L) as [count cached]. cbn [fst snd] in *.
  destruct (Nat.eqb_spec (length prev) count) as [E|E]; cbn [fst snd].
  - subst count. rewrite skipn_all. cbn. rewrite app_nil_r. reflexivity.
  - reflexivity.
Qed.

(** Refreshing the caches changes neither the known items nor what holds of them. *)
Lemma refresh : forall ls base, finv ls base -> Forall (sized ks vs) base ->
  let ls' := snd (known_layers ls base) in
  K ls' base = K ls base /\ finv ls' base /\ Forall2 same_layer ls ls' /\ Forall (sized ks vs) (K ls base).
Proof.
  induction ls as [|L rest IH]; intros base F B; cbn zeta.
  - cbn. auto.
  - destruct F as [F OK]. specialize (IH base F B) as [IK [IF [IS IZ]]].
    destruct OK as [D [FK [SZ [SC [CL CE]]]]].
    pose proof (K_cons L rest base CL) as KC.
    assert (SN : Forall (sized ks vs) (skipn (fst (lcache L)) (K rest base))).
    { apply Forall_forall. intros i Hi. rewrite Forall_forall in IZ. apply IZ. rewrite <- (firstn_skipn (fst (lcache L))).
      apply in_or_app. auto. }
    assert (Z : Forall (sized ks vs) (K (L :: rest) base)).
    { rewrite KC. apply Forall_app. split; [auto|]. apply Forall_app. split; [auto|]. apply transform_sized; auto. }
    destruct (known_layers (L :: rest) base) as [kn ls'] eqn:EK.
    assert (KN : kn = K (L :: rest) base) by (unfold K; rewrite EK; reflexivity).
    cbn [known_layers] in EK. destruct (known_layers rest base) as [prev rest'] eqn:ER.
    assert (EP : prev = K rest base) by (unfold K; rewrite ER; reflexivity). cbn [snd] in *.
    assert (G : ls' = mkLayer (litems L) (llen L)
                 (length prev, snd (lcache L) ++ transform_previous (litems L) (skipn (fst (lcache L)) prev)) :: rest').
    { destruct (lcache L) as [count cached]. cbn [fst snd] in *.
      destruct (Nat.eqb_spec (length prev) count) as [E|E]; injection EK as <- <-; cbn [fst snd].
      - subst count. rewrite skipn_all. cbn. rewrite app_nil_r. reflexivity.
      - reflexivity. }
    rewrite G. split; [|split; [|split; [|exact Z]]].
    + rewrite K_cons; cbn [lcache fst snd litems]; rewrite IK, <- EP; [|lia].
      rewrite skipn_all. cbn [transform_previous filter map]. rewrite app_nil_r, KC, <- EP. reflexivity.
    + cbn [finv]. split; [exact IF|]. unfold layer_ok. cbn [lcache fst snd litems].
      rewrite IK, <- EP. split; [auto|]. split; [auto|]. split; [auto|]. split.
      { apply Forall_app. split; [auto|]. apply transform_sized; [auto|]. rewrite EP. auto. }
      split; [lia|]. intros r key LK WK NO. rewrite firstn_all, fm_app.
      specialize (CE r key LK WK NO). rewrite <- EP in CE.
      rewrite (fm_split key (fst (lcache L)) prev).
      destruct (fm key (snd (lcache L))) as [i|], (fm key (firstn (fst (lcache L)) prev)) as [j|];
        cbn [option_map] in *; try discriminate CE; [exact CE|].
      rewrite fm_transform by auto. destruct (fm key (skipn (fst (lcache L)) prev)) as [i|] eqn:FI; [|reflexivity].
      cbn [option_map]. f_equal. apply fm_some in FI as [FI KI].
      rewrite (transform1_val r ks vs); [|auto|].
      2:{ rewrite Forall_forall in SN. apply SN. rewrite <- EP. auto. }
      unfold sem. cbn [litems]. rewrite KI. reflexivity.
    + constructor; [split; reflexivity|exact IS].
Qed.

(** What the history says of a literal key: [None] if it was never accessed. *)
Fixpoint look (r : env) (key : bv) (ls : list layer) (base : list item) : option (N * bool) :=
  match ls with
  | [] => option_map (val r) (fm key base)
  | L :: rest =>
      match fm key (litems L) with
      | Some i => Some (val r i)
      | None => option_map (sem r key L) (look r key rest base)
      end
  end.

Lemma K_sized : forall ls base, finv ls base -> Forall (sized ks vs) base -> Forall (sized ks vs) (K ls base).
Proof. intros. apply refresh; auto. Qed.

Lemma look_known : forall r key ls base, literal key -> width key = ks ->
  finv ls base -> Forall (sized ks vs) base ->
  option_map (val r) (fm key (K ls base)) = look r key ls base.
Proof.
  intros r key ls base LK WK. induction ls as [|L rest IH]; intros F B; [reflexivity|].
  destruct F as [F OK]. pose proof (K_sized _ _ F B) as SZK. specialize (IH F B).
  destruct OK as [D [FK [SZ [SC [CL CE]]]]]. rewrite K_cons by auto. rewrite fm_app. cbn [look].
  destruct (fm key (litems L)) as [i|] eqn:E; [reflexivity|].
  rewrite fm_app. specialize (CE r key LK WK E). rewrite <- IH.
  rewrite (fm_split key (fst (lcache L)) (K rest base)).
  destruct (fm key (snd (lcache L))) as [i|], (fm key (firstn (fst (lcache L)) (K rest base))) as [j|];
    cbn [option_map] in *; try discriminate CE; [exact CE|].
  rewrite fm_transform by auto.
  destruct (fm key (skipn (fst (lcache L)) (K rest base))) as [i|] eqn:FI; [|reflexivity].
  cbn [option_map]. f_equal. apply fm_some in FI as [FI KI].
  rewrite (transform1_val r ks vs); [|auto|].
  2:{ rewrite Forall_forall in SZK. apply SZK. rewrite <- (firstn_skipn (fst (lcache L))). apply in_or_app. auto. }
  unfold sem. rewrite KI. reflexivity.
Qed.

Lemma look_shape : forall r key ls ls' base, Forall2 same_layer ls ls' -> look r key ls base = look r key ls' base.
Proof.
  intros r key ls ls' base F. induction F as [|a b l l' [E _] F IH]; cbn [look]; [reflexivity|].
  unfold sem. rewrite E, IH. reflexivity.
Qed.
Lemma look_app : forall r key ls base x v, look r key ls base = Some v -> look r key ls (base ++ [x]) = Some v.
Proof.
  intros r key ls base x. induction ls as [|L rest IH]; intros v H; cbn [look] in *.
  - rewrite fm_app. destruct (fm key base); [exact H|discriminate].
  - destruct (fm key (litems L)); [exact H|]. destruct (look r key rest base) as [u|]; [|discriminate].
    rewrite (IH u eq_refl). exact H.
Qed.

(** Adding an item to the oldest version. *)
Lemma known_grows : forall ls base x, finv ls base -> exists t, K ls (base ++ [x]) = K ls base ++ t /\ finv ls (base ++ [x]).
Proof.
  induction ls as [|L rest IH]; intros base x F; [exists [x]; split; [reflexivity|exact I]|].
  destruct F as [F [D [FK [SZ [SC [CL CE]]]]]]. destruct (IH base x F) as [t [Et Ft]].
  assert (CL' : (fst (lcache L) <= length (K rest (base ++ [x])))%nat) by (rewrite Et, app_length; lia).
  rewrite (K_cons L rest base CL), (K_cons L rest (base ++ [x]) CL'), Et, skipn_app.
  replace (fst (lcache L) - length (K rest base))%nat with O by lia.
  cbn [skipn]. rewrite transform_app, !app_assoc. eexists. split; [reflexivity|].
  cbn [finv]. split; [exact Ft|]. unfold layer_ok. rewrite Et.
  split; [auto|]. split; [auto|]. split; [auto|]. split; [auto|]. split; [rewrite app_length; lia|].
  intros r key LK WK NO. rewrite firstn_app. replace (fst (lcache L) - length (K rest base))%nat with O by lia.
  cbn [firstn]. rewrite app_nil_r. auto.
Qed.

(** Replacing the older layers by ones with the same known items. *)
Lemma finv_under : forall up ls ls' base, finv (up ++ ls) base -> finv ls' base -> K ls' base = K ls base ->
  finv (up ++ ls') base /\ K (up ++ ls') base = K (up ++ ls) base.
Proof.
  induction up as [|L up IH]; intros ls ls' base F F' E; [auto|].
  cbn [app] in *. destruct F as [F OK]. destruct (IH _ _ _ F F' E) as [F1 E1].
  cbn [finv]. rewrite E1. split; [auto|].
  destruct OK as [D [FK [SZ [SC [CL CE]]]]]. rewrite !K_cons by (rewrite ?E1; auto). rewrite E1. reflexivity.
Qed.
Lemma finv_suffix : forall up ls base, finv (up ++ ls) base -> finv ls base.
Proof. induction up as [|L up IH]; intros ls base F; [auto|]. apply IH, F. Qed.
End Inv.

Definition mok (g : gmap) : Prop := finv (gks g) (gvs g) (glayers g) (gitems g) /\ Forall (sized (gks g) (gvs g)) (gitems g).
Definition says (r : env) (key : bv) (g : gmap) : option (N * bool) := look r key (glayers g) (gitems g).

(** ** What operations that write nothing do to a map *)

Definition kept (g g' : gmap) : Prop :=
  gks g' = gks g /\ gvs g' = gvs g /\ (mok g -> mok g' /\
    forall r key v, literal key -> says r key g = Some v -> says r key g' = Some v).

Lemma kept_refl : forall g, kept g g.
Proof. intros g. split; [|split]; auto. Qed.
Lemma kept_trans : forall a b c, kept a b -> kept b c -> kept a c.
Proof.
  intros a b c [A1 [A2 A3]] [B1 [B2 B3]]. split; [congruence|]. split; [congruence|].
  intros M. destruct (A3 M) as [M1 S1]. destruct (B3 M1) as [M2 S2]. split; [auto|]. eauto.
Qed.
Lemma kept_known : forall g d, kept g (snd (known_items g d)).
Proof.
  intros g d. unfold known_items.
  destruct (known_layers (skipn d (glayers g)) (gitems g)) as [kn ls'] eqn:E. cbn [snd].
  split; [reflexivity|]. split; [reflexivity|]. intros [F B].
  rewrite <- (firstn_skipn d (glayers g)) in F.
  destruct (refresh _ _ _ _ (finv_suffix _ _ _ _ _ F) B) as [E1 [F1 [S1 _]]]. rewrite E in *. cbn [snd] in *.
  destruct (finv_under _ _ _ _ _ _ F F1 E1) as [F2 _]. split; [split; auto|].
  intros r key v LK H. unfold says in *. cbn [glayers gitems set_layers].
  rewrite <- H. symmetry. apply look_shape. rewrite <- (firstn_skipn d (glayers g)) at 1.
  apply Forall2_app; [|exact S1]. clear. induction (firstn d (glayers g)); constructor; [split; reflexivity|auto].
Qed.
Lemma kept_add : forall g i, sized (gks g) (gvs g) i -> kept g (add_item g i).
Proof.
  intros g i Z. split; [reflexivity|]. split; [reflexivity|]. intros [F B]. split.
  - destruct (known_grows _ _ _ _ i F) as [t [_ F']]. split; [exact F'|]. apply Forall_app. auto.
  - intros r key v LK H. apply look_app. exact H.
Qed.
Lemma kept_inv : forall g invs, kept g (mkGmap (gks g) (gvs g) (gitems g) invs (gunk g) (glen g) (glayers g)).
Proof. intros g invs. split; [reflexivity|]. split; [reflexivity|]. intros M. split; [exact M|]. auto. Qed.

(** The state changed only in ways that keep each map. *)
Definition okept (a b : option gmap) : Prop :=
  match a, b with None, None => True | Some g, Some g' => kept g g' | _, _ => False end.
Definition skept (st st' : gst) : Prop := forall m, okept (gmaps st m) (gmaps st' m).
Lemma skept_refl : forall st, skept st st.
Proof. intros st m. unfold okept. destruct (gmaps st m); [apply kept_refl|exact I]. Qed.
Lemma skept_trans : forall a b c, skept a b -> skept b c -> skept a c.
Proof.
  intros a b c H1 H2 m. specialize (H1 m). specialize (H2 m). unfold okept in *.
  destruct (gmaps a m), (gmaps b m), (gmaps c m); try contradiction; auto. eapply kept_trans; eauto.
Qed.
Lemma skept_set : forall st m g g', gmaps st m = Some g -> kept g g' -> skept st (set_map st m g').
Proof.
  intros st m g g' E H x. cbn. destruct (N.eqb_spec x m) as [->|_]; [rewrite E; exact H|]. apply skept_refl.
Qed.
Lemma skept_maps : forall st st', gmaps st' = gmaps st -> skept st st'.
Proof. intros st st' E m. rewrite E. apply skept_refl. Qed.
Lemma skept_get : forall st st' m g, skept st st' -> gmaps st m = Some g -> exists g', gmaps st' m = Some g' /\ kept g g'.
Proof.
  intros st st' m g H E. specialize (H m). rewrite E in H. destruct (gmaps st' m) as [g'|]; [eauto|destruct H].
Qed.

Lemma emv_skept : forall (get : gst -> N -> bv -> option bv -> bexp -> option nat -> res (gst * (bv * bexp))) sg cond,
  (forall st m key cv c ver st' vp, get st m key cv c ver = Ok (st', vp) -> skept st st') ->
  (forall e st st' e', emv get sg cond st e = Ok (st', e') -> skept st st') /\
  (forall e st st' e', emb get sg cond st e = Ok (st', e') -> skept st st').
Proof.
  intros get sg cond G. apply expr_mind; intros; cbn [emv emb] in *;
  repeat match goal with
  | H : bindr ?x _ = Ok _ |- _ => let E := fresh "E" in destruct x as [[? ?]| |] eqn:E; cbn [bindr] in H; try discriminate H
  end;
  match goal with H : Ok _ = Ok _ |- _ => injection H as <- <- end;
  repeat match goal with
  | IH : forall st st' e', emv _ _ _ st ?e = _ -> _, H : emv _ _ _ _ ?e = Ok _ |- _ => apply IH in H
  | IH : forall st st' e', emb _ _ _ st ?e = _ -> _, H : emb _ _ _ _ ?e = Ok _ |- _ => apply IH in H
  | H : get _ _ _ _ _ _ = Ok _ |- _ => apply G in H
  end; eauto using skept_refl, skept_trans.
Qed.

Section Ops.
Variable s : solver.
Variable k : claripy.

Lemma overfull_skept : forall st m d, skept st (fst (is_not_overfull s k st m d)).
Proof.
  intros st m d. unfold is_not_overfull. destruct (gmaps st m) as [g|] eqn:E; [|apply skept_refl].
  pose proof (kept_known g d) as KK. destruct (known_items g d) as [kn g']. cbn [snd] in KK.
  destruct (definitely_true _ _ _); cbn [fst]; eapply skept_set; eauto.
Qed.
Lemma inv_calls_skept : forall call invs st st' cs,
  (forall st inv st' c, call st inv = Ok (st', c) -> skept st st') ->
  inv_calls call st invs = Ok (st', cs) -> skept st st'.
Proof.
  intros call invs. induction invs as [|inv invs IH]; intros st st' cs C H; cbn [inv_calls] in H.
  - injection H as <- <-. apply skept_refl.
  - destruct (call st inv) as [[st1 c]| |] eqn:E; try discriminate H. cbn [bindr] in H.
    destruct (inv_calls call st1 invs) as [[st2 cs2]| |] eqn:E2; try discriminate H. injection H as <- <-.
    eapply skept_trans; [eapply C; eauto|eapply IH; eauto].
Qed.

Lemma get_skept : forall fuel st m key cv cond ver st' vp,
  get s k fuel st m key cv cond ver = Ok (st', vp) -> skept st st'.
Proof.
  induction fuel as [|fuel IH]; intros st m key cv cond ver st' vp H; [discriminate|]. cbn [get] in H.
  destruct (gmaps st m) as [g|] eqn:E; [|discriminate].
  destruct (is_definitely_empty g (skip_of g ver)).
  { injection H as <- <-. apply skept_maps. reflexivity. }
  destruct (N.eqb_spec (width key) (gks g)) as [W|]; [|discriminate]. cbn [negb] in H.
  pose proof (kept_known g (skip_of g ver)) as KK.
  destruct (known_items g (skip_of g ver)) as [kn g1] eqn:EK. cbn [snd] in KK.
  destruct (get_exact_match _ _ _ _ _ _) as [i|].
  { injection H as <- <-. eapply skept_set; eauto. }
  match type of H with bindr ?x _ = _ => destruct x as [[st4 invs]| |] eqn:EI; try discriminate H end. cbn [bindr] in H.
  destruct (is_not_overfull s k st4 m (skip_of g ver)) as [st5 fits] eqn:EO. injection H as <- <-.
  pose proof (overfull_skept st4 m (skip_of g ver)) as SO. rewrite EO in SO. cbn [fst] in SO.
  assert (S5 : skept st st5).
  { eapply skept_trans; [|exact SO]. eapply skept_trans.
    2:{ eapply inv_calls_skept; [|exact EI]. intros. eapply (proj2 (emv_skept _ _ _ IH)). eauto. }
    eapply skept_trans; [apply (skept_set st m g g1 E KK)|].
    destruct KK as [K1 [K2 _]].
    match goal with |- skept ?a (set_map ?b m ?x) => apply (skept_trans _ b _); [apply skept_maps; reflexivity|] end.
    eapply skept_set.
    - cbn. rewrite N.eqb_refl. reflexivity.
    - apply kept_add. split; cbn; congruence. }
  eapply skept_trans; [exact S5|]. apply skept_maps. reflexivity.
Qed.

Lemma inv_call_skept : forall fuel st ks vs inv i cond st' c,
  inv_call s k fuel st ks vs inv i cond = Ok (st', c) -> skept st st'.
Proof. intros. eapply (proj2 (emv_skept _ _ _ (get_skept fuel))). exact H. Qed.
Lemma inv_items_skept : forall fuel ks vs inv items st st' cs,
  inv_items s k fuel st ks vs inv items = Ok (st', cs) -> skept st st'.
Proof.
  intros fuel ks vs inv items. induction items as [|i items IH]; intros st st' cs H; cbn [inv_items] in H.
  - injection H as <- <-. apply skept_refl.
  - destruct (inv_call s k fuel st ks vs inv i BTrue) as [[st1 c]| |] eqn:E; try discriminate H. cbn [bindr] in H.
    destruct (inv_items s k fuel st1 ks vs inv items) as [[st2 cs2]| |] eqn:E2; try discriminate H. injection H as <- <-.
    eapply skept_trans; [eapply inv_call_skept; eauto|eapply IH; eauto].
Qed.
Lemma add_inv_skept : forall fuel st m inv st', add_inv s k fuel st m inv = Ok st' -> skept st st'.
Proof.
  intros fuel st m inv st' H. unfold add_inv in H. destruct (gmaps st m) as [g|] eqn:E; [|discriminate].
  destruct (inv_call _ _ _ _ _ _ _ _ _) as [[st1 c]| |] eqn:EC; try discriminate H. cbn [bindr] in H.
  apply inv_call_skept in EC. destruct (gmaps st1 m) as [g1|] eqn:E1; [|discriminate]. injection H as <-.
  eapply skept_trans; [exact EC|].
  match goal with |- skept ?a (set_map ?b m ?x) => apply (skept_trans _ b _); [apply skept_maps; reflexivity|] end.
  eapply skept_set; [exact E1|]. apply kept_inv.
Qed.
Lemma add_invs_skept : forall fuel m invs st st', add_invs s k fuel st m invs = Ok st' -> skept st st'.
Proof.
  intros fuel m invs. induction invs as [|inv invs IH]; intros st st' H; cbn [add_invs] in H.
  - injection H as <-. apply skept_refl.
  - destruct (add_inv s k fuel st m (freezeb st inv)) as [st1| |] eqn:E; try discriminate H. cbn [bindr] in H.
    eapply skept_trans; [eapply add_inv_skept; eauto|eauto].
Qed.
Lemma forall_skept : forall fuel st m pred st' b, forall_ s k fuel st m pred = Ok (st', b) -> skept st st'.
Proof.
  intros fuel st m pred st' b H. unfold forall_ in H. destruct (gmaps st m) as [g|] eqn:E; [|discriminate].
  destruct (is_definitely_empty g 0); [injection H as <- <-; apply skept_refl|].
  pose proof (kept_known g 0) as KK. destruct (known_items g 0) as [kn g1]. cbn [snd] in KK.
  destruct (inv_items _ _ _ _ _ _ _ _) as [[st2 rs]| |] eqn:EI; try discriminate H. cbn [bindr] in H.
  pose proof (overfull_skept st2 m 0) as SO. destruct (is_not_overfull s k st2 m 0) as [st3 fits]. cbn [fst] in SO.
  destruct (inv_call _ _ _ _ _ _ _ _ _) as [[st4 u]| |] eqn:EC; try discriminate H. cbn [bindr] in H.
  destruct (add_inv _ _ _ _ _ _) as [st6| |] eqn:EA; try discriminate H. injection H as <- <-.
  apply inv_items_skept in EI. apply inv_call_skept in EC. apply add_inv_skept in EA.
  eapply skept_trans; [eapply skept_set; eauto|]. eapply skept_trans; [exact EI|].
  eapply skept_trans; [exact SO|]. eapply skept_trans; [exact EC|]. eapply skept_trans; [|exact EA].
  apply skept_maps. reflexivity.
Qed.

(** ** Writes *)

Lemma fm_notin : forall key l, (forall i, In i l -> ik i <> key) -> fm key l = None.
Proof.
  intros key l H. unfold fm. induction l as [|i l IH]; cbn; [reflexivity|].
  destruct (bv_eqb key (ik i)) eqn:E; [apply bv_eqb_eq in E; exfalso; apply (H i); [left|]; auto|].
  apply IH. intros; apply H; right; auto.
Qed.
Lemma find_ext_app : forall (f : item -> bool) l x, f x = false -> find f (l ++ [x]) = find f l.
Proof. intros f l x H. induction l as [|a l IH]; cbn; [rewrite H; reflexivity|]. destruct (f a); auto. Qed.

Lemma NoDup_app_snoc : forall (l : list bv) a, NoDup l -> ~ In a l -> NoDup (l ++ [a]).
Proof.
  intros l a H N. apply NoDup_rev in H. rewrite <- (rev_involutive (l ++ [a])), rev_app_distr. apply NoDup_rev.
  cbn. constructor; [rewrite <- in_rev; exact N|exact H].
Qed.
(** After a write the literal key written says what was written; other keys say what
    they said. *)
Lemma write_says : forall g i ch, mok g -> sized (gks g) (gvs g) i -> folded_key (ik i) ->
  let g' := with_item_layer k g i ch in
  gks g' = gks g /\ gvs g' = gvs g /\ mok g' /\
  (forall r, literal (ik i) -> says r (ik i) g' = Some (val r i)) /\
  (forall r key v, literal key -> width key = gks g -> ev r (ik i) <> ev r key ->
     says r key g = Some v -> says r key g' = Some v).
Proof.
  intros g i ch [F B] Z FO. cbn zeta.
  assert (NEW : forall len, let g' := set_layers g (mkLayer [i] len (O, []) :: glayers g) in
    gks g' = gks g /\ gvs g' = gvs g /\ mok g' /\
    (forall r, literal (ik i) -> says r (ik i) g' = Some (val r i)) /\
    (forall r key v, literal key -> width key = gks g -> ev r (ik i) <> ev r key ->
     says r key g = Some v -> says r key g' = Some v)).
  { intros len. cbn zeta. split; [reflexivity|]. split; [reflexivity|]. split; [|split].
    - split; [|exact B]. cbn [glayers gks gvs gitems set_layers finv]. split; [exact F|].
      unfold layer_ok. cbn [litems lcache fst snd]. split; [left; reflexivity|].
      split; [constructor; auto|]. split; [constructor; auto|]. split; [constructor|]. split; [lia|].
      intros r key _ _ _. reflexivity.
    - intros r _. unfold says. cbn [glayers gitems set_layers look litems]. unfold fm. cbn [find].
      rewrite (proj2 (bv_eqb_eq _ _) eq_refl). reflexivity.
    - intros r key v LK WK NE H. unfold says in *. cbn [glayers gitems set_layers look litems]. unfold fm. cbn [find].
      destruct (bv_eqb key (ik i)) eqn:E; [apply bv_eqb_eq in E; congruence|].
      unfold sem. cbn [litems find]. destruct (N.eqb_spec (ev r (ik i)) (ev r key)); [congruence|].
      rewrite H. reflexivity. }
  unfold with_item_layer. destruct (glayers g) as [|L rest] eqn:GL.
  - specialize (NEW (mkadd k (len_at g 0) ch)). rewrite ?GL in NEW. exact NEW.
  - destruct (negb (symbolic (ik i)) && _) eqn:C; [|exact (NEW _)].
    apply andb_prop in C as [C1 C2]. apply negb_true_iff in C1. specialize (FO C1).
    cbn [finv] in F. destruct F as [F [D [FK [SZ [SC [CL CE]]]]]].
    assert (LITS : Forall (fun j => literal (ik j)) (litems L) /\ forall j, In j (litems L) -> ik j <> ik i).
    { rewrite forallb_forall in C2. split.
      - apply Forall_forall. intros j Hj. specialize (C2 j Hj). apply andb_prop in C2 as [C2 _].
        apply negb_true_iff in C2. rewrite Forall_forall in FK. apply (FK j Hj C2).
      - intros j Hj. specialize (C2 j Hj). apply andb_prop in C2 as [_ C2]. apply negb_true_iff, bv_eqb_neq in C2. auto. }
    destruct LITS as [LITS DIFF].
    assert (ND : NoDup (map ik (litems L))).
    { destruct D as [D|[_ D]]; [|exact D]. destruct (litems L) as [|a [|? ?]]; try discriminate D.
      repeat constructor. intros []. }
    split; [reflexivity|]. split; [reflexivity|]. split; [|split].
    + split; [|exact B]. cbn [glayers gks gvs gitems set_layers finv]. split; [exact F|].
      unfold layer_ok. cbn [litems lcache]. split; [|split; [|split; [|split; [|split]]]]; auto.
      * right. split; [apply Forall_app; auto|]. rewrite map_app. cbn [map].
        apply NoDup_app_snoc; [exact ND|]. intros H. apply in_map_iff in H as [j [E Hj]]. apply (DIFF j Hj E).
      * apply Forall_app; split; [auto|]. repeat constructor. intros _. exact FO.
      * apply Forall_app; auto.
      * intros r key LK WK NO. rewrite fm_app in NO. destruct (fm key (litems L)) eqn:N1; [discriminate|].
        unfold fm in NO. cbn [find] in NO. destruct (bv_eqb key (ik i)) eqn:N2; [discriminate|]. apply bv_eqb_neq in N2.
        rewrite (CE r key LK WK N1). unfold sem. cbn [litems]. rewrite find_ext_app; [reflexivity|].
        apply N.eqb_neq. intros E. apply N2. apply (literal_inj r); auto. rewrite WK. symmetry. apply Z.
    + intros r _. unfold says. cbn [glayers gitems set_layers look litems]. rewrite fm_app.
      rewrite (fm_notin (ik i) (litems L)) by auto. unfold fm. cbn [find].
      rewrite (proj2 (bv_eqb_eq _ _) eq_refl). reflexivity.
    + intros r key v LK WK NE H. unfold says in *. rewrite GL in H. cbn [glayers gitems set_layers look litems] in *.
      rewrite fm_app. destruct (fm key (litems L)) as [j|]; [exact H|]. unfold fm at 1. cbn [find].
      destruct (bv_eqb key (ik i)) eqn:E; [apply bv_eqb_eq in E; congruence|].
      rewrite <- H. destruct (look r key rest (gitems g)); [|reflexivity]. cbn [option_map]. f_equal.
      unfold sem. cbn [litems]. rewrite find_ext_app; [reflexivity|]. apply N.eqb_neq. exact NE.
Qed.

Definition all_ok (st : gst) : Prop := forall m g, gmaps st m = Some g -> mok g.

Lemma skept_ok : forall st st', skept st st' -> all_ok st -> all_ok st'.
Proof.
  intros st st' H A m g E. specialize (H m). rewrite E in H. unfold okept in H.
  destruct (gmaps st m) as [g0|] eqn:E0; [|destruct H]. apply H. eauto.
Qed.
Lemma skept_says : forall st st' m g r key v, skept st st' -> all_ok st -> gmaps st m = Some g -> literal key ->
  says r key g = Some v -> exists g', gmaps st' m = Some g' /\ gks g' = gks g /\ gvs g' = gvs g /\ says r key g' = Some v.
Proof.
  intros st st' m g r key v H A E LK S. destruct (skept_get _ _ _ _ H E) as [g' [E' [K1 [K2 K3]]]].
  exists g'. split; [auto|]. split; [auto|]. split; [auto|]. apply K3; eauto.
Qed.

Lemma set_says : forall fuel st m g key value st', all_ok st -> gmaps st m = Some g ->
  width key = gks g -> width value = gvs g -> folded_key key ->
  set_ s k fuel st m key value = Ok st' ->
  all_ok st' /\
  (forall r, literal key -> exists g', gmaps st' m = Some g' /\ gks g' = gks g /\ gvs g' = gvs g /\
     says r key g' = Some (ev r value, true)) /\
  (forall r m' g0 key' v, literal key' -> gmaps st m' = Some g0 -> width key' = gks g0 ->
     (m = m' -> ev r key <> ev r key') -> says r key' g0 = Some v ->
     exists g', gmaps st' m' = Some g' /\ gks g' = gks g0 /\ gvs g' = gvs g0 /\ says r key' g' = Some v).
Proof.
  intros fuel st m g key value st' A E WK WV FO H. unfold set_ in H.
  destruct (get s k fuel st m key None BTrue None) as [[st1 vp]| |] eqn:G; try discriminate H. cbn [bindr] in H.
  destruct (get_if_constant_b s (gcs st1) (snd vp)) as [c| |]; try discriminate H. cbn [bindr] in H.
  apply get_skept in G. destruct (skept_get _ _ _ _ G E) as [g1 [E1 [K1 [K2 K3]]]]. rewrite E1 in H. injection H as <-.
  assert (Z : sized (gks g1) (gvs g1) (mkItem key value BTrue)) by (split; cbn; congruence).
  match goal with |- context [with_item_layer k g1 ?it ?ch] => destruct (write_says g1 it ch (skept_ok _ _ G A _ _ E1) Z FO) as [W1 [W2 [W3 [W4 W5]]]] end.
  split; [|split].
  - intros x gx Ex. cbn in Ex. destruct (N.eqb_spec x m) as [->|_]; [injection Ex as <-; exact W3|].
    eapply skept_ok; eauto.
  - intros r LK. eexists. cbn [gmaps set_map]. rewrite N.eqb_refl. split; [reflexivity|].
    split; [congruence|]. split; [congruence|]. apply W4. exact LK.
  - intros r m' g0 key' v LK E0 WK' NE S. cbn [gmaps set_map]. destruct (N.eqb_spec m' m) as [->|NM].
    + rewrite E in E0. injection E0 as <-. eexists. split; [reflexivity|]. split; [congruence|]. split; [congruence|].
      apply W5; auto; [congruence|]. apply K3; eauto.
    + eapply skept_says; eauto.
Qed.
Lemma remove_says : forall fuel st m g key st', all_ok st -> gmaps st m = Some g ->
  width key = gks g -> folded_key key ->
  remove s k fuel st m key = Ok st' ->
  all_ok st' /\
  (forall r, literal key -> exists g' v, gmaps st' m = Some g' /\ gks g' = gks g /\ gvs g' = gvs g /\
     says r key g' = Some (v, false)) /\
  (forall r m' g0 key' v, literal key' -> gmaps st m' = Some g0 -> width key' = gks g0 ->
     (m = m' -> ev r key <> ev r key') -> says r key' g0 = Some v ->
     exists g', gmaps st' m' = Some g' /\ gks g' = gks g0 /\ gvs g' = gvs g0 /\ says r key' g' = Some v).
Proof.
  intros fuel st m g key st' A E WK FO H. unfold remove in H.
  destruct (get s k fuel st m key None BTrue None) as [[st1 vp]| |] eqn:G; try discriminate H. cbn [bindr] in H.
  apply get_skept in G. destruct (skept_get _ _ _ _ G E) as [g1 [E1 [K1 [K2 K3]]]]. rewrite E1 in H. injection H as <-.
  assert (Z : sized (gks g1) (gvs g1) (mkItem key (BVS (gvs g1) (gnext st1)) BFalse)) by (split; cbn; congruence).
  match goal with |- context [with_item_layer k g1 ?it ?ch] => destruct (write_says g1 it ch (skept_ok _ _ G A _ _ E1) Z FO) as [W1 [W2 [W3 [W4 W5]]]] end.
  split; [|split].
  - intros x gx Ex. cbn in Ex. destruct (N.eqb_spec x m) as [->|_]; [injection Ex as <-; exact W3|].
    eapply skept_ok; eauto.
  - intros r LK. do 2 eexists. cbn [gmaps set_map]. rewrite N.eqb_refl. split; [reflexivity|].
    split; [congruence|]. split; [congruence|]. apply (W4 r LK).
  - intros r m' g0 key' v LK E0 WK' NE S. cbn [gmaps set_map bump]. destruct (N.eqb_spec m' m) as [->|NM].
    + rewrite E in E0. injection E0 as <-. eexists. split; [reflexivity|]. split; [congruence|]. split; [congruence|].
      apply W5; auto; [congruence|]. apply K3; eauto.
    + eapply skept_says; eauto.
Qed.

Lemma step_ok : forall fuel st o st', step s k fuel st o st' -> all_ok st ->
  all_ok st' /\
  (forall r m g key v, literal key -> gmaps st m = Some g -> width key = gks g -> spared r m (ev r key) [o] ->
     says r key g = Some v ->
     exists g', gmaps st' m = Some g' /\ gks g' = gks g /\ gvs g' = gvs g /\ says r key g' = Some v).
Proof.
  intros fuel st o st' H A. destruct H as
    [st m ks vs spec st' N H|st m key cval cond ver st' vp H|st m g key value st' E WK WV FO H|st m g key st' E WK FO H|st m pred st' b H|st c].
  - assert (R : forall len, all_ok (raw_new st m ks vs len)).
    { intros len x g Ex. cbn in Ex. destruct (N.eqb_spec x m) as [->|_]; [injection Ex as <-|eapply A; eauto].
      split; cbn; constructor. }
    assert (Q : exists len invs, add_invs s k fuel (raw_new st m ks vs len) m invs = Ok st').
    { unfold map_new in H. destruct spec as [[len invs]|]; eauto. }
    destruct Q as [len [invs Q]]. apply add_invs_skept in Q. split; [eapply skept_ok; eauto|].
    intros r m' g key v LK E' WK SP S. eapply skept_says; eauto. cbn.
    destruct (N.eqb_spec m' m) as [->|_]; [congruence|exact E'].
  - apply get_skept in H. split; [eapply skept_ok; eauto|]. intros. eapply skept_says; eauto.
  - destruct (set_says _ _ _ _ _ _ _ A E WK WV FO H) as [A' [_ O]]. split; [exact A'|].
    intros r m' g0 key' v LK E' WK' SP S. eapply O; eauto.
    intros ->. apply (SP _ (or_introl eq_refl) eq_refl).
  - destruct (remove_says _ _ _ _ _ _ A E WK FO H) as [A' [_ O]]. split; [exact A'|].
    intros r m' g0 key' v LK E' WK' SP S. eapply O; eauto.
    intros ->. apply (SP _ (or_introl eq_refl) eq_refl).
  - apply forall_skept in H. split; [eapply skept_ok; eauto|]. intros. eapply skept_says; eauto.
  - assert (Q : skept st (add_cs st [c])) by (apply skept_maps; reflexivity).
    split; [eapply skept_ok; eauto|]. intros. eapply skept_says; eauto.
Qed.
Lemma steps_ok : forall fuel st os st', steps s k fuel st os st' -> all_ok st ->
  all_ok st' /\
  (forall r m g key v, literal key -> gmaps st m = Some g -> width key = gks g -> spared r m (ev r key) os ->
     says r key g = Some v ->
     exists g', gmaps st' m = Some g' /\ gks g' = gks g /\ gvs g' = gvs g /\ says r key g' = Some v).
Proof.
  intros fuel st os st' H. induction H as [st|st o st1 os st2 H1 H2 IH]; intros A.
  - split; [exact A|]. intros. eauto.
  - destruct (step_ok _ _ _ _ H1 A) as [A1 S1]. destruct (IH A1) as [A2 S2]. split; [exact A2|].
    intros r m g key v LK E WK SP S.
    destruct (S1 r m g key v LK E WK) as [g1 [E1 [K1 [V1 Q1]]]]; auto.
    { intros x [<-|[]]. apply (SP o). left. reflexivity. }
    destruct (S2 r m g1 key v LK E1) as [g2 [E2 [K2 [V2 Q2]]]]; auto; [congruence| |].
    { intros x Hx. apply SP. right. exact Hx. }
    exists g2. split; [auto|]. split; [congruence|]. split; [congruence|auto].
Qed.
Lemma init_ok : forall nin sz, all_ok (ginit nin sz).
Proof. intros nin sz m g H. discriminate. Qed.

(** A read of a literal key the map says something about. *)
Lemma get_says : forall fuel st m g r key cv cond st' v p x, all_ok st -> gmaps st m = Some g -> literal key ->
  is_definitely_empty g 0 = false -> says r key g = Some x ->
  get s k fuel st m key cv cond None = Ok (st', (v, p)) -> (ev r v, eb r p) = x.
Proof.
  intros fuel st m g r key cv cond st' v p x A E LK NE S H. destruct fuel as [|fuel]; [discriminate|].
  cbn [get] in H. rewrite E in H. cbn [skip_of] in H. rewrite NE in H.
  destruct (N.eqb_spec (width key) (gks g)) as [W|]; [|discriminate]. cbn [negb] in H.
  destruct (A _ _ E) as [F B].
  pose proof (look_known _ _ r key _ _ LK W F B) as L. unfold says in S. rewrite S in L.
  unfold known_items in H. cbn [skipn] in H. unfold K in L.
  destruct (known_layers (glayers g) (gitems g)) as [kn ls']. cbn [fst] in L.
  destruct (fm key kn) as [i|] eqn:FI; [|discriminate]. cbn [option_map] in L. injection L as L.
  unfold get_exact_match in H. change (find (fun c => bv_eqb key (ik c)) (kn ++ [gunk g])) with (fm key (kn ++ [gunk g])) in H.
  rewrite fm_app, FI in H. injection H as <- <- <-. exact L.
Qed.

Lemma constant_read_back : forall fuel r nin sz before st1 m g1 key value st2 between st3 g3 cv cond st4 v p,
  steps s k fuel (ginit nin sz) before st1 ->
  gmaps st1 m = Some g1 -> width key = gks g1 -> width value = gvs g1 -> literal key ->
  set_ s k fuel st1 m key value = Ok st2 ->
  steps s k fuel st2 between st3 -> spared r m (ev r key) between ->
  gmaps st3 m = Some g3 -> is_definitely_empty g3 0 = false ->
  get s k fuel st3 m key cv cond None = Ok (st4, (v, p)) ->
  eb r p = true /\ ev r v = ev r value.
Proof.
  intros fuel r nin sz before st1 m g1 key value st2 between st3 g3 cv cond st4 v p H1 E1 WK WV LK HS H2 SP E3 NE HG.
  destruct (steps_ok _ _ _ _ H1 (init_ok nin sz)) as [A1 _].
  destruct (set_says _ _ _ _ _ _ _ A1 E1 WK WV (fun _ => LK) HS) as [A2 [S2 _]].
  destruct (S2 r LK) as [g2 [E2 [K2 [V2 Q2]]]].
  destruct (steps_ok _ _ _ _ H2 A2) as [A3 S3].
  destruct (S3 r m g2 key _ LK E2 ltac:(congruence) SP Q2) as [g3' [E3' [_ [_ Q3]]]].
  rewrite E3 in E3'. injection E3' as <-.
  pose proof (get_says _ _ _ _ r _ _ _ _ _ _ _ A3 E3 LK NE Q3 HG) as R. injection R as -> ->. auto.
Qed.
Lemma constant_removed : forall fuel r nin sz before st1 m g1 key st2 between st3 g3 cv cond st4 v p,
  steps s k fuel (ginit nin sz) before st1 ->
  gmaps st1 m = Some g1 -> width key = gks g1 -> literal key ->
  remove s k fuel st1 m key = Ok st2 ->
  steps s k fuel st2 between st3 -> spared r m (ev r key) between ->
  gmaps st3 m = Some g3 ->
  get s k fuel st3 m key cv cond None = Ok (st4, (v, p)) ->
  eb r p = false.
Proof.
  intros fuel r nin sz before st1 m g1 key st2 between st3 g3 cv cond st4 v p H1 E1 WK LK HS H2 SP E3 HG.
  destruct (steps_ok _ _ _ _ H1 (init_ok nin sz)) as [A1 _].
  destruct (remove_says _ _ _ _ _ _ A1 E1 WK (fun _ => LK) HS) as [A2 [S2 _]].
  destruct (S2 r LK) as [g2 [x [E2 [K2 [V2 Q2]]]]].
  destruct (steps_ok _ _ _ _ H2 A2) as [A3 S3].
  destruct (S3 r m g2 key _ LK E2 ltac:(congruence) SP Q2) as [g3' [E3' [_ [_ Q3]]]].
  rewrite E3 in E3'. injection E3' as <-.
  destruct (is_definitely_empty g3 0) eqn:NE.
  - destruct fuel as [|fuel]; [discriminate|]. cbn [get] in HG. rewrite E3 in HG. cbn [skip_of] in HG.
    rewrite NE in HG. injection HG as <- <- <-. reflexivity.
  - pose proof (get_says _ _ _ _ r _ _ _ _ _ _ _ A3 E3 LK NE Q3 HG) as R. injection R as _ ->. auto.
Qed.

End Ops.
