(** * Which keys can be present, in every run

    For runs with folded layers, nested lookups, reads of old versions and keys that are
    the generic one: what the invariant given at creation says about presence stays true
    of everything the map answers, if the writes and removals respect it. *)

From Coq Require Import NArith List Bool Lia Arith.
From Verif Require Import Expr Solver KMerge Wt GhostMap GhostSpec GhostFacts GhostReal GhostFold GhostOld.
Import ListNotations.
Open Scope N_scope.

Section Pres.
Variable s : solver.
Variable k : claripy.
Hypothesis SOK : solver_ok s.
Hypothesis KOK : claripy_ok k.
Variable r : env.
Variable m0 ks vs : N.
Variable inv0 : bexp.
Hypothesis NL : nolkb inv0 = true.
(** [P q b]: key [q] may have presence [b]. *)
Variable P : N -> bool -> Prop.
Hypothesis HP : forall i, width (ik i) = ks -> width (iv i) = vs ->
  eb r (substb (item_subst ks vs i) inv0) = true -> P (ev r (ik i)) (eb r (ip i)).
(** The length never changes, if given. *)
Variable L : option N.
Hypothesis HL : match L with Some n => n = 0 | None => True end -> forall q, P q false.
(** The map is never written, if given; then its length is this. *)
Variable W : option bv.

Definition oki (i : item) : Prop := P (ev r (ik i)) (eb r (ip i)).
Definition len_ok (e : bv) : Prop := match L with Some n => ev r e = n | None => True end.
Definition okl (l : layer) : Prop := Forall oki (litems l) /\ Forall oki (snd (lcache l)) /\ len_ok (llen l).
Record okg (g : gmap) : Prop := mkOk {
  o_ks : gks g = ks; o_vs : gvs g = vs; o_inv : In inv0 (ginvs g);
  o_items : Forall oki (gitems g); o_unk : oki (gunk g); o_layers : Forall okl (glayers g);
  o_len : len_ok (glen g);
  o_unw : match W with Some e => glayers g = [] /\ glen g = e | None => True end }.
Definition okst (st : gst) : Prop := exists g, gmaps st m0 = Some g /\ okg g.
Definition pres (st st' : gst) : Prop := incl (gcs st) (gcs st') /\ (holds r (gcs st') -> okst st -> okst st').

Lemma pres_refl : forall st, pres st st.
Proof. intros. split; [apply incl_refl|auto]. Qed.
Lemma pres_trans : forall a b c, pres a b -> pres b c -> pres a c.
Proof.
  intros a b c [I1 P1] [I2 P2]. split; [eapply incl_tran; eauto|]. intros H O. apply P2; [exact H|]. apply P1; [|exact O].
  eapply holds_incl; eauto.
Qed.
Lemma pres_maps : forall st st', incl (gcs st) (gcs st') -> gmaps st' = gmaps st -> pres st st'.
Proof. intros st st' I E. split; [exact I|]. intros _ (g & G & O). exists g. rewrite E. auto. Qed.
Lemma okst_set : forall st m g g', gmaps st m = Some g -> (m = m0 -> okg g -> okg g') -> okst st -> okst (set_map st m g').
Proof.
  intros st m g g' E O (g0 & G & O0). unfold okst. cbn [set_map gmaps]. destruct (N.eqb_spec m0 m) as [<-|NE].
  - exists g'. split; [reflexivity|]. apply O; [reflexivity|]. assert (g0 = g) by congruence. subst g0. exact O0.
  - exists g0. auto.
Qed.
Lemma pres_set : forall st m g g', gmaps st m = Some g -> (m = m0 -> okg g -> okg g') -> pres st (set_map st m g').
Proof. intros st m g g' E O. split; [apply incl_refl|]. intros _. eapply okst_set; eauto. Qed.
Lemma pres_add_cs : forall st cs, pres st (add_cs st cs).
Proof. intros st cs. apply pres_maps; [cbn [add_cs gcs]; apply incl_appl, incl_refl|reflexivity]. Qed.

(** ** Known items *)

Lemma ok_transform : forall kis items, Forall oki kis -> Forall oki items -> Forall oki (transform_previous kis items).
Proof.
  intros kis items OK OI. unfold transform_previous. apply Forall_forall. intros j Hj. apply in_map_iff in Hj as (i & <- & Hi).
  apply filter_In in Hi as [Hi _]. unfold oki, transform1. cbn [ik ip]. rewrite ite_cases_b_eval.
  destruct (find _ _) as [[c p]|] eqn:F.
  - apply find_some in F as [F1 F2]. apply in_map_iff in F1 as (ki & E & Hki). injection E as <- <-. cbn [fst snd evalb] in *.
    apply N.eqb_eq in F2. rewrite F2. rewrite Forall_forall in OK. exact (OK ki Hki).
  - rewrite Forall_forall in OI. exact (OI i Hi).
Qed.
Lemma Forall_skipn : forall A (Q : A -> Prop) n l, Forall Q l -> Forall Q (skipn n l).
Proof. intros A Q n l F. rewrite <- (firstn_skipn n l) in F. apply Forall_app in F. apply F. Qed.
Lemma Forall_firstn : forall A (Q : A -> Prop) n l, Forall Q l -> Forall Q (firstn n l).
Proof. intros A Q n l F. rewrite <- (firstn_skipn n l) in F. apply Forall_app in F. apply F. Qed.
Lemma ok_known_layers : forall ls base, Forall okl ls -> Forall oki base ->
  Forall oki (fst (known_layers ls base)) /\ Forall okl (snd (known_layers ls base)).
Proof.
  induction ls as [|l ls IH]; intros base OL OB; [split; [exact OB|constructor]|]. inversion_clear OL as [|? ? (A & B & C) OL'].
  cbn [known_layers]. specialize (IH base OL' OB). destruct (known_layers ls base) as [prev ls']. cbn [fst snd] in IH. destruct IH as [IP IL].
  destruct (lcache l) as [count cached] eqn:LC. cbn [snd] in B.
  assert (X : Forall oki (snd (if Nat.eqb (length prev) count then (count, cached)
      else (length prev, cached ++ transform_previous (litems l) (skipn count prev))))).
  { destruct (Nat.eqb _ _); cbn [snd]; [exact B|]. apply Forall_app. split; [exact B|]. apply ok_transform; [exact A|apply Forall_skipn; exact IP]. }
  cbn [fst snd]. split; [apply Forall_app; split; assumption|]. constructor; [|exact IL]. repeat split; assumption.
Qed.
Lemma ok_known : forall g d, okg g -> Forall oki (fst (known_items g d)) /\ okg (snd (known_items g d)).
Proof.
  intros g d O. destruct O as [A B C D E F G H]. unfold known_items.
  pose proof (ok_known_layers (skipn d (glayers g)) (gitems g) (Forall_skipn _ _ _ _ F) D) as [KI KL].
  assert (EL : glayers g = [] -> snd (known_layers (skipn d (glayers g)) (gitems g)) = []) by (intros ->; rewrite skipn_nil; reflexivity).
  destruct (known_layers (skipn d (glayers g)) (gitems g)) as [kn ls]. cbn [fst snd] in *. split; [exact KI|].
  constructor; cbn [set_layers gks gvs ginvs gitems gunk glayers glen]; try assumption.
  - apply Forall_app. split; [apply Forall_firstn; exact F|exact KL].
  - destruct W as [e|]; [|exact I]. destruct H as [H1 H2]. split; [|exact H2]. rewrite H1, firstn_nil. apply EL. exact H1.
Qed.

Lemma em_pres : forall (gt : gst -> N -> bv -> option bv -> bexp -> option nat -> res (gst * (bv * bexp))) sg cond,
  (forall st m key cv c ver st' vp, gt st m key cv c ver = Ok (st', vp) -> pres st st') ->
  (forall e st st' e', emv gt sg cond st e = Ok (st', e') -> pres st st') /\
  (forall e st st' e', emb gt sg cond st e = Ok (st', e') -> pres st st').
Proof.
  intros gt sg cond G. apply expr_mind; intros; cbn [emv emb] in *;
  repeat match goal with
  | H : bindr ?x _ = Ok _ |- _ => let E := fresh "E" in destruct x as [[? ?]| |] eqn:E; cbn [bindr] in H; try discriminate H
  end;
  match goal with H : Ok _ = Ok _ |- _ => injection H as <- <- end;
  repeat match goal with
  | IH : forall st st' e', emv _ _ _ st ?e = _ -> _, H : emv _ _ _ _ ?e = Ok _ |- _ => apply IH in H
  | IH : forall st st' e', emb _ _ _ st ?e = _ -> _, H : emb _ _ _ _ ?e = Ok _ |- _ => apply IH in H
  | H : gt _ _ _ _ _ _ = Ok _ |- _ => apply G in H
  end; eauto using pres_refl, pres_trans.
Qed.

Lemma overfull_pres : forall st m d, pres st (fst (is_not_overfull s k st m d)).
Proof.
  intros st m d. unfold is_not_overfull. destruct (gmaps st m) as [g|] eqn:E; [|apply pres_refl].
  pose proof (fun O => proj2 (ok_known g d O)) as KK. destruct (known_items g d) as [kn g']. cbn [snd] in KK.
  destruct (definitely_true _ _ _); cbn [fst]; eapply pres_set; eauto.
Qed.
Lemma inv_calls_pres : forall call invs st st' cs,
  (forall st inv st' c, call st inv = Ok (st', c) -> pres st st') ->
  inv_calls call st invs = Ok (st', cs) -> pres st st'.
Proof.
  intros call invs. induction invs as [|inv invs IH]; intros st st' cs C H; cbn [inv_calls] in H.
  - injection H as <- <-. apply pres_refl.
  - destruct (call st inv) as [[st1 c]| |] eqn:E; try discriminate H. cbn [bindr] in H.
    destruct (inv_calls call st1 invs) as [[st2 cs2]| |] eqn:E2; try discriminate H. injection H as <- <-.
    eapply pres_trans; [eapply C; eauto|eapply IH; eauto].
Qed.
(** The creation's invariant is among those a new item must satisfy. *)
Lemma inv_calls_in : forall gt sg cond invs st st' cs, In inv0 invs ->
  inv_calls (fun st' inv => emb gt sg cond st' inv) st invs = Ok (st', cs) -> In (substb sg inv0) cs.
Proof.
  intros gt sg cond invs. induction invs as [|inv invs IH]; intros st st' cs I H; [destruct I|]. destruct I as [I|I]; cbn [inv_calls] in H.
  - subst inv. rewrite (emb_plain gt sg cond inv0 NL) in H. cbn [bindr] in H.
    destruct (inv_calls _ st invs) as [[st2 cs2]| |]; try discriminate H. injection H as <- <-. left. reflexivity.
  - destruct (emb gt sg cond st inv) as [[st1 c]| |]; try discriminate H. cbn [bindr] in H.
    destruct (inv_calls _ st1 invs) as [[st2 cs2]| |] eqn:E2; try discriminate H. injection H as <- <-. right. eapply IH; eauto.
Qed.

(** ** Reads *)

Lemma get_pres : forall fuel st m key cv cond ver st' vp,
  get s k fuel st m key cv cond ver = Ok (st', vp) ->
  pres st st' /\ (m = m0 -> okst st -> holds r (gcs st') -> eb r cond = true -> P (ev r key) (eb r (snd vp))).
Proof.
  induction fuel as [|fuel IH]; intros st m key cv cond ver st' vp H; [discriminate|].
  pose proof (proj1 (get_mono s k _ _ _ _ _ _ _ _ _ H)) as IN.
  cbn [get] in H. destruct (gmaps st m) as [g|] eqn:E; [|discriminate].
  destruct (is_definitely_empty g (skip_of g ver)) eqn:ED.
  { injection H as <- <-. split; [apply pres_maps; [apply incl_refl|reflexivity]|]. intros -> (g0 & G0 & O) _ _. cbn [snd evalb].
    assert (g0 = g) by congruence. subst g0. apply HL. destruct L as [n|] eqn:EL; [|exact I].
    unfold is_definitely_empty in ED. apply bv_eqb_eq in ED.
    assert (X : ev r (len_at g (skip_of g ver)) = n).
    { unfold len_at. pose proof (o_len _ O) as OL. unfold len_ok in OL. rewrite EL in OL.
      pose proof (Forall_skipn _ _ (skip_of g ver) _ (o_layers _ O)) as F. destruct (skipn _ (glayers g)) as [|l ls]; [exact OL|].
      inversion_clear F as [|? ? (_ & _ & C) _]. unfold len_ok in C. rewrite EL in C. exact C. }
    rewrite ED in X. cbn [evalv] in X. rewrite <- X. apply N.mod_0_l. apply pow2_ne. }
  destruct (N.eqb_spec (width key) (gks g)) as [WK|]; [|discriminate]. cbn [negb] in H.
  set (d := skip_of g ver) in *. pose proof (ok_known g d) as KK.
  destruct (known_items g d) as [kn g1] eqn:EK. cbn [fst snd] in KK.
  assert (G1 : gitems g1 = gitems g /\ gunk g1 = gunk g).
  { unfold known_items in EK. destruct (known_layers _ _) in EK. injection EK as <- <-. auto. }
  destruct G1 as [G1I G1U].
  change (gcs (set_map st m g1)) with (gcs st) in H.
  destruct (get_exact_match _ _ _ _ _ _) as [i|] eqn:GE.
  { injection H as <- <-. split; [eapply pres_set; [exact E|intros _ O; apply KK; exact O]|].
    intros -> (g0 & G0 & O) HR HC. assert (g0 = g) by congruence. subst g0. cbn [snd].
    apply (get_exact_match_sound s SOK) in GE as [GI GV]. rewrite (GV r HR HC). destruct (KK O) as [KI _].
    apply in_app_or in GI as [GI|[<-|[]]]; [rewrite Forall_forall in KI; exact (KI i GI)|exact (o_unk _ O)]. }
  match type of H with bindr ?x _ = _ => destruct x as [[st4 invs]| |] eqn:EI; try discriminate H end. cbn [bindr] in H.
  destruct (is_not_overfull s k st4 m d) as [st5 fits] eqn:EO. injection H as <- <-.
  pose proof (overfull_pres st4 m d) as SO. rewrite EO in SO. cbn [fst] in SO.
  pose proof (inv_calls_pres _ _ _ _ _ (fun st0 inv st0' c => proj2 (em_pres _ _ _ (fun a b c d e f g h H => proj1 (IH a b c d e f g h H))) inv st0 st0' c) EI) as EP.
  set (it := mkItem key (BVS (gvs g) (gnext (set_map st m g1))) (BoolS (gnext (set_map st m g1)))) in *.
  assert (OI : m = m0 -> okst st -> holds r (gcs (add_cs st5 (map
      (fun i => BImp (BEq key (ik i)) (BAnd (BEq (BVS (gvs g) (gnext (set_map st m g1))) (iv i)) (BIff (BoolS (gnext (set_map st m g1))) (ip i))))
      (match skipn d (glayers g) with [] => kn ++ [it] | _ => kn end ++ [gunk g]) ++
      map (BImp (BAndL (map (fun i => BNe key (ik i)) kn))) invs ++ [fits]))) -> oki it).
  { intros -> (g0 & G0 & O) Hr. assert (g0 = g) by congruence. subst g0. destruct (KK O) as [KI _].
    cbn [add_cs gcs] in Hr. apply holds_app in Hr as [_ Hr]. apply holds_app in Hr as [HS HI]. apply holds_app in HI as [HI _].
    destruct (existsb (fun i => ev r key =? ev r (ik i)) kn) eqn:X.
    - apply existsb_exists in X as (i & Hi & Q). apply N.eqb_eq in Q.
      assert (HIn : In (BImp (BEq key (ik i)) (BAnd (BEq (iv it) (iv i)) (BIff (ip it) (ip i))))
       (map (fun i => BImp (BEq key (ik i)) (BAnd (BEq (iv it) (iv i)) (BIff (ip it) (ip i))))
          (match skipn d (glayers g) with [] => kn ++ [it] | _ => kn end ++ [gunk g]))).
      { apply (in_map (fun i => BImp (BEq key (ik i)) (BAnd (BEq (iv it) (iv i)) (BIff (ip it) (ip i))))).
        apply in_or_app. left. destruct (skipn d (glayers g)); [apply in_or_app|]; auto. }
      specialize (HS _ HIn). rewrite BImp_true in HS. cbn [evalb] in HS. rewrite N.eqb_eq in HS. specialize (HS Q).
      apply andb_prop in HS as [_ S2]. apply eqb_prop in S2. unfold oki. cbn [it ik] in *. rewrite Q, S2.
      rewrite Forall_forall in KI. exact (KI i Hi).
    - assert (IC : In (substb (item_subst (gks g) (gvs g) it) inv0) invs) by (eapply inv_calls_in; [exact (o_inv _ O)|exact EI]).
      specialize (HI _ (in_map _ _ _ IC)). rewrite BImp_true in HI.
      rewrite (o_ks _ O), (o_vs _ O) in HI. apply HP.
      + cbn [it ik]. rewrite WK. exact (o_ks _ O).
      + cbn [it iv width]. exact (o_vs _ O).
      + apply HI. apply BAndL_true. intros y Hy. apply in_map_iff in Hy as (i & <- & Hi). apply BNe_true. intros Q.
        assert (Y : existsb (fun i => ev r key =? ev r (ik i)) kn = true) by (apply existsb_exists; exists i; split; [exact Hi|apply N.eqb_eq; exact Q]). congruence. }
  split.
  - split; [exact IN|]. intros Hr O.
    apply (proj2 (pres_add_cs st5 _) Hr).
    assert (Hr5 : holds r (gcs st5)) by (cbn [add_cs gcs] in Hr; apply holds_app in Hr; apply Hr).
    apply (proj2 SO Hr5). assert (Hr4 : holds r (gcs st4)) by (eapply holds_incl; [exact (proj1 SO)|exact Hr5]).
    apply (proj2 EP Hr4). clear EP SO.
    match goal with |- okst (set_map (add_cs ?a ?c) m ?g2) => change (okst (set_map (set_map st m g1) m g2)) end.
    apply okst_set with (g := g1); [cbn [set_map gmaps]; rewrite N.eqb_refl; reflexivity| |eapply okst_set; [exact E|intros _ X; apply KK; exact X|exact O]].
    intros EM O1. specialize (OI EM O Hr). destruct O1 as [A B C D F G HH Q]. constructor; cbn [add_item gks gvs gitems ginvs gunk glen glayers]; try assumption.
    apply Forall_app. split; [exact D|]. constructor; [exact OI|constructor].
  - intros EM O Hr HC. exact (OI EM O Hr).
Qed.

(** ** Quantified predicates and creation *)

Lemma get_pres1 : forall fuel st m key cv cond ver st' vp,
  get s k fuel st m key cv cond ver = Ok (st', vp) -> pres st st'.
Proof. intros. eapply get_pres; eauto. Qed.
Lemma inv_call_pres : forall fuel st ks vs inv i cond st' c,
  inv_call s k fuel st ks vs inv i cond = Ok (st', c) -> pres st st'.
Proof. intros. eapply (proj2 (em_pres _ _ _ (get_pres1 fuel))). exact H. Qed.
Lemma inv_items_pres : forall fuel ks vs inv items st st' cs,
  inv_items s k fuel st ks vs inv items = Ok (st', cs) -> pres st st'.
Proof.
  intros fuel ks' vs' inv items. induction items as [|i items IH]; intros st st' cs H; cbn [inv_items] in H.
  - injection H as <- <-. apply pres_refl.
  - destruct (inv_call s k fuel st ks' vs' inv i BTrue) as [[st1 c]| |] eqn:E; try discriminate H. cbn [bindr] in H.
    destruct (inv_items s k fuel st1 ks' vs' inv items) as [[st2 cs2]| |] eqn:E2; try discriminate H. injection H as <- <-.
    eapply pres_trans; [eapply inv_call_pres; eauto|eapply IH; eauto].
Qed.
Lemma add_inv_pres : forall fuel st m inv st', add_inv s k fuel st m inv = Ok st' -> pres st st'.
Proof.
  intros fuel st m inv st' H. unfold add_inv in H. destruct (gmaps st m) as [g|] eqn:E; [|discriminate].
  destruct (inv_call _ _ _ _ _ _ _ _ _) as [[st1 c]| |] eqn:EC; try discriminate H. cbn [bindr] in H.
  apply inv_call_pres in EC. destruct (gmaps st1 m) as [g1|] eqn:E1; [|discriminate]. injection H as <-.
  eapply pres_trans; [exact EC|].
  match goal with |- pres ?a (set_map ?b m ?x) => apply (pres_trans _ b _); [apply pres_add_cs|] end.
  eapply pres_set; [exact E1|]. intros _ [A B C D F G HH Q].
  constructor; cbn [gks gvs gitems ginvs gunk glen glayers]; try assumption. apply in_or_app. left. exact C.
Qed.
Lemma add_invs_pres : forall fuel m invs st st', add_invs s k fuel st m invs = Ok st' -> pres st st'.
Proof.
  intros fuel m invs. induction invs as [|inv invs IH]; intros st st' H; cbn [add_invs] in H.
  - injection H as <-. apply pres_refl.
  - destruct (add_inv s k fuel st m (freezeb st inv)) as [st1| |] eqn:E; try discriminate H. cbn [bindr] in H.
    eapply pres_trans; [eapply add_inv_pres; eauto|eauto].
Qed.
Lemma forall_pres : forall fuel st m pred st' b, forall_ s k fuel st m pred = Ok (st', b) -> pres st st'.
Proof.
  intros fuel st m pred st' b H. unfold forall_ in H. destruct (gmaps st m) as [g|] eqn:E; [|discriminate].
  destruct (is_definitely_empty g 0); [injection H as <- <-; apply pres_refl|].
  pose proof (fun O => proj2 (ok_known g 0 O)) as KK. destruct (known_items g 0) as [kn g1]. cbn [snd] in KK.
  destruct (inv_items _ _ _ _ _ _ _ _) as [[st2 rs]| |] eqn:EI; try discriminate H. cbn [bindr] in H.
  pose proof (overfull_pres st2 m 0) as SO. destruct (is_not_overfull s k st2 m 0) as [st3 fits]. cbn [fst] in SO.
  destruct (inv_call _ _ _ _ _ _ _ _ _) as [[st4 u]| |] eqn:EC; try discriminate H. cbn [bindr] in H.
  destruct (add_inv _ _ _ _ _ _) as [st6| |] eqn:EA; try discriminate H. injection H as <- <-.
  apply inv_items_pres in EI. apply inv_call_pres in EC. apply add_inv_pres in EA.
  eapply pres_trans; [eapply pres_set; eauto|]. eapply pres_trans; [exact EI|].
  eapply pres_trans; [exact SO|]. eapply pres_trans; [exact EC|]. eapply pres_trans; [|exact EA].
  apply pres_maps; [cbn; apply incl_appl, incl_refl|reflexivity].
Qed.

(** The map as it is after its creation with this one invariant. *)
Lemma new_okst : forall fuel st len st', gmaps st m0 = None ->
  add_invs s k fuel (raw_new st m0 ks vs len) m0 [inv0] = Ok st' ->
  len_ok len -> match W with Some e => len = e | None => True end ->
  holds r (gcs st') -> okst st'.
Proof.
  intros fuel st len st' _ H HLen HW Hr. cbn [add_invs] in H. rewrite (proj2 (freeze_plain _) inv0 NL) in H.
  unfold add_inv in H. cbn [raw_new set_map gmaps] in H. rewrite N.eqb_refl in H. cbn [gks gvs gunk] in H.
  unfold inv_call in H. rewrite (emb_plain _ _ _ inv0 NL) in H. cbn [bindr] in H.
  cbn [raw_new set_map gmaps] in H. rewrite N.eqb_refl in H. cbn [bindr] in H. injection H as <-.
  cbn [set_map add_cs raw_new bump gcs] in Hr. apply holds_app in Hr as [_ Hr].
  eexists. split; [cbn [set_map gmaps]; rewrite N.eqb_refl; reflexivity|].
  constructor; cbn [gks gvs gitems ginvs gunk glen glayers]; auto.
  - left. reflexivity.
  - apply HP; [reflexivity|reflexivity|]. apply Hr. left. reflexivity.
  - destruct W; auto.
Qed.

(** ** Writes *)

Definition wr (o : act) : Prop := match o with
  | ASet m key _ => m = m0 -> W = None /\ P (ev r key) true /\ (L <> None -> P (ev r key) false -> False)
  | ARemove m key => m = m0 -> W = None /\ P (ev r key) false /\ L = None
  | _ => True end.

Lemma len0_ok : forall g, okg g -> len_ok (len_at g 0).
Proof.
  intros g O. unfold len_at. cbn [skipn]. pose proof (o_layers _ O) as F. destruct (glayers g) as [|l ls]; [exact (o_len _ O)|].
  inversion_clear F as [|? ? (_ & _ & C) _]. exact C.
Qed.
Lemma ok_write : forall g i ch, W = None -> okg g -> oki i -> len_ok (mkadd k (len_at g 0) ch) -> okg (with_item_layer k g i ch).
Proof.
  intros g i ch NW O OI OL. pose proof (o_layers _ O) as F.
  assert (X : forall l rest, okl l -> Forall okl rest -> okg (set_layers g (l :: rest))).
  { intros l rest A B. destruct O as [A1 B1 C D E G HH Q]. constructor; cbn [set_layers gks gvs ginvs gitems gunk glayers glen]; auto. rewrite NW. exact I. }
  assert (Nw : okl (mkLayer [i] (mkadd k (len_at g 0) ch) (0%nat, []))).
  { split; [constructor; [exact OI|constructor]|]. split; [constructor|exact OL]. }
  unfold with_item_layer. destruct (glayers g) as [|l rest] eqn:GL; [apply X; auto|].
  destruct (negb _ && _); [|apply X; auto]. inversion_clear F as [|? ? (A & B & C) F'].
  apply X; [|exact F']. split; [cbn [litems]; apply Forall_app; split; [exact A|constructor; [exact OI|constructor]]|]. split; assumption.
Qed.
Lemma set_pres : forall fuel st m key value st', set_ s k fuel st m key value = Ok st' -> wr (ASet m key value) -> pres st st'.
Proof.
  intros fuel st m key value st' H WR. unfold set_ in H.
  destruct (get s k fuel st m key None BTrue None) as [[st1 vp]| |] eqn:G; try discriminate H. cbn [bindr] in H.
  pose proof (get_if_constant_b_spec s SOK (gcs st1) (snd vp)) as GC.
  destruct (get_if_constant_b s (gcs st1) (snd vp)) as [c| |]; try discriminate H. cbn [bindr] in H.
  apply get_pres in G as [G GP]. destruct (gmaps st1 m) as [g1|] eqn:E1; [|discriminate H]. injection H as <-.
  split; [cbn [set_map gcs]; apply G|]. intros Hr O. cbn [set_map gcs] in Hr. pose proof (proj2 G Hr O) as O1.
  eapply okst_set; [exact E1| |exact O1]. intros EM OG. destruct (WR EM) as (NW & PT & PF). apply ok_write; auto.
  unfold len_ok. pose proof (len0_ok _ OG) as LL. unfold len_ok in LL. destruct L as [n|] eqn:EL; [|exact I].
  assert (PR : eb r (snd vp) = true).
  { specialize (GP EM O Hr eq_refl). destruct (eb r (snd vp)); [reflexivity|]. exfalso. apply PF; [discriminate|exact GP]. }
  rewrite <- (proj2 (proj2 (ok_add k KOK _ _))). cbn [evalv]. rewrite <- (proj2 (proj2 (ok_if k KOK _ _ _))).
  cbn [evalv width]. replace (eb r _) with true.
  - assert (Z : forall w, wrap w 0 = 0) by (intros; apply N.mod_0_l; apply pow2_ne). rewrite !Z, N.add_0_r.
    rewrite wrap_small by apply evalv_lt. exact LL.
  - destruct c as [[]|]; [reflexivity| |exact (eq_sym PR)]. destruct GC as [_ GC]. rewrite (GC r Hr) in PR. discriminate.
Qed.
Lemma remove_pres : forall fuel st m key st', remove s k fuel st m key = Ok st' -> wr (ARemove m key) -> pres st st'.
Proof.
  intros fuel st m key st' H WR. unfold remove in H.
  destruct (get s k fuel st m key None BTrue None) as [[st1 vp]| |] eqn:G; try discriminate H. cbn [bindr] in H.
  apply get_pres1 in G. destruct (gmaps st1 m) as [g1|] eqn:E1; [|discriminate H]. injection H as <-.
  eapply pres_trans; [exact G|].
  match goal with |- pres ?a (set_map ?b m ?x) => apply (pres_trans _ b _); [apply pres_maps; [apply incl_refl|reflexivity]|] end.
  eapply pres_set; [exact E1|]. intros EM OG. destruct (WR EM) as (NW & PF & EL). apply ok_write; auto. unfold len_ok. rewrite EL. exact I.
Qed.
Lemma step_pres : forall fuel st o st', step s k fuel st o st' -> wr o -> pres st st'.
Proof.
  intros fuel st o st' H WR. destruct H as
    [st m ks' vs' spec st' N H|st m key cval cond ver st' vp H|st m g key value st' E WK WV FO H|st m g key st' E WK FO H|st m pred st' b H|st c].
  - assert (Q : exists len invs, add_invs s k fuel (raw_new st m ks' vs' len) m invs = Ok st').
    { unfold map_new in H. destruct spec as [[len invs]|]; eauto. }
    destruct Q as [len [invs Q]]. apply add_invs_pres in Q. eapply pres_trans; [|exact Q].
    split; [apply incl_refl|]. intros _ (g & G & O). exists g. cbn [raw_new set_map bump gmaps].
    destruct (N.eqb_spec m0 m) as [->|_]; [congruence|]. auto.
  - eapply get_pres1; eauto.
  - eapply set_pres; eauto.
  - eapply remove_pres; eauto.
  - eapply forall_pres; eauto.
  - apply pres_add_cs.
Qed.
Lemma steps_pres : forall fuel st os st', steps s k fuel st os st' -> (forall o, In o os -> wr o) -> pres st st'.
Proof.
  intros fuel st os st' H. induction H; intros WR; [apply pres_refl|].
  eapply pres_trans; [eapply step_pres; eauto; apply WR; left; reflexivity|apply IHsteps; intros; apply WR; right; assumption].
Qed.
End Pres.

(** ** Arrays and empty maps *)

(** The number a user gave as an array's length. *)
Definition alen_val (r : env) (len : alen) : N := match len with LBv e => ev r e | LInt n => n end.
(** The length does not mention the names reserved for invariants, and reads no map; a
    Python int fits the sizes it is coerced to. *)
Definition alen_ok (ks sz : N) (len : alen) : Prop :=
  match len with
  | LBv e => nolkv e = true /\ (forall w z, In (z, w) (vvars e) -> 2 <= z) /\ (forall z, In z (vbools e) -> 1 <= z)
  | LInt n => n < 2 ^ ks /\ n < 2 ^ sz
  end.

Section Uses.
Variable s : solver.
Variable k : claripy.
Hypothesis SOK : solver_ok s.
Hypothesis KOK : claripy_ok k.

Lemma array_inv_says : forall r ks vs bound i, nolkv bound = true -> width bound = ks ->
  (forall w z, In (z, w) (vvars bound) -> 2 <= z) -> (forall z, In z (vbools bound) -> 1 <= z) ->
  width (ik i) = ks -> width (iv i) = vs -> eb r (substb (item_subst ks vs i) (array_inv ks bound)) = true ->
  eb r (ip i) = (ev r (ik i) <? ev r bound).
Proof.
  intros r ks vs bound i NL WB V1 V2 WK WV H. rewrite inv_subst_eval in H; auto.
  - unfold array_inv in H. cbn [evalb] in H. apply eqb_prop in H.
    assert (SAMELEN : forall q vp, ev (setKVP r q vp) bound = ev r bound).
    { intros q vp. apply evalv_agree. split.
      - intros x w Hx. specialize (V1 w x Hx). cbn [setKVP ebv]. destruct (N.eqb_spec x 0); [lia|]. destruct (N.eqb_spec x 1); [lia|]. reflexivity.
      - intros x Hx. specialize (V2 x Hx). cbn [setKVP ebool]. destruct (N.eqb_spec x 0); [lia|]. reflexivity. }
    rewrite SAMELEN in H. cbn [KEY PRESENT evalv evalb setKVP ebv ebool N.eqb val snd] in H.
    rewrite wrap_small in H by (rewrite <- WK; apply evalv_lt). auto.
  - unfold kv_sized, array_inv, KEY, PRESENT. cbn [bvvars vvars app]. apply forallb_forall. intros [x w] Hx.
    cbn in Hx. rewrite app_nil_r in Hx. destruct Hx as [E|Hx].
    + injection E as <- <-. cbn. apply N.eqb_refl.
    + specialize (V1 w x Hx). cbn. destruct (N.eqb_spec x 0); [lia|]. destruct (N.eqb_spec x 1); [lia|]. reflexivity.
Qed.

Lemma array_exact : forall fuel st0 m ks vs len st1 between st2 key cv cond ver st3 v p r,
  gmaps st0 m = None -> new_array s k fuel st0 m ks vs len = Ok st1 -> alen_ok ks (gsz st0) len ->
  steps s k fuel st1 between st2 ->
  (forall o, In o between -> match o with
     | ASet m' key' _ => m' = m -> ev r key' < alen_val r len
     | ARemove m' _ => m' <> m
     | _ => True end) ->
  get s k fuel st2 m key cv cond ver = Ok (st3, (v, p)) -> holds r (gcs st3) -> eb r cond = true ->
  eb r p = (ev r key <? alen_val r len).
Proof.
  intros fuel st0 m ks vs len st1 between st2 key cv cond ver st3 v p r NO NEW LO ST WB GET Hr HC.
  assert (Q : exists bound lenbv, add_invs s k fuel (raw_new st0 m ks vs lenbv) m [array_inv ks bound] = Ok st1 /\
    nolkv bound = true /\ width bound = ks /\ (forall w z, In (z, w) (vvars bound) -> 2 <= z) /\ (forall z, In z (vbools bound) -> 1 <= z) /\
    ev r bound = alen_val r len /\ ev r lenbv = alen_val r len).
  { destruct len as [e|n]; cbn [new_array alen_ok alen_val] in *.
    - destruct (N.eqb_spec (width e) ks) as [WE|]; [|discriminate]. destruct LO as (A & B & C). exists e, e. cbn [map_new] in NEW. auto 8.
    - destruct LO as [A B]. exists (BVV ks n), (BVV (gsz st0) n). cbn [map_new] in NEW. split; [exact NEW|].
      cbn [nolkv width vvars vbools evalv]. rewrite !wrap_small by assumption. split; [auto|]. split; [auto|]. split; [intros ? ? []|]. split; [intros ? []|]. auto. }
  destruct Q as (bound & lenbv & NEW' & NLb & WBd & V1 & V2 & EB & EL).
  set (n := alen_val r len) in *. set (P := fun q b => b = (q <? n)).
  assert (NL : nolkb (array_inv ks bound) = true) by (unfold array_inv, KEY, PRESENT; cbn [nolkb nolkv andb]; rewrite NLb; reflexivity).
  assert (HP : forall i, width (ik i) = ks -> width (iv i) = vs ->
    eb r (substb (item_subst ks vs i) (array_inv ks bound)) = true -> P (ev r (ik i)) (eb r (ip i))).
  { intros i A B C. unfold P. rewrite <- EB. eapply array_inv_says; eauto. }
  assert (HL : n = 0 -> forall q, P q false).
  { intros -> q. unfold P. symmetry. apply N.ltb_ge. lia. }
  pose proof (get_pres s k SOK r m ks vs (array_inv ks bound) NL P HP (Some n) HL None _ _ _ _ _ _ _ _ _ GET) as [GP GV].
  assert (WR : forall o, In o between -> wr r m P (Some n) None o).
  { intros o Ho. specialize (WB o Ho). destruct o; cbn [wr]; auto.
    - intros ->. specialize (WB eq_refl). unfold P. split; [auto|]. split; [symmetry; apply N.ltb_lt; auto|].
      intros _ F. symmetry in F. apply N.ltb_ge in F. lia.
    - intros ->. contradiction. }
  pose proof (steps_pres s k SOK KOK r m ks vs (array_inv ks bound) NL P HP (Some n) HL None fuel _ _ _ ST WR) as SP.
  assert (H2 : holds r (gcs st2)) by (eapply holds_incl; [exact (proj1 GP)|exact Hr]).
  assert (H1 : holds r (gcs st1)) by (eapply holds_incl; [exact (proj1 SP)|exact H2]).
  apply GV; auto. apply (proj2 SP H2).
  eapply new_okst; eauto; exact I.
Qed.

(** A key of a map created empty is present only if it was written since. *)
Lemma empty_only_written : forall fuel st0 m ks vs st1 between st2 key cv cond ver st3 v p r,
  gmaps st0 m = None -> map_new s k fuel st0 m ks vs None = Ok st1 ->
  steps s k fuel st1 between st2 ->
  get s k fuel st2 m key cv cond ver = Ok (st3, (v, p)) -> holds r (gcs st3) -> eb r cond = true ->
  eb r p = true -> exists key' value, In (ASet m key' value) between /\ ev r key' = ev r key.
Proof.
  intros fuel st0 m ks vs st1 between st2 key cv cond ver st3 v p r NO NEW ST GET Hr HC HPr.
  set (P := fun (q : N) (b : bool) => b = true -> exists key' value, In (ASet m key' value) between /\ ev r key' = q).
  assert (HP : forall i, width (ik i) = ks -> width (iv i) = vs ->
    eb r (substb (item_subst ks vs i) (BNot PRESENT)) = true -> P (ev r (ik i)) (eb r (ip i))).
  { intros i A B C. unfold PRESENT in C. cbn [substb item_subst sb N.eqb evalb] in C. unfold P. intros X. rewrite X in C. discriminate C. }
  assert (HL : True -> forall q, P q false) by (intros _ q X; discriminate X).
  pose proof (get_pres s k SOK r m ks vs (BNot PRESENT) eq_refl P HP None HL None _ _ _ _ _ _ _ _ _ GET) as [GP GV].
  assert (WR : forall o, In o between -> wr r m P None None o).
  { intros o Ho. destruct o; cbn [wr]; auto.
    - intros ->. split; [auto|]. split; [|congruence]. intros _. eauto. }
  pose proof (steps_pres s k SOK KOK r m ks vs (BNot PRESENT) eq_refl P HP None HL None fuel _ _ _ ST WR) as SP.
  assert (H2 : holds r (gcs st2)) by (eapply holds_incl; [exact (proj1 GP)|exact Hr]).
  assert (H1 : holds r (gcs st1)) by (eapply holds_incl; [exact (proj1 SP)|exact H2]).
  apply (GV eq_refl); auto. apply (proj2 SP H2). cbn [map_new] in NEW.
  eapply new_okst; eauto; exact I.
Qed.

(** A forall over a map created empty and not changed since is true. *)
Lemma empty_forall : forall fuel st0 m ks vs st1 between st2 pred st3 t r,
  gmaps st0 m = None -> map_new s k fuel st0 m ks vs None = Ok st1 ->
  steps s k fuel st1 between st2 ->
  (forall o, In o between -> match o with ASet m' _ _ | ARemove m' _ => m' <> m | _ => True end) ->
  forall_ s k fuel st2 m pred = Ok (st3, t) -> holds r (gcs st3) -> t = BTrue.
Proof.
  intros fuel st0 m ks vs st1 between st2 pred st3 t r NO NEW ST WB FA Hr.
  set (P := fun (q : N) (b : bool) => True).
  assert (HP : forall i, width (ik i) = ks -> width (iv i) = vs ->
    eb r (substb (item_subst ks vs i) (BNot PRESENT)) = true -> P (ev r (ik i)) (eb r (ip i))) by (intros; exact I).
  assert (HL : True -> forall q, P q false) by (intros; exact I).
  pose proof (forall_pres s k SOK r m ks vs (BNot PRESENT) eq_refl P HP None HL (Some (BVV (gsz st0) 0)) _ _ _ _ _ _ FA) as FP.
  assert (WR : forall o, In o between -> wr r m P None (Some (BVV (gsz st0) 0)) o).
  { intros o Ho. specialize (WB o Ho). destruct o; cbn [wr]; auto; intros ->; contradiction. }
  pose proof (steps_pres s k SOK KOK r m ks vs (BNot PRESENT) eq_refl P HP None HL (Some (BVV (gsz st0) 0)) fuel _ _ _ ST WR) as SP.
  assert (H2 : holds r (gcs st2)) by (eapply holds_incl; [exact (proj1 FP)|exact Hr]).
  assert (H1 : holds r (gcs st1)) by (eapply holds_incl; [exact (proj1 SP)|exact H2]).
  assert (O : okst r m ks vs (BNot PRESENT) P None (Some (BVV (gsz st0) 0)) st2).
  { apply (proj2 SP H2). cbn [map_new] in NEW. eapply new_okst; eauto; try exact I; reflexivity. }
  destruct O as (g & G & O). pose proof (o_unw _ _ _ _ _ _ _ _ O) as [O1 O2]. cbn in O1, O2.
  unfold forall_ in FA. rewrite G in FA. unfold is_definitely_empty, len_at in FA. rewrite O1 in FA. cbn [skipn] in FA.
  rewrite O2 in FA. cbn [width] in FA. rewrite (proj2 (bv_eqb_eq _ _) eq_refl) in FA. injection FA as _ <-. reflexivity.
Qed.
End Uses.
