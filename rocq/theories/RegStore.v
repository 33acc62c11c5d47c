(** * What an accepted register write leaves behind *)

From Coq Require Import NArith ZArith List Bool Lia Arith String.
From Verif Require Import Expr Solver Regs RegFacts RegActions.
Import ListNotations.
Open Scope N_scope.

Section Store.
Variable s : solver.
Variable is_true : bexp -> bool.
Variables registers pci_regs : list reg.
Variable actions : list action.
Hypothesis regs_ok : Forall reg_ok (registers ++ pci_regs).
Hypothesis names1 : forall d d', In d registers -> In d' registers -> r_name d = r_name d' -> d = d'.
Hypothesis names2 : forall d d', In d pci_regs -> In d' pci_regs -> r_name d = r_name d' -> d = d'.
Hypothesis posts_named : forall a e, In a actions -> a_post a = Some e ->
  (forall rg f v, In (rg, f, v) (settings e) -> named registers pci_regs rg f) /\ NoDup (map fst (settings e)).

Notation widths := (widths_ok registers pci_regs).

Lemma fetch_widths : forall spec m x d index ui v m' x',
  (forall d d', In d spec -> In d' spec -> r_name d = r_name d' -> d = d') -> In d spec -> reg_ok d ->
  (forall d' i, In d' spec -> width_ok m d' i) -> fetch_reg m x d index ui = Ok (v, m', x') ->
  (forall d' i, In d' spec -> width_ok m' d' i) /\ width v = r_len d.
Proof.
  intros spec m x d index ui v m' x' NM Hd Dok W H.
  destruct (fetch_total m x d index ui Dok (W d index Hd)) as (v0 & m0 & x0 & E & WV).
  rewrite E in H. assert (Q : v0 = v /\ m0 = m') by (split; congruence). destruct Q as [-> ->]. clear H.
  destruct (fetch_spec _ _ _ _ _ _ _ _ E) as (_ & F2 & F3 & _). split; [|exact WV].
  intros d' i Hd' v' Hv'. destruct (rkey_eqb (key_of d' i) (key_of d index)) eqn:K.
  - apply rkey_eqb_eq in K. assert (d' = d) by (apply NM; auto; apply (f_equal fst) in K; exact K). subst d'.
    rewrite K, F2 in Hv'. congruence.
  - rewrite F3 in Hv'; [exact (W d' i Hd' v' Hv')|]. intros Q. rewrite Q, (proj2 (rkey_eqb_eq _ _) eq_refl) in K. discriminate.
Qed.

(** Checking a write only reads registers, and records actions. *)
Definition keeps (dv dv' : device) : Prop :=
  extends dv dv' /\ (widths dv -> widths dv') /\
  exists new, d_log dv' = new ++ d_log dv /\ d_latest dv' = match new with [] => d_latest dv | (n, _) :: _ => Some n end.
Lemma keeps_refl : forall dv, keeps dv dv.
Proof. intros dv. split; [apply extends_refl|]. split; [auto|]. exists []. auto. Qed.
Lemma keeps_trans : forall a b c, keeps a b -> keeps b c -> keeps a c.
Proof.
  intros a b c (X1 & W1 & n1 & L1 & T1) (X2 & W2 & n2 & L2 & T2). split; [eapply extends_trans; eauto|]. split; [auto|].
  exists (n2 ++ n1). split; [rewrite L2, L1, app_assoc; reflexivity|]. rewrite T2, T1. destruct n2 as [|[n i] n2]; reflexivity.
Qed.
Lemma regs_ok1 : forall d, In d registers -> reg_ok d.
Proof. intros d H. rewrite Forall_forall in regs_ok. apply regs_ok. apply in_or_app. auto. Qed.
Lemma regs_ok2 : forall d, In d pci_regs -> reg_ok d.
Proof. intros d H. rewrite Forall_forall in regs_ok. apply regs_ok. apply in_or_app. auto. Qed.
Lemma fetch_keeps : forall dv d index v m x, In d registers ->
  fetch_reg (d_regs dv) (d_next dv) d index (d_init dv) = Ok (v, m, x) ->
  keeps dv (mkDev m (d_pci dv) x (d_init dv) (d_counter dv) (d_latest dv) (d_log dv)).
Proof.
  intros dv d index v m x Hd H. split; [split; [apply (fetch_spec _ _ _ _ _ _ _ _ H)|auto]|]. split.
  - intros [W1 W2]. split; [|exact W2]. apply (fetch_widths registers _ _ _ _ _ _ _ _ names1 Hd (regs_ok1 _ Hd) W1 H).
  - exists []. auto.
Qed.
Lemma fetch_named_keeps : forall dv rg index d v dv', fetch_named registers pci_regs dv rg index = Ok (d, v, dv') -> keeps dv dv'.
Proof.
  intros dv rg index d v dv' H. unfold fetch_named in H. destruct (find_reg registers rg) as [d0|] eqn:E0.
  - apply bindr_ok in H as ([[v0 m] x] & H1 & H2).
    assert (Q : dv' = mkDev m (d_pci dv) x (d_init dv) (d_counter dv) (d_latest dv) (d_log dv)) by congruence. rewrite Q.
    eapply fetch_keeps; [apply (find_reg_in _ _ _ E0)|exact H1].
  - destruct (find_reg pci_regs rg) as [d0|] eqn:E1; [|discriminate].
    apply bindr_ok in H as ([[v0 m] x] & H1 & H2).
    assert (Q : dv' = mkDev (d_regs dv) m x (d_init dv) (d_counter dv) (d_latest dv) (d_log dv)) by congruence. rewrite Q.
    pose proof (proj1 (find_reg_in _ _ _ E1)) as Hd.
    split; [split; [auto|apply (fetch_spec _ _ _ _ _ _ _ _ H1)]|]. split.
    + intros [W1 W2]. split; [exact W1|]. apply (fetch_widths pci_regs _ _ _ _ _ _ _ _ names2 Hd (regs_ok2 _ Hd) W2 H1).
    + exists []. auto.
Qed.
Lemma generate_keeps : forall c dv index e dv', generate registers pci_regs dv index c = Ok (e, dv') -> keeps dv dv'.
Proof.
  induction c as [rg f|c IH|a IHa b IHb|a IHa b IHb]; intros dv index e dv' H; cbn [generate] in H.
  - apply bindr_ok in H as ([[d v] dv1] & H1 & H2). destruct (find_field d f); [|discriminate].
    apply bindr_ok in H2 as (e1 & _ & H2). assert (Q : dv1 = dv') by congruence. subst dv1. eapply fetch_named_keeps; eauto.
  - apply bindr_ok in H as ([e1 dv1] & H1 & H2). assert (Q : dv1 = dv') by (cbn in H2; congruence). subst dv1. eauto.
  - apply bindr_ok in H as ([e1 dv1] & H1 & H). apply bindr_ok in H as ([e2 dv2] & H2 & H3).
    assert (Q : dv2 = dv') by (cbn in H3; congruence). subst dv2. eapply keeps_trans; [eapply IHa; eauto|eapply IHb; eauto].
  - apply bindr_ok in H as ([e1 dv1] & H1 & H). apply bindr_ok in H as ([e2 dv2] & H2 & H3).
    assert (Q : dv2 = dv') by (cbn in H3; congruence). subst dv2. eapply keeps_trans; [eapply IHa; eauto|eapply IHb; eauto].
Qed.
Lemma verify_field_keeps : forall cs d index f new acts dv valid b dv',
  verify_field s registers pci_regs cs d index f new acts dv valid = Ok (b, dv') -> keeps dv dv'.
Proof.
  induction acts as [|a acts IH]; intros dv valid b dv' H; cbn [verify_field] in H.
  - assert (E : dv = dv') by congruence. subst. apply keeps_refl.
  - apply bindr_ok in H as (m & Hm & H). destruct m; cbn [negb] in H; [|eapply IH; eauto].
    apply bindr_ok in H as ([p dv1] & Hp & H). cbn [fst snd] in H.
    assert (X1 : keeps dv dv1).
    { destruct (a_pre a) as [c|].
      - apply bindr_ok in Hp as ([e dv2] & Hg & Hp). cbn [fst snd] in Hp. assert (E : dv2 = dv1) by congruence. subst.
        eapply generate_keeps; eauto.
      - assert (E : dv = dv1) by congruence. subst. apply keeps_refl. }
    destruct p; cbn [negb] in H; [|eapply keeps_trans; eauto].
    eapply keeps_trans; [exact X1|]. eapply keeps_trans; [|eapply IH; exact H].
    destruct (String.eqb (a_name a) "Initiate Software Reset"); (split; [split; auto|]; split; [intros [W1 W2]; split; auto|]; eexists [_]; split; reflexivity).
Qed.
Lemma verify_fields_keeps : forall cs d index fields dv dv',
  verify_fields s registers pci_regs actions cs d index fields dv = Ok dv' -> keeps dv dv'.
Proof.
  induction fields as [|[[f p] new] fields IH]; intros dv dv' H; cbn [verify_fields] in H.
  - injection H as <-. apply keeps_refl.
  - apply bindr_ok in H as ([b dv1] & H1 & H2). cbn [fst snd] in H2. destruct b; [|discriminate].
    eapply keeps_trans; [eapply verify_field_keeps; eauto|eauto].
Qed.

(** Effects only touch the registers they name. *)
Lemma change_named_frame : forall dv rg f index new dv', change_named registers pci_regs dv rg f index new = Ok dv' ->
  d_log dv' = d_log dv /\ d_latest dv' = d_latest dv /\
  forall k, fst k <> rg -> dget (d_regs dv') k = dget (d_regs dv) k /\ dget (d_pci dv') k = dget (d_pci dv) k.
Proof.
  assert (CH : forall m x d fd index ui new m' x' k, change_reg_field m x d fd index ui new = Ok (m', x') -> fst k <> r_name d -> dget m' k = dget m k).
  { intros m x d fd index ui new m' x' k H Hk. unfold change_reg_field in H. apply bindr_ok in H as ([[old m1] x1] & H1 & H).
    cbv beta iota in H. apply bindr_ok in H as (v & _ & H2). assert (Q : m' = update_reg m1 d index v) by congruence. subst m'.
    assert (KN : k <> key_of d index) by (intros ->; apply Hk; reflexivity).
    unfold update_reg. rewrite dget_other by exact KN. apply (fetch_spec _ _ _ _ _ _ _ _ H1). exact KN. }
  intros dv rg f index new dv' H. unfold change_named in H. destruct (find_reg registers rg) as [d|] eqn:E0.
  - destruct (find_field d f) as [fd|]; [|discriminate]. apply bindr_ok in H as ([m' x'] & H1 & H2). cbn [fst snd] in H2.
    assert (Q : dv' = mkDev m' (d_pci dv) x' (d_init dv) (d_counter dv) (d_latest dv) (d_log dv)) by congruence. subst dv'.
    split; [reflexivity|]. split; [reflexivity|]. intros k Hk. split; [|reflexivity]. eapply CH; eauto. destruct (find_reg_in _ _ _ E0). congruence.
  - destruct (find_reg pci_regs rg) as [d|] eqn:E1; [|discriminate].
    destruct (find_field d f) as [fd|]; [|discriminate]. apply bindr_ok in H as ([m' x'] & H1 & H2). cbn [fst snd] in H2.
    assert (Q : dv' = mkDev (d_regs dv) m' x' (d_init dv) (d_counter dv) (d_latest dv) (d_log dv)) by congruence. subst dv'.
    split; [reflexivity|]. split; [reflexivity|]. intros k Hk. split; [reflexivity|]. eapply CH; eauto. destruct (find_reg_in _ _ _ E1). congruence.
Qed.
Definition touched (l : list (string * string * N)) : list string := map (fun t => fst (fst t)) l.
Lemma apply_frame : forall e dv index dv', apply registers pci_regs dv index e = Ok dv' ->
  d_log dv' = d_log dv /\
  forall k, ~ In (fst k) (touched (settings e)) -> dget (d_regs dv') k = dget (d_regs dv) k /\ dget (d_pci dv') k = dget (d_pci dv) k.
Proof.
  induction e as [rg f|rg f|a IHa b IHb]; intros dv index dv' H; cbn [apply] in H.
  - destruct (change_named_frame _ _ _ _ _ _ H) as (L & _ & F). split; [exact L|]. intros k Hk. apply F. intros Q. apply Hk. left. auto.
  - destruct (change_named_frame _ _ _ _ _ _ H) as (L & _ & F). split; [exact L|]. intros k Hk. apply F. intros Q. apply Hk. left. auto.
  - apply bindr_ok in H as (dv1 & H1 & H2). destruct (IHa _ _ _ H1) as [L1 F1]. destruct (IHb _ _ _ H2) as [L2 F2].
    split; [congruence|]. intros k Hk. unfold touched in Hk. cbn [settings] in Hk. rewrite map_app in Hk.
    destruct (F2 k) as [A B]; [intros Q; apply Hk, in_or_app; auto|]. destruct (F1 k) as [A1 B1]; [intros Q; apply Hk, in_or_app; auto|].
    split; congruence.
Qed.
Lemma look_extends : forall dv dv' r index rg f v, extends dv dv' ->
  look registers pci_regs dv r index rg f = Some v -> look registers pci_regs dv' r index rg f = Some v.
Proof.
  intros dv dv' r index rg f v [X1 X2] H. unfold look in *. destruct (find_reg registers rg) as [d|].
  - destruct (dget (d_regs dv) (key_of d index)) as [o|] eqn:E; [|discriminate]. rewrite (X1 _ _ E). exact H.
  - destruct (find_reg pci_regs rg) as [d|]; [|discriminate].
    destruct (dget (d_pci dv) (key_of d index)) as [o|] eqn:E; [|discriminate]. rewrite (X2 _ _ E). exact H.
Qed.

(** What the table says the newest of these log entries does to the device. *)
Definition effects_of (new : list (string * N)) : list (string * string * N) :=
  match new with
  | [] => []
  | (n, _) :: _ => match find (fun a => String.eqb (a_name a) n) actions with
                   | Some a => match a_post a with Some e => settings e | None => [] end
                   | None => []
                   end
  end.

Lemma device_write_stores : forall cs dv addr value dv',
  device_write s is_true registers pci_regs actions cs dv addr value = Ok dv' ->
  widths dv -> d_latest dv = None ->
  exists rg index d new, find_reg_from_addr registers addr = Ok (rg, index) /\ find_reg registers rg = Some d /\
  d_log dv' = new ++ d_log dv /\ d_latest dv' = None /\
  (width value = r_len d -> widths dv' /\
   (forall r f fd, find_field d f = Some fd -> ~ In (rg, f) (map fst (effects_of new)) ->
      look registers pci_regs dv' r index rg f = Some (field_value r value fd)) /\
   (forall r rg' f v, In (rg', f, v) (effects_of new) -> look registers pci_regs dv' r index rg' f = Some v) /\
   (forall r rg' f v, rg' <> rg -> ~ In (rg', f) (map fst (effects_of new)) ->
      look registers pci_regs dv r index rg' f = Some v -> look registers pci_regs dv' r index rg' f = Some v)) /\
  (forall r rg' index' f v, rg' <> rg \/ (is_reg_indexed d = true /\ index' <> index) -> ~ In rg' (touched (effects_of new)) ->
      look registers pci_regs dv r index' rg' f = Some v -> look registers pci_regs dv' r index' rg' f = Some v).
Proof.
  intros cs dv addr value dv' H W LT. unfold device_write in H. apply bindr_ok in H as ([rg index] & H1 & H). cbn [fst snd] in H.
  destruct (find_reg registers rg) as [d|] eqn:Ed; [|discriminate]. destruct (find_reg_in _ _ _ Ed) as [Hd Hn].
  apply bindr_ok in H as ([[old m] x] & H2 & H). cbv beta iota in H.
  apply bindr_ok in H as (fields & H3 & H). apply bindr_ok in H as (fields' & H4 & H). apply bindr_ok in H as (dv1 & H5 & H).
  unfold verify_write in H5. apply bindr_ok in H5 as (dv2 & H5 & H6).
  pose proof (keeps_trans _ _ _ (fetch_keeps _ _ _ _ _ _ Hd H2) (verify_fields_keeps _ _ _ _ _ _ H5)) as (X & WW & new & LG & LA).
  rewrite LT in LA.
  set (dv3 := mkDev (update_reg (d_regs dv1) d index value) (d_pci dv1) (d_next dv1) (d_init dv1) (d_counter dv1) (d_latest dv1) (d_log dv1)) in H.
  assert (D3 : d_regs dv3 = update_reg (d_regs dv2) d index value /\ d_pci dv3 = d_pci dv2 /\ d_log dv3 = d_log dv2 /\ d_latest dv3 = d_latest dv2).
  { assert (Q : dv1 = mkDev (d_regs dv2) (d_pci dv2) (d_next dv2) (d_init dv2) (d_counter dv + 1) (d_latest dv2) (d_log dv2)) by (cbn [d_counter] in H6; congruence).
    subst dv1. split; [reflexivity|]. split; [reflexivity|]. split; reflexivity. }
  destruct D3 as (D3r & D3p & D3l & D3t). clearbody dv3. clear H6 H5 H4 H3 H2.
  assert (W3 : width value = r_len d -> widths dv3).
  { intros WV. destruct (WW W) as [A B]. split; [|rewrite D3p; exact B]. intros d' i Hd' v' Hv'. rewrite D3r in Hv'. unfold update_reg in Hv'.
    destruct (rkey_eqb (key_of d' i) (key_of d index)) eqn:K.
    - apply rkey_eqb_eq in K. assert (d' = d) by (apply names1; auto; apply (f_equal fst) in K; exact K). subst d'.
      rewrite K, dget_set in Hv'. congruence.
    - rewrite dget_other in Hv'; [exact (A d' i Hd' v' Hv')|]. intros Q. rewrite Q, (proj2 (rkey_eqb_eq _ _) eq_refl) in K. discriminate. }
  assert (OWN : forall r f fd, find_field d f = Some fd -> look registers pci_regs dv3 r index rg f = Some (field_value r value fd)).
  { intros r f fd Hf. unfold look. rewrite Ed, D3r. unfold update_reg. rewrite dget_set, Hf. reflexivity. }
  assert (KO : forall rg' index' d', rg' <> rg \/ (is_reg_indexed d = true /\ index' <> index) -> find_reg registers rg' = Some d' -> key_of d' index' <> key_of d index).
  { intros rg' index' d' Hne Ed' Q. destruct (find_reg_in _ _ _ Ed') as [_ Hn'].
    assert (QN : r_name d' = r_name d) by (apply (f_equal fst) in Q; exact Q). destruct Hne as [Hne|[IX NE]]; [congruence|].
    assert (d' = d) by (apply names1; auto; apply (find_reg_in _ _ _ Ed')). subst d'. unfold key_of in Q. rewrite IX in Q. congruence. }
  assert (OTH : forall r rg' index' f v, rg' <> rg \/ (is_reg_indexed d = true /\ index' <> index) ->
     look registers pci_regs dv r index' rg' f = Some v -> look registers pci_regs dv3 r index' rg' f = Some v).
  { intros r rg' index' f v Hne L. apply (look_extends _ _ _ _ _ _ _ X) in L. unfold look in *. rewrite D3r, D3p.
    destruct (find_reg registers rg') as [d'|] eqn:Ed'; [|exact L]. unfold update_reg. rewrite dget_other by (eapply KO; eauto). exact L. }
  exists rg, index, d, new. split; [exact H1|]. split; [exact Ed|]. rewrite D3t, LA in H.
  assert (SAME : effects_of new = [] -> dv' = dv3 \/ (dv' = mkDev (d_regs dv3) (d_pci dv3) (d_next dv3) (d_init dv3) (d_counter dv3) None (d_log dv3)) ->
    d_log dv' = d_log dv3 -> d_latest dv' = None ->
    d_log dv' = new ++ d_log dv /\ d_latest dv' = None /\
    (width value = r_len d -> widths dv' /\
     (forall r f fd, find_field d f = Some fd -> ~ In (rg, f) (map fst (effects_of new)) ->
        look registers pci_regs dv' r index rg f = Some (field_value r value fd)) /\
     (forall r rg' f v, In (rg', f, v) (effects_of new) -> look registers pci_regs dv' r index rg' f = Some v) /\
     (forall r rg' f v, rg' <> rg -> ~ In (rg', f) (map fst (effects_of new)) ->
        look registers pci_regs dv r index rg' f = Some v -> look registers pci_regs dv' r index rg' f = Some v)) /\
    (forall r rg' index' f v, rg' <> rg \/ (is_reg_indexed d = true /\ index' <> index) -> ~ In rg' (touched (effects_of new)) ->
        look registers pci_regs dv r index' rg' f = Some v -> look registers pci_regs dv' r index' rg' f = Some v)).
  { intros EF DV DL DT. rewrite EF.
    assert (LK : forall r i rg' f, look registers pci_regs dv' r i rg' f = look registers pci_regs dv3 r i rg' f) by (intros; destruct DV as [->| ->]; reflexivity).
    assert (WD : widths dv3 -> widths dv') by (intros Q; destruct DV as [->| ->]; [exact Q|destruct Q; split; assumption]).
    split; [congruence|]. split; [exact DT|]. split; [intros WV; split; [auto|]; split; [|split]|]; intros *; rewrite ?LK; auto. intros []. }
  destruct new as [|[n i] new].
  - assert (Q : dv' = dv3) by congruence. apply SAME; [reflexivity|auto|congruence|congruence].
  - destruct (find (fun a => String.eqb (a_name a) n) actions) as [a|] eqn:Fa; [|discriminate].
    apply bindr_ok in H as (dv4 & H & H').
    assert (Q : dv' = mkDev (d_regs dv4) (d_pci dv4) (d_next dv4) (d_init dv4) (d_counter dv4) None (d_log dv4)) by congruence.
    destruct (a_post a) as [e|] eqn:Ep.
    2:{ assert (dv3 = dv4) by congruence. subst dv4. apply SAME; [cbn [effects_of]; rewrite Fa, Ep; reflexivity|auto|subst dv'; reflexivity|subst dv'; reflexivity]. }
    clear SAME. destruct (apply_frame _ _ _ _ H) as [FL FF].
    assert (EF : effects_of ((n, i) :: new) = settings e) by (cbn [effects_of]; rewrite Fa, Ep; reflexivity). rewrite EF.
    destruct (posts_named a e (proj1 (find_some _ _ Fa)) Ep) as [PN PD].
    assert (LK : forall r i rg' f, look registers pci_regs dv' r i rg' f = look registers pci_regs dv4 r i rg' f) by (intros; subst dv'; reflexivity).
    split; [subst dv'; cbn [d_log]; congruence|]. split; [subst dv'; reflexivity|]. split.
    + intros WV. destruct (apply_spec registers pci_regs regs_ok names1 names2 e dv3 index (W3 WV) PN PD) as (dv5 & E5 & W5 & A5 & O5).
      assert (dv5 = dv4) by congruence. subst dv5. split; [subst dv'; destruct W5; split; assumption|]. split; [|split].
      * intros r f fd Hf Hni. rewrite LK. apply O5; auto.
      * intros r rg' f v Hin. rewrite LK. eauto.
      * intros r rg' f v Hne Hni L. rewrite LK. apply O5; auto.
    + intros r rg' index' f v Hne Hni L. rewrite LK. specialize (OTH r rg' index' f v Hne L).
      unfold look in *. destruct (find_reg registers rg') as [d'|] eqn:Ed'.
      * destruct (FF (key_of d' index')) as [A _]; [cbn [key_of fst]; rewrite (proj2 (find_reg_in _ _ _ Ed')); exact Hni|]. rewrite A. exact OTH.
      * destruct (find_reg pci_regs rg') as [d'|] eqn:Ed''; [|exact OTH].
        destruct (FF (key_of d' index')) as [_ A]; [cbn [key_of fst]; rewrite (proj2 (find_reg_in _ _ _ Ed'')); exact Hni|]. rewrite A. exact OTH.
Qed.
End Store.
