(** * Register writes and the actions that justify them *)

From Coq Require Import NArith ZArith List Bool Lia Arith String.
From Verif Require Import Expr Solver Regs RegFacts.
Import ListNotations.
Open Scope N_scope.

(** ** What preconditions and actions mean, on plain numbers *)

(** [look rg f] is the value of a field. *)
Fixpoint cond_sem (look : string -> string -> option N) (c : cond) : option bool :=
  match c with
  | CReg rg f => match look rg f with Some v => Some (v =? 1) | None => None end
  | CNot c => option_map negb (cond_sem look c)
  | CAnd a b => match cond_sem look a, cond_sem look b with Some x, Some y => Some (x && y) | _, _ => None end
  | COr a b => match cond_sem look a, cond_sem look b with Some x, Some y => Some (x || y) | _, _ => None end
  end.

Section WithTables.
Variable s : solver.
Hypothesis SOK : solver_ok s.
Variable is_true : bexp -> bool.
Hypothesis is_true_ok : forall c, is_true c = true -> forall r, eb r c = true.
Variables registers pci_regs : list reg.
Variable actions : list action.

(** The value of a field in a device, in an assignment of the symbols. *)
Definition look (dv : device) (r : env) (index : N) (rg f : string) : option N :=
  match find_reg registers rg with
  | Some d => match dget (d_regs dv) (key_of d index), find_field d f with
              | Some v, Some fd => Some (field_value r v fd) | _, _ => None end
  | None => match find_reg pci_regs rg with
            | Some d => match dget (d_pci dv) (key_of d index), find_field d f with
                        | Some v, Some fd => Some (field_value r v fd) | _, _ => None end
            | None => None
            end
  end.
(** All fields in the condition have one bit. *)
Definition one_bit_field (rg f : string) : bool :=
  match find_reg registers rg with
  | Some d => match find_field d f with Some fd => f_start fd =? f_end fd | None => false end
  | None => match find_reg pci_regs rg with
            | Some d => match find_field d f with Some fd => f_start fd =? f_end fd | None => false end
            | None => false
            end
  end.
Fixpoint one_bit (c : cond) : bool :=
  match c with
  | CReg rg f => one_bit_field rg f
  | CNot c => one_bit c
  | CAnd a b | COr a b => one_bit a && one_bit b
  end.
(** What the action lets a driver do to this field, for a new value [n] of the field. *)
Definition justifies (a : action) (d : reg) (f : field) (r : env) (new : bv) : Prop :=
  match a_act a with
  | AWrite rg fl valid => rg = r_name d /\ fl = f_name f /\ f_start f <> f_end f /\ exists e, valid new = Ok e /\ eb r e = true
  | ASet rg fl => rg = r_name d /\ fl = f_name f /\ f_start f = f_end f /\ ev r new = 2 ^ width new - 1
  | AClear rg fl => rg = r_name d /\ fl = f_name f /\ f_start f = f_end f /\ ev r new = 0
  end.

(** ** Nothing stored is forgotten *)
Definition extends (dv dv' : device) : Prop :=
  (forall k v, dget (d_regs dv) k = Some v -> dget (d_regs dv') k = Some v) /\
  (forall k v, dget (d_pci dv) k = Some v -> dget (d_pci dv') k = Some v).
Lemma extends_refl : forall dv, extends dv dv.
Proof. intros dv. split; auto. Qed.
Lemma extends_trans : forall a b c, extends a b -> extends b c -> extends a c.
Proof. intros a b c [H1 H2] [H3 H4]. split; auto. Qed.

Lemma fetch_named_spec : forall dv rg index d v dv', fetch_named registers pci_regs dv rg index = Ok (d, v, dv') ->
  extends dv dv' /\
  (forall dv'' r f fd, extends dv' dv'' -> find_field d f = Some fd -> look dv'' r index rg f = Some (field_value r v fd)) /\
  (find_reg registers rg = Some d \/ (find_reg registers rg = None /\ find_reg pci_regs rg = Some d)).
Proof.
  intros dv rg index d v dv' H. unfold fetch_named in H. unfold look.
  destruct (find_reg registers rg) as [d0|] eqn:E0.
  - apply bindr_ok in H as ([[v0 m] x] & H1 & H2).
    assert (E : d0 = d /\ v0 = v /\ dv' = mkDev m (d_pci dv) x (d_init dv) (d_counter dv) (d_latest dv) (d_log dv)) by (split; [|split]; congruence).
    destruct E as (-> & -> & ->). destruct (fetch_spec _ _ _ _ _ _ _ _ H1) as (_ & F2 & _ & F4).
    split; [split; [exact F4|auto]|]. split; [|auto]. intros dv'' r f fd [X1 _] Hf. cbn [d_regs] in X1.
    rewrite (X1 _ _ F2), Hf. reflexivity.
  - destruct (find_reg pci_regs rg) as [d0|] eqn:E1; [|discriminate].
    apply bindr_ok in H as ([[v0 m] x] & H1 & H2).
    assert (E : d0 = d /\ v0 = v /\ dv' = mkDev (d_regs dv) m x (d_init dv) (d_counter dv) (d_latest dv) (d_log dv)) by (split; [|split]; congruence).
    destruct E as (-> & -> & ->). destruct (fetch_spec _ _ _ _ _ _ _ _ H1) as (_ & F2 & _ & F4).
    split; [split; [auto|exact F4]|]. split; [|auto]. intros dv'' r f fd [_ X2] Hf. cbn [d_pci] in X2.
    rewrite (X2 _ _ F2), Hf. reflexivity.
Qed.

Lemma bit1_cases : forall v, v < 2 ^ 1 -> v = 0 \/ v = 1.
Proof. intros v. change (2 ^ 1) with 2. lia. Qed.
Lemma bvnot_1 : forall r e, width e = 1 -> (ev r (bvnot e) =? 1) = negb (ev r e =? 1).
Proof.
  intros r e H. unfold bvnot. cbn [evalv]. rewrite H. pose proof (evalv_lt lk0 r e) as L. rewrite H in L.
  destruct (bit1_cases _ L) as [E|E]; rewrite E; reflexivity.
Qed.

Lemma generate_spec : forall c dv index e dv', generate registers pci_regs dv index c = Ok (e, dv') -> one_bit c = true ->
  width e = 1 /\ extends dv dv' /\
  forall dv'' r, extends dv' dv'' -> cond_sem (look dv'' r index) c = Some (ev r e =? 1).
Proof.
  induction c as [rg f|c IH|a IHa b IHb|a IHa b IHb]; intros dv index e dv' H Hb; cbn [generate] in H; cbn [one_bit] in Hb.
  - apply bindr_ok in H as ([[d v] dv1] & H1 & H2). destruct (fetch_named_spec _ _ _ _ _ _ H1) as (X & L & W).
    destruct (find_field d f) as [fd|] eqn:Ef; [|discriminate].
    apply bindr_ok in H2 as (e1 & H3 & H4). apply slice_inv in H3 as (S1 & S2 & ->).
    assert (Q : BvExtract (f_end fd) (f_start fd) v = e /\ dv1 = dv') by (split; congruence). destruct Q as [<- <-].
    assert (HB : f_start fd = f_end fd).
    { unfold one_bit_field in Hb. destruct W as [W|[W1 W2]]; [rewrite W, Ef in Hb|rewrite W1, W2, Ef in Hb]; apply N.eqb_eq; exact Hb. }
    split; [cbn [width]; lia|]. split; [exact X|]. intros dv'' r Hx. cbn [cond_sem]. rewrite (L _ _ _ _ Hx Ef). reflexivity.
  - apply bindr_ok in H as ([e1 dv1] & H1 & H2). destruct (IH _ _ _ _ H1 Hb) as (W & X & C).
    assert (Q : bvnot e1 = e /\ dv1 = dv') by (split; cbn in H2; congruence). destruct Q as [<- <-].
    split; [exact W|]. split; [exact X|]. intros dv'' r Hx. cbn [cond_sem]. rewrite (C _ _ Hx), bvnot_1 by exact W. reflexivity.
  - apply andb_prop in Hb as [Hb1 Hb2].
    apply bindr_ok in H as ([e1 dv1] & H1 & H). apply bindr_ok in H as ([e2 dv2] & H2 & H3).
    destruct (IHa _ _ _ _ H1 Hb1) as (W1 & X1 & C1). cbn [snd] in H2. destruct (IHb _ _ _ _ H2 Hb2) as (W2 & X2 & C2).
    assert (Q : BvAnd (BvAnd (BVV 1 1) e1) e2 = e /\ dv2 = dv') by (split; cbn in H3; congruence). destruct Q as [<- <-].
    split; [reflexivity|]. split; [eapply extends_trans; eauto|]. intros dv'' r Hx. cbn [cond_sem].
    rewrite (C1 dv'' r), (C2 dv'' r) by (eauto using extends_trans). cbn [evalv width].
    pose proof (evalv_lt lk0 r e1) as L1. pose proof (evalv_lt lk0 r e2) as L2. rewrite W1 in L1. rewrite W2 in L2.
    destruct (bit1_cases _ L1) as [E1|E1], (bit1_cases _ L2) as [E2|E2]; rewrite E1, E2; reflexivity.
  - apply andb_prop in Hb as [Hb1 Hb2].
    apply bindr_ok in H as ([e1 dv1] & H1 & H). apply bindr_ok in H as ([e2 dv2] & H2 & H3).
    destruct (IHa _ _ _ _ H1 Hb1) as (W1 & X1 & C1). cbn [snd] in H2. destruct (IHb _ _ _ _ H2 Hb2) as (W2 & X2 & C2).
    assert (Q : BvOr (BvOr (BVV 1 0) e1) e2 = e /\ dv2 = dv') by (split; cbn in H3; congruence). destruct Q as [<- <-].
    split; [reflexivity|]. split; [eapply extends_trans; eauto|]. intros dv'' r Hx. cbn [cond_sem].
    rewrite (C1 dv'' r), (C2 dv'' r) by (eauto using extends_trans). cbn [evalv width].
    pose proof (evalv_lt lk0 r e1) as L1. pose proof (evalv_lt lk0 r e2) as L2. rewrite W1 in L1. rewrite W2 in L2.
    destruct (bit1_cases _ L1) as [E1|E1], (bit1_cases _ L2) as [E2|E2]; rewrite E1, E2; reflexivity.
Qed.

Lemma matches_spec : forall cs d f new a, action_matches s cs d f new (a_act a) = Ok true ->
  forall r, holds r cs -> justifies a d f r new.
Proof.
  intros cs d f new a H r Hr. unfold action_matches in H. unfold justifies.
  destruct (N.eqb_spec (f_end f) (f_start f)) as [E|E]; cbn [negb] in H.
  - destruct (a_act a) as [rg fl valid|rg fl|rg fl]; [discriminate| |].
    + assert (H' : String.eqb rg (r_name d) && String.eqb fl (f_name f) && definitely_true s cs (BEq new (BVV (width new) (2 ^ width new - 1))) = true) by congruence.
      apply andb_prop in H' as [H1 H2]. apply andb_prop in H1 as [H0 H1]. apply String.eqb_eq in H0, H1.
      pose proof (proj1 (definitely_true_spec s SOK _ _) H2 r Hr) as Q. apply BEq_true in Q. cbn [evalv] in Q.
      rewrite wrap_small in Q by (pose proof (pow2_pos (width new)); lia). auto.
    + assert (H' : String.eqb rg (r_name d) && String.eqb fl (f_name f) && definitely_true s cs (BEq new (BVV (width new) 0)) = true) by congruence.
      apply andb_prop in H' as [H1 H2]. apply andb_prop in H1 as [H0 H1]. apply String.eqb_eq in H0, H1.
      pose proof (proj1 (definitely_true_spec s SOK _ _) H2 r Hr) as Q. apply BEq_true in Q. cbn [evalv] in Q.
      rewrite wrap_small in Q by apply pow2_pos. auto.
  - destruct (a_act a) as [rg fl valid|rg fl|rg fl]; try discriminate.
    destruct (String.eqb rg (r_name d) && String.eqb fl (f_name f)) eqn:En; [|discriminate].
    apply andb_prop in En as [H0 H1]. apply String.eqb_eq in H0, H1.
    apply bindr_ok in H as (e & H2 & H). apply bindr_ok in H as (b & H3 & H4).
    split; [exact H0|]. split; [exact H1|]. split; [auto|]. exists e. split; [exact H2|].
    pose proof (get_if_constant_b_spec s SOK cs e) as G. rewrite H3 in G. destruct b as [b|]; [|discriminate].
    injection H4 as ->. apply G. exact Hr.
Qed.

(** Preconditions, in a device that has everything [dv] has. *)
Definition pre_holds (dv : device) (index : N) (r : env) (a : action) : Prop :=
  match a_pre a with None => True | Some c => cond_sem (look dv r index) c = Some true end.
Hypothesis tables_ok : forall a c, In a actions -> a_pre a = Some c -> one_bit c = true.

Lemma verify_field_spec : forall cs d index f new acts dv valid b dv', incl acts actions ->
  verify_field s registers pci_regs cs d index f new acts dv valid = Ok (b, dv') ->
  extends dv dv' /\
  (b = true -> valid = true \/ exists a, In a acts /\ forall r, holds r cs -> justifies a d f r new /\
     forall dv'', extends dv' dv'' -> pre_holds dv'' index r a).
Proof.
  induction acts as [|a acts IH]; intros dv valid b dv' Hi H; cbn [verify_field] in H.
  - assert (E : valid = b /\ dv = dv') by (split; congruence). destruct E as [-> ->]. split; [apply extends_refl|auto].
  - apply bindr_ok in H as (m & Hm & H).
    assert (Hi' : incl acts actions) by (intros x Hx; apply Hi; right; exact Hx).
    destruct m; cbn [negb] in H.
    2:{ destruct (IH _ _ _ _ Hi' H) as [X G]. split; [exact X|]. intros Hb. destruct (G Hb) as [Q|(a' & Ha & Q)]; [auto|].
        right. exists a'. split; [right; exact Ha|exact Q]. }
    apply bindr_ok in H as ([p dv1] & Hp & H). cbn [fst snd] in H.
    assert (X1 : extends dv dv1 /\ (p = true -> forall r, holds r cs -> forall dv'', extends dv1 dv'' -> pre_holds dv'' index r a)).
    { unfold pre_holds. destruct (a_pre a) as [c|] eqn:Ec.
      - apply bindr_ok in Hp as ([e dv2] & Hg & Hp). cbn [fst snd] in Hp.
        assert (E : definitely_true s cs (BEq e (BVV 1 1)) = p /\ dv2 = dv1) by (split; congruence). destruct E as [E ->].
        destruct (generate_spec _ _ _ _ _ Hg (tables_ok a c (Hi a (or_introl eq_refl)) Ec)) as (W & X & C).
        split; [exact X|]. intros -> r Hr dv'' Hx. rewrite (C _ _ Hx).
        pose proof (proj1 (definitely_true_spec s SOK _ _) E r Hr) as Q. apply BEq_true in Q. rewrite Q. reflexivity.
      - assert (E : dv = dv1) by congruence. subst dv1. split; [apply extends_refl|auto]. }
    destruct X1 as [X1 P1]. destruct p; cbn [negb] in H.
    2:{ destruct (IH _ _ _ _ Hi' H) as [X G]. split; [eapply extends_trans; eauto|]. intros Hb.
        destruct (G Hb) as [Q|(a' & Ha & Q)]; [auto|]. right. exists a'. split; [right; exact Ha|exact Q]. }
    destruct (IH _ _ _ _ Hi' H) as [X G].
    assert (X2 : extends dv1 dv').
    { eapply extends_trans; [|exact X]. destruct (String.eqb (a_name a) "Initiate Software Reset"); split; auto. }
    split; [eapply extends_trans; eauto|]. intros _. right. exists a. split; [left; reflexivity|].
    intros r Hr. split; [eapply matches_spec; eauto|]. intros dv'' Hx. apply (P1 eq_refl r Hr). eapply extends_trans; eauto.
Qed.

Lemma verify_fields_spec : forall cs d index fields dv dv',
  verify_fields s registers pci_regs actions cs d index fields dv = Ok dv' ->
  extends dv dv' /\
  forall f p new, In (f, p, new) fields -> f_acc f <> IW ->
  exists a, In a actions /\ forall r, holds r cs -> justifies a d f r new /\
    forall dv'', extends dv' dv'' -> pre_holds dv'' index r a.
Proof.
  induction fields as [|[[f p] new] fields IH]; intros dv dv' H; cbn [verify_fields] in H.
  - injection H as <-. split; [apply extends_refl|]. intros f p new [].
  - apply bindr_ok in H as ([b dv1] & H1 & H2). cbn [fst snd] in H2. destruct b; [|discriminate].
    destruct (verify_field_spec _ _ _ _ _ _ _ _ _ _ (incl_refl _) H1) as [X1 G1]. destruct (IH _ _ H2) as [X2 G2].
    split; [eapply extends_trans; eauto|]. intros f' p' new' [Q|Hin] Hf; [|eauto].
    injection Q as -> -> ->. destruct (G1 eq_refl) as [Q|(a & Ha & Q)]; [destruct (f_acc f'); try discriminate; congruence|].
    exists a. split; [exact Ha|]. intros r Hr. destruct (Q r Hr) as [Q1 Q2]. split; [exact Q1|].
    intros dv'' Hx. apply Q2. eapply extends_trans; eauto.
Qed.

(** A register write the device accepts: which register, and what stood there. *)
Lemma device_write_spec : forall cs dv addr value dv', device_write s is_true registers pci_regs actions cs dv addr value = Ok dv' ->
  exists rg index d old dv1, find_reg_from_addr registers addr = Ok (rg, index) /\ find_reg registers rg = Some d /\
  holds_value (d_regs dv) (d_next dv) d index (d_init dv) old /\
  extends dv dv1 /\ dget (d_regs dv1) (key_of d index) = Some old /\
  (forall f, In f (r_fields d) -> f_acc f <> IW ->
     (forall r, field_value r old f = field_value r value f) \/
     exists a, In a actions /\ forall r, holds r cs ->
       justifies a d f r (BvExtract (f_end f) (f_start f) value) /\ pre_holds dv1 index r a) /\
  (iw_last (r_fields d) = true -> forall f, In f (r_fields d) -> not_writable f = true -> forall r, field_value r old f = field_value r value f).
Proof.
  intros cs dv addr value dv' H. unfold device_write in H. apply bindr_ok in H as ([rg index] & H1 & H). cbn [fst snd] in H.
  destruct (find_reg registers rg) as [d|] eqn:Ed; [|discriminate].
  apply bindr_ok in H as ([[old m] x] & H2 & H). cbv beta iota in H.
  apply bindr_ok in H as (fields & H3 & H). apply bindr_ok in H as (fields' & H4 & H). apply bindr_ok in H as (dv1 & H5 & H).
  unfold verify_write in H5. apply bindr_ok in H5 as (dv2 & H5 & H6).
  destruct (fetch_spec _ _ _ _ _ _ _ _ H2) as (F1 & F2 & _ & F4).
  destruct (verify_fields_spec _ _ _ _ _ _ H5) as [X G].
  exists rg, index, d, old, dv2. split; [exact H1|]. split; [exact Ed|]. split; [exact F1|].
  split; [split; [intros k v Hk; apply (proj1 X); cbn [d_regs]; apply F4; exact Hk|intros k v Hk; apply (proj2 X); exact Hk]|].
  split; [apply (proj1 X); exact F2|]. split.
  - intros f Hf Hiw. unfold find_fields_on_write in H3. destruct (find_fields_spec is_true is_true_ok _ _ _ _ H3) as (_ & I2 & _).
    destruct (I2 f Hf) as [Q|Q]; [|left; exact Q]. right.
    destruct (G _ _ _ (check_access_keep _ _ _ H4 _ _ _ Q Hiw) Hiw) as (a & Ha & Q').
    exists a. split; [exact Ha|]. intros r Hr. destruct (Q' r Hr) as [Q1 Q2]. split; [exact Q1|]. apply Q2, extends_refl.
  - intros Hs f Hf Hn r. eapply access_spec; eauto.
Qed.
End WithTables.

(** ** Effects *)
Section Effects.
Variables registers pci_regs : list reg.
Definition widths_ok (dv : device) : Prop :=
  (forall d index, In d registers -> width_ok (d_regs dv) d index) /\ (forall d index, In d pci_regs -> width_ok (d_pci dv) d index).
Hypothesis regs_ok : Forall reg_ok (registers ++ pci_regs).

Lemma find_reg_in : forall spec n d, find_reg spec n = Some d -> In d spec /\ r_name d = n.
Proof. intros spec n d H. apply find_some in H as [H1 H2]. apply String.eqb_eq in H2. auto. Qed.
Lemma find_field_in : forall d n f, find_field d n = Some f -> In f (r_fields d) /\ f_name f = n.
Proof. intros d n f H. apply find_some in H as [H1 H2]. apply String.eqb_eq in H2. auto. Qed.

(** Setting or clearing a named field: it gets the value, the other fields of the register
    and the other registers keep theirs. *)
Lemma change_named_spec : forall dv rg f index new, widths_ok dv -> new <= 1 ->
  (exists d fd, (find_reg registers rg = Some d \/ (find_reg registers rg = None /\ find_reg pci_regs rg = Some d)) /\ find_field d f = Some fd) ->
  exists dv', change_named registers pci_regs dv rg f index new = Ok dv' /\
  (forall r, look registers pci_regs dv' r index rg f = Some new) /\
  (forall r rg' f' index' v, rg' <> rg -> look registers pci_regs dv r index' rg' f' = Some v ->
     look registers pci_regs dv' r index' rg' f' = Some v) /\
  (forall r f' v, f' <> f -> look registers pci_regs dv r index rg f' = Some v -> look registers pci_regs dv' r index rg f' = Some v).
Proof.
  intros dv rg f index new [Hw1 Hw2] Hn (d & fd & Hd & Hf). rewrite Forall_forall in regs_ok.
  assert (HP : forall f, f_start f <= f_end f -> new < 2 ^ (f_end f + 1 - f_start f)).
  { intros g Hg. apply N.le_lt_trans with 1; [exact Hn|]. apply N.lt_le_trans with (2 ^ 1); [reflexivity|]. apply N.pow_le_mono_r; lia. }
  destruct (find_field_in _ _ _ Hf) as [Fin Fn].
  assert (KEY : forall a b i j, r_name a <> r_name b -> key_of a i <> key_of b j) by (intros a b i j Hne Q; apply (f_equal fst) in Q; cbn in Q; congruence).
  assert (OTHER : forall dd f', In dd (registers ++ pci_regs) -> In fd (r_fields dd) -> forall g, find_field dd f' = Some g -> find_field dd f = Some fd -> f' <> f -> disjoint fd g /\ f_end g < r_len dd).
  { intros dd f' Hin Hfin g Hg Hff Hne. destruct (regs_ok dd Hin) as (_ & F & D & _). rewrite Forall_forall in F.
    destruct (find_field_in _ _ _ Hg) as [Gin Gn]. split; [|apply (F g Gin)].
    destruct (ForallOrdPairs_In D fd g Hfin Gin) as [Q|[Q|Q]]; [exfalso; subst g; congruence|exact Q|intros i C1 C2; exact (Q i C2 C1)]. }
  unfold change_named. destruct Hd as [Hd|[Hd0 Hd]].
  - rewrite Hd, Hf. destruct (find_reg_in _ _ _ Hd) as [Din Dn].
    assert (Dok : reg_ok d) by (apply regs_ok; apply in_or_app; left; exact Din).
    pose proof Dok as (_ & Fit & _). rewrite Forall_forall in Fit. destruct (Fit fd Fin) as (S1 & S2 & _).
    destruct (change_spec (d_regs dv) (d_next dv) d fd index (d_init dv) new Dok (Hw1 d index Din) Fin (HP fd S1)) as (m' & x' & old & v & E & HV & W1 & W2 & G & B & O).
    rewrite E. cbn [bindr fst snd]. eexists. split; [reflexivity|]. unfold look; cbn [d_regs d_pci]. split; [|split].
    + intros r. rewrite Hd, G, Hf. f_equal. apply (proj1 (changed_value r v old fd new (r_len d) S1 S2 (HP fd S1) (B r))).
    + intros r rg' f' index' v' Hne L. destruct (find_reg registers rg') as [d'|] eqn:Ed'; [|exact L].
      destruct (find_reg_in _ _ _ Ed') as [_ Dn']. rewrite O by (apply KEY; congruence). exact L.
    + intros r f' v' Hne L. rewrite Hd in *. rewrite G. destruct (dget (d_regs dv) (key_of d index)) as [o|] eqn:Eo; [|discriminate].
      unfold holds_value in HV. rewrite Eo in HV. subst o. destruct (find_field d f') as [g|] eqn:Eg; [|discriminate].
      destruct (OTHER d f') with (g := g) as [D1 D2]; try assumption; [apply in_or_app; left; exact Din|].
      rewrite (proj2 (changed_value r v old fd new (r_len d) S1 S2 (HP fd S1) (B r)) g D2 D1). exact L.
  - rewrite Hd0, Hd, Hf. destruct (find_reg_in _ _ _ Hd) as [Din Dn].
    assert (Dok : reg_ok d) by (apply regs_ok; apply in_or_app; right; exact Din).
    pose proof Dok as (_ & Fit & _). rewrite Forall_forall in Fit. destruct (Fit fd Fin) as (S1 & S2 & _).
    destruct (change_spec (d_pci dv) (d_next dv) d fd index (d_init dv) new Dok (Hw2 d index Din) Fin (HP fd S1)) as (m' & x' & old & v & E & HV & W1 & W2 & G & B & O).
    rewrite E. cbn [bindr fst snd]. eexists. split; [reflexivity|]. unfold look; cbn [d_regs d_pci]. split; [|split].
    + intros r. rewrite Hd0, Hd, G, Hf. f_equal. apply (proj1 (changed_value r v old fd new (r_len d) S1 S2 (HP fd S1) (B r))).
    + intros r rg' f' index' v' Hne L. destruct (find_reg registers rg') as [d'|] eqn:Ed'; [exact L|].
      destruct (find_reg pci_regs rg') as [d'|] eqn:Ed''; [|exact L].
      destruct (find_reg_in _ _ _ Ed'') as [_ Dn']. rewrite O by (apply KEY; congruence). exact L.
    + intros r f' v' Hne L. rewrite Hd0, Hd in *. rewrite G. destruct (dget (d_pci dv) (key_of d index)) as [o|] eqn:Eo; [|discriminate].
      unfold holds_value in HV. rewrite Eo in HV. subst o. destruct (find_field d f') as [g|] eqn:Eg; [|discriminate].
      destruct (OTHER d f') with (g := g) as [D1 D2]; try assumption; [apply in_or_app; right; exact Din|].
      rewrite (proj2 (changed_value r v old fd new (r_len d) S1 S2 (HP fd S1) (B r)) g D2 D1). exact L.
Qed.
Hypothesis names1 : forall d d', In d registers -> In d' registers -> r_name d = r_name d' -> d = d'.
Hypothesis names2 : forall d d', In d pci_regs -> In d' pci_regs -> r_name d = r_name d' -> d = d'.
Definition named (rg f : string) : Prop :=
  exists d fd, (find_reg registers rg = Some d \/ (find_reg registers rg = None /\ find_reg pci_regs rg = Some d)) /\ find_field d f = Some fd.
Lemma change_named_widths : forall dv rg f index new dv', widths_ok dv -> new <= 1 -> named rg f ->
  change_named registers pci_regs dv rg f index new = Ok dv' -> widths_ok dv'.
Proof.
  intros dv rg f index new dv' [Hw1 Hw2] Hn (d & fd & Hd & Hf) H. rewrite Forall_forall in regs_ok.
  assert (HP : forall f, f_start f <= f_end f -> new < 2 ^ (f_end f + 1 - f_start f)).
  { intros g Hg. apply N.le_lt_trans with 1; [exact Hn|]. apply N.lt_le_trans with (2 ^ 1); [reflexivity|]. apply N.pow_le_mono_r; lia. }
  destruct (find_field_in _ _ _ Hf) as [Fin Fn]. unfold change_named in H.
  assert (KEQ : forall a b i j, key_of a i = key_of b j -> r_name a = r_name b) by (intros a b i j Q; apply (f_equal fst) in Q; exact Q).
  destruct Hd as [Hd|[Hd0 Hd]].
  - rewrite Hd, Hf in H. destruct (find_reg_in _ _ _ Hd) as [Din Dn].
    assert (Dok : reg_ok d) by (apply regs_ok; apply in_or_app; left; exact Din).
    pose proof Dok as (_ & Fit & _). rewrite Forall_forall in Fit. destruct (Fit fd Fin) as (S1 & S2 & _).
    destruct (change_spec (d_regs dv) (d_next dv) d fd index (d_init dv) new Dok (Hw1 d index Din) Fin (HP fd S1)) as (m' & x' & old & v & E & HV & W1 & W2 & G & B & O).
    rewrite E in H. cbn [bindr fst snd] in H.
    assert (E1 : d_regs dv' = m' /\ d_pci dv' = d_pci dv) by (split; [apply (f_equal (fun q => match q with Ok z => d_regs z | _ => m' end)) in H|apply (f_equal (fun q => match q with Ok z => d_pci z | _ => [] end)) in H]; symmetry; exact H).
    destruct E1 as [E1 E2]. split; [|rewrite E2; exact Hw2]. intros d' index' Hd' v' Hv'. rewrite E1 in Hv'.
    destruct (rkey_eqb (key_of d' index') (key_of d index)) eqn:K.
    + apply rkey_eqb_eq in K. pose proof (names1 _ _ Hd' Din (KEQ _ _ _ _ K)). subst d'. rewrite K, G in Hv'. congruence.
    + rewrite O in Hv' by (intro Q; rewrite Q in K; rewrite (proj2 (rkey_eqb_eq _ _) eq_refl) in K; discriminate). exact (Hw1 d' index' Hd' v' Hv').
  - rewrite Hd0, Hd, Hf in H. destruct (find_reg_in _ _ _ Hd) as [Din Dn].
    assert (Dok : reg_ok d) by (apply regs_ok; apply in_or_app; right; exact Din).
    pose proof Dok as (_ & Fit & _). rewrite Forall_forall in Fit. destruct (Fit fd Fin) as (S1 & S2 & _).
    destruct (change_spec (d_pci dv) (d_next dv) d fd index (d_init dv) new Dok (Hw2 d index Din) Fin (HP fd S1)) as (m' & x' & old & v & E & HV & W1 & W2 & G & B & O).
    rewrite E in H. cbn [bindr fst snd] in H.
    assert (E1 : d_pci dv' = m' /\ d_regs dv' = d_regs dv) by (split; [apply (f_equal (fun q => match q with Ok z => d_pci z | _ => m' end)) in H|apply (f_equal (fun q => match q with Ok z => d_regs z | _ => [] end)) in H]; symmetry; exact H).
    destruct E1 as [E1 E2]. split; [rewrite E2; exact Hw1|]. intros d' index' Hd' v' Hv'. rewrite E1 in Hv'.
    destruct (rkey_eqb (key_of d' index') (key_of d index)) eqn:K.
    + apply rkey_eqb_eq in K. pose proof (names2 _ _ Hd' Din (KEQ _ _ _ _ K)). subst d'. rewrite K, G in Hv'. congruence.
    + rewrite O in Hv' by (intro Q; rewrite Q in K; rewrite (proj2 (rkey_eqb_eq _ _) eq_refl) in K; discriminate). exact (Hw2 d' index' Hd' v' Hv').
Qed.

(** The settings a postcondition lists. *)
Fixpoint settings (e : effect) : list (string * string * N) :=
  match e with
  | ESet rg f => [(rg, f, 1)]
  | EClear rg f => [(rg, f, 0)]
  | EAnd a b => settings a ++ settings b
  end.
Lemma apply_spec : forall e dv index, widths_ok dv -> (forall rg f v, In (rg, f, v) (settings e) -> named rg f) ->
  NoDup (map fst (settings e)) ->
  exists dv', apply registers pci_regs dv index e = Ok dv' /\ widths_ok dv' /\
  (forall rg f v r, In (rg, f, v) (settings e) -> look registers pci_regs dv' r index rg f = Some v) /\
  (forall rg f v r, ~ In (rg, f) (map fst (settings e)) -> look registers pci_regs dv r index rg f = Some v ->
     look registers pci_regs dv' r index rg f = Some v).
Proof.
  assert (ONE : forall rg f new dv index, new <= 1 -> widths_ok dv -> named rg f ->
    exists dv', change_named registers pci_regs dv rg f index new = Ok dv' /\ widths_ok dv' /\
    (forall rg' f' v r, In (rg', f', v) [(rg, f, new)] -> look registers pci_regs dv' r index rg' f' = Some v) /\
    (forall rg' f' v r, ~ In (rg', f') (map fst [(rg, f, new)]) -> look registers pci_regs dv r index rg' f' = Some v ->
       look registers pci_regs dv' r index rg' f' = Some v)).
  { intros rg f new dv index Hn Hw Hg. destruct (change_named_spec dv rg f index new Hw Hn Hg) as (dv' & E & L1 & L2 & L3).
    exists dv'. split; [exact E|]. split; [exact (change_named_widths dv rg f index new dv' Hw Hn Hg E)|]. split.
    - intros rg' f' v r [Q|[]]. assert (Q' : rg' = rg /\ f' = f /\ v = new) by (repeat split; congruence). destruct Q' as (-> & -> & ->). apply L1.
    - intros rg' f' v r Hni L. cbn [map fst In] in Hni. destruct (string_dec rg' rg) as [->|Hne]; [|apply L2; assumption].
      apply L3; [|exact L]. intros ->. apply Hni. left. reflexivity. }
  induction e as [rg f|rg f|a IHa b IHb]; intros dv index Hw Hg Hnd; cbn [apply settings] in *.
  - apply ONE; [lia|exact Hw|]. eapply Hg. left. reflexivity.
  - apply ONE; [lia|exact Hw|]. eapply Hg. left. reflexivity.
  - rewrite map_app in Hnd. assert (ND : NoDup (map fst (settings a)) /\ NoDup (map fst (settings b)) /\ forall x, In x (map fst (settings a)) -> ~ In x (map fst (settings b))).
    { clear - Hnd. induction (map fst (settings a)) as [|x l IH]; cbn [app] in Hnd.
      - split; [constructor|]. split; [exact Hnd|]. intros x [].
      - inversion Hnd as [|? ? N1 N2]. subst. destruct (IH N2) as (I1 & I2 & I3). split; [constructor; [intro Q; apply N1, in_or_app; left; exact Q|exact I1]|].
        split; [exact I2|]. intros y [<-|Hy] Q; [apply N1, in_or_app; right; exact Q|exact (I3 y Hy Q)]. }
    destruct ND as (N1 & N2 & N3).
    destruct (IHa dv index Hw) as (dv1 & E1 & W1 & A1 & O1); [intros; eapply Hg; apply in_or_app; left; eassumption|exact N1|].
    destruct (IHb dv1 index W1) as (dv2 & E2 & W2 & A2 & O2); [intros; eapply Hg; apply in_or_app; right; eassumption|exact N2|].
    rewrite E1. cbn [bindr]. exists dv2. split; [exact E2|]. split; [exact W2|]. split.
    + intros rg f v r Hin. apply in_app_or in Hin as [Hin|Hin]; [|apply A2; exact Hin].
      apply O2; [|apply A1; exact Hin]. apply N3. apply (in_map fst) in Hin. exact Hin.
    + intros rg f v r Hni L. rewrite map_app in Hni. apply O2; [intro Q; apply Hni, in_or_app; right; exact Q|].
      apply O1; [intro Q; apply Hni, in_or_app; left; exact Q|exact L].
Qed.
End Effects.

(** ** Checking a description *)
Definition field_fitsb (L : N) (f : field) : bool :=
  (f_start f <=? f_end f) && (f_end f <? L) && match f_init f with Some v => v <? 2 ^ (f_end f + 1 - f_start f) | None => true end.
Fixpoint disjointb (fs : list field) : bool :=
  match fs with [] => true | f :: fs => forallb (fun g => (f_end f <? f_start g) || (f_end g <? f_start f)) fs && disjointb fs end.
Fixpoint ascendingb (lo L : N) (fs : list field) : bool :=
  match fs with [] => lo <=? L | f :: fs => (lo <=? f_start f) && field_fitsb L f && ascendingb (f_end f + 1) L fs end.
Definition no_floating (d : reg) : bool := forallb (fun f => match f_init f with None => false | _ => true end) (r_fields d).
Definition reg_okb (d : reg) : bool :=
  (0 <? r_len d) && forallb (field_fitsb (r_len d)) (r_fields d) && disjointb (r_fields d) &&
  (no_floating d || ascendingb 0 (r_len d) (r_fields d)).
Lemma field_fitsb_ok : forall L f, field_fitsb L f = true -> field_fits L f.
Proof.
  intros L f H. unfold field_fitsb in H. apply andb_prop in H as [H H3]. apply andb_prop in H as [H1 H2].
  apply N.leb_le in H1. apply N.ltb_lt in H2. split; [exact H1|]. split; [exact H2|]. destruct (f_init f); [apply N.ltb_lt; exact H3|exact I].
Qed.
Lemma ascendingb_ok : forall fs lo L, ascendingb lo L fs = true -> ascending lo L fs.
Proof.
  induction fs as [|f fs IH]; intros lo L H; cbn [ascendingb] in H; cbn [ascending]; [apply N.leb_le; exact H|].
  apply andb_prop in H as [H H3]. apply andb_prop in H as [H1 H2]. split; [apply N.leb_le; exact H1|]. split; [apply field_fitsb_ok; exact H2|auto].
Qed.
Lemma disjointb_ok : forall fs, disjointb fs = true -> ForallOrdPairs disjoint fs.
Proof.
  induction fs as [|f fs IH]; intros H; cbn [disjointb] in H; constructor; apply andb_prop in H as [H1 H2]; [|auto].
  rewrite forallb_forall in H1. apply Forall_forall. intros g Hg i [C1 C2] [C3 C4]. specialize (H1 g Hg).
  apply orb_prop in H1 as [H1|H1]; apply N.ltb_lt in H1; lia.
Qed.
Lemma reg_okb_ok : forall d, reg_okb d = true -> reg_ok d.
Proof.
  intros d H. unfold reg_okb in H. apply andb_prop in H as [H H4]. apply andb_prop in H as [H H3]. apply andb_prop in H as [H1 H2].
  split; [apply N.ltb_lt; exact H1|]. split; [|split; [apply disjointb_ok; exact H3|]].
  - apply Forall_forall. intros f Hf. rewrite forallb_forall in H2. apply field_fitsb_ok. auto.
  - intros (f & Hf & Hx). apply orb_prop in H4 as [H4|H4]; [|apply ascendingb_ok; exact H4].
    unfold no_floating in H4. rewrite forallb_forall in H4. specialize (H4 f Hf). rewrite Hx in H4. discriminate.
Qed.
