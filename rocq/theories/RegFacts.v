(** * Facts about device registers *)

From Coq Require Import NArith ZArith List Bool Lia Arith String.
From Verif Require Import Expr Solver Regs.
Import ListNotations.
Open Scope N_scope.

(** ** Bits *)
Lemma testbit_cat : forall a b w i, b < 2 ^ w ->
  N.testbit (a * 2 ^ w + b) i = if i <? w then N.testbit b i else N.testbit a (i - w).
Proof.
  intros a b w i Hb. destruct (N.ltb_spec i w) as [H|H].
  - rewrite <- (N.mod_pow2_bits_low _ w i) by exact H. rewrite N.add_comm, N.mod_add by apply pow2_ne.
    rewrite N.mod_small by exact Hb. reflexivity.
  - rewrite <- (N.sub_add w i) at 1 by exact H. rewrite <- N.div_pow2_bits.
    rewrite N.div_add_l by apply pow2_ne. rewrite N.div_small by exact Hb. rewrite N.add_0_r. reflexivity.
Qed.
Lemma testbit_wrap : forall w v i, N.testbit (wrap w v) i = (i <? w) && N.testbit v i.
Proof.
  intros w v i. unfold wrap. destruct (N.ltb_spec i w) as [H|H].
  - rewrite N.mod_pow2_bits_low by exact H. reflexivity.
  - apply N.mod_pow2_bits_high. exact H.
Qed.
Lemma testbit_high : forall v w i, v < 2 ^ w -> w <= i -> N.testbit v i = false.
Proof. intros v w i Hv Hi. rewrite <- (N.mod_small v (2 ^ w)) by exact Hv. apply N.mod_pow2_bits_high. exact Hi. Qed.
Lemma bits_eq : forall w a b, a < 2 ^ w -> b < 2 ^ w -> (forall i, i < w -> N.testbit a i = N.testbit b i) -> a = b.
Proof.
  intros w a b Ha Hb H. apply N.bits_inj. intros i. destruct (N.lt_ge_cases i w) as [Hi|Hi]; [apply H; exact Hi|].
  rewrite (testbit_high a w i), (testbit_high b w i); auto.
Qed.

(** Bit [i] of an expression's value. *)
Definition bit (r : env) (e : bv) (i : N) : bool := N.testbit (ev r e) i.
(** The value of a field of a register value. *)
Definition field_value (r : env) (e : bv) (f : field) : N := (ev r e / 2 ^ f_start f) mod 2 ^ (f_end f + 1 - f_start f).

Lemma bit_concat : forall r a b i, bit r (BvConcat a b) i = if i <? width b then bit r b i else bit r a (i - width b).
Proof. intros. unfold bit. cbn [evalv]. apply testbit_cat. apply evalv_lt. Qed.
Lemma bit_extract : forall r hi lo a i, bit r (BvExtract hi lo a) i = (i <? hi + 1 - lo) && bit r a (i + lo).
Proof. intros. unfold bit. cbn [evalv]. rewrite testbit_wrap, N.div_pow2_bits. reflexivity. Qed.
Lemma bit_bvv : forall r w v i, bit r (BVV w v) i = (i <? w) && N.testbit v i.
Proof. intros. unfold bit. cbn [evalv]. apply testbit_wrap. Qed.
Lemma bit_high : forall r e i, width e <= i -> bit r e i = false.
Proof. intros. unfold bit. eapply testbit_high; [apply evalv_lt|exact H]. Qed.

Lemma slice_ok : forall e hi lo, lo <= hi -> hi < width e -> slice e hi lo = Ok (BvExtract hi lo e).
Proof.
  intros. unfold slice. rewrite (proj2 (N.leb_le _ _)), (proj2 (N.ltb_lt _ _)) by assumption. reflexivity.
Qed.
Lemma slice_inv : forall e hi lo e', slice e hi lo = Ok e' -> lo <= hi /\ hi < width e /\ e' = BvExtract hi lo e.
Proof.
  intros e hi lo e' H. unfold slice in H. destruct ((lo <=? hi) && (hi <? width e)) eqn:E; [|discriminate].
  apply andb_prop in E as [E1 E2]. apply N.leb_le in E1. apply N.ltb_lt in E2. injection H as <-. auto.
Qed.

Ltac bits := repeat (rewrite ?bit_concat, ?bit_extract, ?bit_bvv; cbn [width]).
Ltac nb := repeat match goal with
  | |- context [?a <? ?b] => destruct (N.ltb_spec a b)
  | |- context [?a <=? ?b] => destruct (N.leb_spec a b)
  | |- context [?a =? ?b] => destruct (N.eqb_spec a b)
  end; cbn [andb negb orb].

Lemma fits_mask : forall v w, N.land v (2 ^ w - 1) = v <-> v < 2 ^ w.
Proof.
  intros v w. rewrite N.sub_1_r, <- N.ones_equiv. rewrite N.land_ones. split; intros H.
  - rewrite <- H. apply N.mod_lt. apply pow2_ne.
  - apply N.mod_small. exact H.
Qed.

Lemma constrain_spec : forall symb st en v, st <= en -> en < width symb -> v < 2 ^ (en + 1 - st) ->
  exists s', constrain_field symb st en v = Ok s' /\ width s' = width symb /\
  forall r i, i < width symb -> bit r s' i = if (st <=? i) && (i <=? en) then N.testbit v (i - st) else bit r symb i.
Proof.
  intros symb st en v H1 H2 H3. unfold constrain_field.
  rewrite (proj2 (N.ltb_ge _ _)) by exact H1.
  replace (1 + en - st) with (en + 1 - st) by lia.
  rewrite (proj2 (N.eqb_eq _ _)) by (apply fits_mask; exact H3). cbn [negb].
  assert (HH : forall j, en + 1 - st <= j -> N.testbit v j = false) by (intros; eapply testbit_high; eauto).
  destruct (N.eqb_spec st 0) as [->|Hs]; destruct (N.eqb_spec en (width symb - 1)) as [He|He].
  - eexists. split; [reflexivity|]. split; [cbn [width]; lia|]. intros r i Hi. bits.
    rewrite (proj2 (N.ltb_lt _ _)), (proj2 (N.leb_le _ _)), (proj2 (N.leb_le _ _)) by lia. cbn [andb]. f_equal. lia.
  - rewrite slice_ok by lia. cbn [bindr]. eexists. split; [reflexivity|]. split; [cbn [width]; lia|].
    intros r i Hi. bits. nb; try lia; f_equal; lia.
  - rewrite slice_ok by lia. cbn [bindr]. eexists. split; [reflexivity|]. split; [cbn [width]; lia|].
    intros r i Hi. bits. nb; try lia; f_equal; lia.
  - rewrite !slice_ok by lia. cbn [bindr].
    eexists. split; [reflexivity|]. split; [cbn [width]; lia|].
    intros r i Hi. bits. nb; try lia; f_equal; lia.
Qed.

(** ** Initial values *)

Definition covers (f : field) (i : N) : Prop := f_start f <= i <= f_end f.
Definition field_fits (L : N) (f : field) : Prop :=
  f_start f <= f_end f /\ f_end f < L /\ match f_init f with Some v => v < 2 ^ (f_end f + 1 - f_start f) | None => True end.
Definition disjoint (f g : field) : Prop := forall i, covers f i -> covers g i -> False.
(** A bit of no field. *)
Definition reserved (fs : list field) (i : N) : Prop := forall f, In f fs -> ~ covers f i.
(** A reserved bit with only reserved bits between it and a field without initial value. *)
Definition below_floating (fs : list field) (i : N) : Prop :=
  exists f, In f fs /\ f_init f = None /\ i < f_start f /\ forall j, i <= j < f_start f -> reserved fs j.

(** Fields from the lowest bit up, as the symbolic initialisation needs. *)
Fixpoint ascending (lo L : N) (fs : list field) : Prop :=
  match fs with
  | [] => lo <= L
  | f :: fs => lo <= f_start f /\ field_fits L f /\ ascending (f_end f + 1) L fs
  end.

Lemma ascending_ge : forall fs lo L f, ascending lo L fs -> In f fs -> lo <= f_start f /\ f_start f <= f_end f /\ f_end f < L.
Proof.
  induction fs as [|g fs IH]; intros lo L f H Hin; [destruct Hin|]. cbn [ascending] in H. destruct H as (H1 & (H2 & H3 & _) & H4).
  destruct Hin as [<-|Hin].
  - lia.
  - destruct (IH _ _ _ H4 Hin) as (? & ? & ?). lia.
Qed.

Lemma init_loop_spec : forall fs L symb last, width symb = L -> ascending last L fs ->
  exists symb' last', init_loop fs symb last = Ok (symb', last') /\ width symb' = L /\ last <= last' <= L /\
  forall r i, i < L ->
  (i < last -> bit r symb' i = bit r symb i) /\
  (last' <= i -> reserved fs i /\ bit r symb' i = bit r symb i) /\
  (forall f, In f fs -> covers f i -> bit r symb' i = match f_init f with Some v => N.testbit v (i - f_start f) | None => bit r symb i end) /\
  (last <= i < last' -> reserved fs i -> below_floating fs i -> bit r symb' i = bit r symb i) /\
  (last <= i < last' -> reserved fs i -> ~ below_floating fs i -> bit r symb' i = false).
Proof.
  induction fs as [|f fs IH]; intros L symb last Hw Ha.
  - cbn [ascending] in Ha. exists symb, last. split; [reflexivity|]. split; [exact Hw|]. split; [lia|].
    intros r i Hi. split; [auto|]. split; [intros _; split; [intros g []|reflexivity]|]. split; [intros g []|]. split; lia.
  - cbn [ascending] in Ha. destruct Ha as (H1 & (H2 & H3 & H4) & H5).
    assert (Hlater : forall g, In g fs -> f_end f < f_start g) by (intros g Hg; destruct (ascending_ge _ _ _ _ H5 Hg); lia).
    assert (BF : forall i, f_end f < i -> below_floating (f :: fs) i <-> below_floating fs i).
    { intros i Hi. split; intros (g & Hg & Hx & Hlt & Hr).
      - destruct Hg as [<-|Hg]; [lia|]. exists g. split; [exact Hg|]. split; [exact Hx|]. split; [exact Hlt|].
        intros j Hj h Hh. apply (Hr j Hj). right. exact Hh.
      - exists g. split; [right; exact Hg|]. split; [exact Hx|]. split; [exact Hlt|].
        intros j Hj h [<-|Hh]; [unfold covers; lia|]. exact (Hr j Hj h Hh). }
    assert (RC : forall i, reserved (f :: fs) i -> reserved fs i) by (intros i Hr g Hg; apply Hr; right; exact Hg).
    assert (LOW : forall i, i < f_start f -> reserved fs i) by (intros i Hi g Hg; unfold covers; specialize (Hlater g Hg); lia).
    cbn [init_loop]. destruct (f_init f) as [v|] eqn:Ef.
    + assert (P : exists s1, (if negb (last =? f_start f) then constrain_field symb last (f_start f - 1) 0 else Ok symb) = Ok s1 /\
         width s1 = L /\ forall r i, i < L -> bit r s1 i = if (last <=? i) && (i <? f_start f) then false else bit r symb i).
      { destruct (N.eqb_spec last (f_start f)) as [E|E]; cbn [negb].
        - exists symb. split; [reflexivity|]. split; [exact Hw|]. intros r i Hi. nb; try lia; reflexivity.
        - destruct (constrain_spec symb last (f_start f - 1) 0) as (s1 & E1 & W1 & B1); [lia|lia|apply pow2_pos|].
          exists s1. split; [exact E1|]. split; [congruence|]. intros r i Hi. rewrite B1 by lia.
          nb; try lia; try reflexivity. }
      destruct P as (s1 & E1 & W1 & B1). rewrite E1. cbn [bindr].
      destruct (constrain_spec s1 (f_start f) (f_end f) v) as (s2 & E2 & W2 & B2); [lia|lia|exact H4|].
      rewrite E2. cbn [bindr].
      destruct (IH L s2 (f_end f + 1)) as (s3 & l3 & E3 & W3 & L3 & B3); [congruence|exact H5|].
      exists s3, l3. split; [exact E3|]. split; [exact W3|]. split; [lia|].
      intros r i Hi. destruct (B3 r i Hi) as (C1 & C2 & C3 & C4 & C5). rewrite W1 in B2. specialize (B2 r i Hi). specialize (B1 r i Hi).
      split; [intros Q; rewrite C1, B2, B1 by lia; nb; try lia; reflexivity|].
      split; [intros Q; destruct (C2 Q) as [R Q']; split; [intros g [<-|Hg]; [unfold covers; lia|auto]|rewrite Q', B2, B1; nb; try lia; reflexivity]|].
      split.
      { intros g [<-|Hg] Hc.
        - rewrite Ef. unfold covers in Hc. rewrite C1, B2 by lia. nb; try lia; reflexivity.
        - rewrite (C3 g Hg Hc). specialize (Hlater g Hg). unfold covers in Hc. destruct (f_init g); [reflexivity|].
          rewrite B2, B1. nb; try lia; reflexivity. }
      split.
      * intros Hb Hr Hf. destruct (N.le_gt_cases i (f_end f)) as [Hle|Hgt].
        -- exfalso. destruct Hf as (g & Hg & Hx & Hlt & Hres). destruct Hg as [<-|Hg]; [congruence|].
           assert (Hs : i < f_start f) by (destruct (N.lt_ge_cases i (f_start f)); [assumption|]; exfalso; apply (Hr f); [left; reflexivity|unfold covers; lia]).
           specialize (Hlater g Hg). apply (Hres (f_start f)) with (f := f); [lia|left; reflexivity|unfold covers; lia].
        -- rewrite C4; [|lia|auto|apply BF; assumption]. rewrite B2, B1. nb; try lia; reflexivity.
      * intros Hb Hr Hf. destruct (N.le_gt_cases i (f_end f)) as [Hle|Hgt].
        -- assert (Hs : i < f_start f) by (destruct (N.lt_ge_cases i (f_start f)); [assumption|]; exfalso; apply (Hr f); [left; reflexivity|unfold covers; lia]).
           rewrite C1, B2, B1 by lia. nb; try lia; reflexivity.
        -- apply C5; [lia|auto|rewrite <- BF by exact Hgt; exact Hf].
    + destruct (IH L symb (f_end f + 1)) as (s3 & l3 & E3 & W3 & L3 & B3); [exact Hw|exact H5|].
      exists s3, l3. split; [exact E3|]. split; [exact W3|]. split; [lia|].
      intros r i Hi. destruct (B3 r i Hi) as (C1 & C2 & C3 & C4 & C5).
      split; [intros Q; apply C1; lia|].
      split; [intros Q; destruct (C2 Q) as [R Q']; split; [intros g [<-|Hg]; [unfold covers; lia|auto]|exact Q']|].
      split.
      { intros g [<-|Hg] Hc; [rewrite Ef; unfold covers in Hc; apply C1; lia|apply (C3 g Hg Hc)]. }
      split.
      * intros Hb Hr Hf. destruct (N.le_gt_cases i (f_end f)) as [Hle|Hgt]; [apply C1; lia|].
        apply C4; [lia|auto|apply BF; assumption].
      * intros Hb Hr Hf. destruct (N.le_gt_cases i (f_end f)) as [Hle|Hgt].
        -- exfalso. apply Hf. assert (Hs : i < f_start f) by (destruct (N.lt_ge_cases i (f_start f)); [assumption|]; exfalso; apply (Hr f); [left; reflexivity|unfold covers; lia]).
           exists f. split; [left; reflexivity|]. split; [exact Ef|]. split; [exact Hs|].
           intros j Hj g [<-|Hg]; [unfold covers; lia|]. apply LOW; [lia|exact Hg].
        -- apply C5; [lia|auto|rewrite <- BF by exact Hgt; exact Hf].
Qed.

(** The bits of a symbolic initial value. *)
Lemma init_symb_spec : forall d x, 0 < r_len d -> ascending 0 (r_len d) (r_fields d) ->
  exists v, init_reg_symb x d = Ok v /\ width v = r_len d /\
  forall r i, i < r_len d ->
  (forall f, In f (r_fields d) -> covers f i ->
     bit r v i = match f_init f with Some v => N.testbit v (i - f_start f) | None => N.testbit (ebv r x) i end) /\
  (reserved (r_fields d) i -> below_floating (r_fields d) i -> bit r v i = N.testbit (ebv r x) i) /\
  (reserved (r_fields d) i -> ~ below_floating (r_fields d) i -> bit r v i = false).
Proof.
  intros d x HL Ha. unfold init_reg_symb.
  destruct (init_loop_spec (r_fields d) (r_len d) (BVS (r_len d) x) 0 eq_refl Ha) as (s & l & E & W & L & B).
  assert (BX : forall r i, i < r_len d -> bit r (BVS (r_len d) x) i = N.testbit (ebv r x) i).
  { intros r i Hi. unfold bit. cbn [evalv]. rewrite testbit_wrap, (proj2 (N.ltb_lt _ _)) by exact Hi. reflexivity. }
  rewrite E. cbn [bindr fst snd]. destruct (N.eqb_spec l (r_len d)) as [El|El]; cbn [negb].
  - exists s. split; [reflexivity|]. split; [exact W|]. intros r i Hi. destruct (B r i Hi) as (_ & _ & C3 & C4 & C5).
    rewrite BX in C3, C4 by exact Hi. split; [exact C3|]. split; intros; [apply C4|apply C5]; auto; lia.
  - destruct (constrain_spec s l (r_len d - 1) 0) as (s2 & E2 & W2 & B2); [lia|lia|apply pow2_pos|].
    rewrite E2. exists s2. split; [reflexivity|]. split; [congruence|].
    intros r i Hi. destruct (B r i Hi) as (_ & C2 & C3 & C4 & C5). rewrite BX in C3, C4 by exact Hi. rewrite B2 by lia.
    destruct (N.leb_spec l i) as [Hl|Hl]; cbn [andb].
    + rewrite (proj2 (N.leb_le _ _)) by lia. rewrite N.bits_0. destruct (C2 Hl) as [Hr _].
      split; [intros f Hf Hc; exfalso; exact (Hr f Hf Hc)|]. split; [|reflexivity].
      intros _ (f & Hf & Hx & Hlt & Hres). exfalso.
      destruct (ascending_ge _ _ _ _ Ha Hf) as (_ & Q1 & Q2).
      destruct (B r (f_start f)) as (_ & C2' & _); [lia|]. destruct C2' as [R _]; [lia|]. apply (R f Hf). unfold covers. lia.
    + split; [exact C3|]. split; intros; [apply C4|apply C5]; auto; lia.
Qed.

(** Bits of a concrete initial value: the order of the fields does not matter. *)
Lemma init_con_loop_spec : forall fs acc v, init_con_loop fs acc = Some v ->
  (forall f, In f fs -> f_init f <> None) /\
  forall i, N.testbit v i = N.testbit acc i || existsb (fun f => match f_init f with Some c => (f_start f <=? i) && N.testbit c (i - f_start f) | None => false end) fs.
Proof.
  induction fs as [|f fs IH]; intros acc v H; cbn [init_con_loop] in H.
  - injection H as <-. split; [intros f []|]. intros i. cbn. rewrite orb_false_r. reflexivity.
  - destruct (f_init f) as [c|] eqn:E; [|discriminate]. destruct (IH _ _ H) as [H1 H2]. split.
    + intros g [<-|Hg]; [congruence|auto].
    + intros i. rewrite H2. cbn [existsb]. rewrite E. rewrite N.lor_spec.
      rewrite <- orb_assoc. f_equal. f_equal. destruct (N.leb_spec (f_start f) i) as [Hi|Hi]; cbn [andb].
      * apply N.shiftl_spec_high'. exact Hi.
      * apply N.shiftl_spec_low. exact Hi.
Qed.
Lemma init_con_some : forall fs acc, (forall f, In f fs -> f_init f <> None) -> exists v, init_con_loop fs acc = Some v.
Proof.
  induction fs as [|f fs IH]; intros acc H; cbn [init_con_loop]; [eauto|].
  destruct (f_init f) eqn:E; [apply IH; intros; apply H; right; assumption|]. exfalso. apply (H f); [left; reflexivity|exact E].
Qed.
Lemma init_con_spec : forall d, Forall (field_fits (r_len d)) (r_fields d) -> ForallOrdPairs disjoint (r_fields d) ->
  (forall f, In f (r_fields d) -> f_init f <> None) ->
  exists v, init_reg_con d = Some v /\ width v = r_len d /\
  forall r i, i < r_len d ->
  (forall f c, In f (r_fields d) -> covers f i -> f_init f = Some c -> bit r v i = N.testbit c (i - f_start f)) /\
  (reserved (r_fields d) i -> bit r v i = false).
Proof.
  intros d Hf Hd Hx. unfold init_reg_con. destruct (init_con_some (r_fields d) 0 Hx) as [v E]. rewrite E.
  destruct (init_con_loop_spec _ _ _ E) as [_ B]. exists (BVV (r_len d) v). split; [reflexivity|]. split; [reflexivity|].
  rewrite Forall_forall in Hf.
  intros r i Hi. rewrite bit_bvv, (proj2 (N.ltb_lt _ _)) by exact Hi. cbn [andb]. rewrite B, N.bits_0. cbn [orb].
  assert (IN : forall g c, In g (r_fields d) -> f_init g = Some c -> f_start g <= i -> N.testbit c (i - f_start g) = true -> covers g i).
  { intros g c Hg Hc Hs Hb. split; [exact Hs|]. destruct (Hf g Hg) as (F1 & F2 & F3). rewrite Hc in F3.
    destruct (N.le_gt_cases i (f_end g)); [assumption|]. rewrite (testbit_high c (f_end g + 1 - f_start g)) in Hb; [discriminate|exact F3|lia]. }
  split.
  - intros f c Hin Hc Ec. destruct (N.testbit c (i - f_start f)) eqn:Eb.
    + apply existsb_exists. exists f. split; [exact Hin|]. rewrite Ec, Eb. unfold covers in Hc. rewrite (proj2 (N.leb_le _ _)) by lia. reflexivity.
    + apply not_true_is_false. intros Q. apply existsb_exists in Q as (g & Hg & Q).
      destruct (f_init g) as [c'|] eqn:Eg; [|discriminate]. apply andb_prop in Q as [Q1 Q2]. apply N.leb_le in Q1.
      pose proof (IN g c' Hg Eg Q1 Q2) as Hcg.
      destruct (ForallOrdPairs_In Hd f g Hin Hg) as [->|[D|D]]; [congruence|exact (D i Hc Hcg)|exact (D i Hcg Hc)].
  - intros Hr. apply not_true_is_false. intros Q. apply existsb_exists in Q as (g & Hg & Q).
    destruct (f_init g) as [c'|] eqn:Eg; [|discriminate]. apply andb_prop in Q as [Q1 Q2]. apply N.leb_le in Q1.
    exact (Hr g Hg (IN g c' Hg Eg Q1 Q2)).
Qed.

(** ** Changing one field *)

Lemma rkey_eqb_eq : forall a b, rkey_eqb a b = true <-> a = b.
Proof.
  intros [n i] [m j]. unfold rkey_eqb. cbn [fst snd]. rewrite andb_true_iff, String.eqb_eq.
  destruct i as [i|], j as [j|]; rewrite ?N.eqb_eq; split; intros H; try (destruct H; congruence); try (split; congruence).
Qed.
Lemma dget_set : forall m k v, dget (dset m k v) k = Some v.
Proof. intros. unfold dget, dset. cbn [find fst]. rewrite (proj2 (rkey_eqb_eq k k) eq_refl). reflexivity. Qed.
Lemma dget_other : forall m k k' v, k' <> k -> dget (dset m k v) k' = dget m k'.
Proof.
  intros. unfold dget, dset. cbn [find fst]. destruct (rkey_eqb k k') eqn:E; [|reflexivity].
  apply rkey_eqb_eq in E. congruence.
Qed.

Lemma change_value_spec : forall d f old new, width old = r_len d -> f_start f <= f_end f -> f_end f < r_len d ->
  new < 2 ^ (f_end f + 1 - f_start f) ->
  exists v, change_value d f old new = Ok v /\ width v = r_len d /\
  forall r i, i < r_len d -> bit r v i = if (f_start f <=? i) && (i <=? f_end f) then N.testbit new (i - f_start f) else bit r old i.
Proof.
  intros d f old new Hw H1 H2 H3.
  assert (HH : forall j, f_end f + 1 - f_start f <= j -> N.testbit new j = false) by (intros; eapply testbit_high; eauto).
  assert (G : forall low, (if f_start f =? 0 then Ok (BVV (f_end f - f_start f + 1) new)
      else do b <- slice old (f_start f - 1) 0 ; Ok (BvConcat (BVV (f_end f - f_start f + 1) new) b)) = Ok low ->
      width low = f_end f + 1 /\ forall r i, i <= f_end f -> bit r low i = if f_start f <=? i then N.testbit new (i - f_start f) else bit r old i).
  { intros low. destruct (N.eqb_spec (f_start f) 0) as [E|E].
    - intros Q. injection Q as <-. rewrite E. split; [cbn [width]; lia|]. intros r i Hi. bits. nb; try lia. f_equal. lia.
    - rewrite slice_ok by lia. cbn [bindr]. intros Q. injection Q as <-. split; [cbn [width]; lia|].
      intros r i Hi. bits. nb; try lia; f_equal; lia. }
  assert (G' : exists low, (if f_start f =? 0 then Ok (BVV (f_end f - f_start f + 1) new)
      else do b <- slice old (f_start f - 1) 0 ; Ok (BvConcat (BVV (f_end f - f_start f + 1) new) b)) = Ok low).
  { destruct (f_start f =? 0) eqn:E; [eauto|]. apply N.eqb_neq in E. rewrite slice_ok by lia. cbn [bindr]. eauto. }
  assert (S : exists v, (let value_len := f_end f - f_start f + 1 in
      do low <- (if f_start f =? 0 then Ok (BVV value_len new)
                 else do b <- slice old (f_start f - 1) 0 ; Ok (BvConcat (BVV value_len new) b)) ;
      if f_end f <? r_len d - 1
      then do a <- slice old (r_len d - 1) (f_end f + 1) ; Ok (BvConcat a low)
      else Ok low) = Ok v /\ width v = r_len d /\
      forall r i, i < r_len d -> bit r v i = if (f_start f <=? i) && (i <=? f_end f) then N.testbit new (i - f_start f) else bit r old i).
  { cbv zeta. destruct G' as [low E]. rewrite E. cbn [bindr]. destruct (G low E) as [W B].
    destruct (N.ltb_spec (f_end f) (r_len d - 1)) as [Hlt|Hge].
    - rewrite slice_ok by lia. cbn [bindr]. eexists. split; [reflexivity|]. split; [cbn [width]; lia|].
      intros r i Hi. rewrite bit_concat, W, bit_extract. destruct (N.ltb_spec i (f_end f + 1)) as [Hi'|Hi'].
      + rewrite B by lia. nb; try lia; reflexivity.
      + nb; try lia. f_equal. lia.
    - exists low. split; [reflexivity|]. split; [lia|]. intros r i Hi. rewrite B by lia. nb; try lia; reflexivity. }
  destruct old; try exact S.
  cbn [change_value]. set (old := BVV w v) in *.
  assert (PB : exists b, (if 0 <? f_start f then do b <- slice old (f_start f - 1) 0 ; Ok (ev env0 b) else Ok 0) = Ok b /\
            forall i, N.testbit b i = (i <? f_start f) && bit env0 old i).
  { destruct (N.ltb_spec 0 (f_start f)) as [Hs|Hs].
    - rewrite slice_ok by lia. cbn [bindr]. eexists. split; [reflexivity|]. intros i.
      change (bit env0 (BvExtract (f_start f - 1) 0 old) i = (i <? f_start f) && bit env0 old i).
      rewrite bit_extract, N.add_0_r. replace (f_start f - 1 + 1 - 0) with (f_start f) by lia. reflexivity.
    - exists 0. split; [reflexivity|]. intros i. rewrite N.bits_0. nb; try lia; reflexivity. }
  assert (PA : exists a, (if f_end f <? r_len d - 1 then do a <- slice old (r_len d - 1) (f_end f + 1) ; Ok (ev env0 a) else Ok 0) = Ok a /\
            forall i, i < r_len d -> N.testbit (if f_end f <? r_len d - 1 then N.shiftl a (f_end f + 1) else 0) i = (f_end f <? i) && bit env0 old i).
  { destruct (N.ltb_spec (f_end f) (r_len d - 1)) as [Hs|Hs].
    - rewrite slice_ok by lia. cbn [bindr]. eexists. split; [reflexivity|]. intros i Hi.
      destruct (N.ltb_spec (f_end f) i) as [Hi'|Hi']; cbn [andb].
      + rewrite N.shiftl_spec_high' by lia.
        change (bit env0 (BvExtract (r_len d - 1) (f_end f + 1) old) (i - (f_end f + 1)) = bit env0 old i).
        rewrite bit_extract. nb; try lia. f_equal. lia.
      + apply N.shiftl_spec_low. lia.
    - exists 0. split; [reflexivity|]. intros i Hi. rewrite N.bits_0. nb; try lia; reflexivity. }
  destruct PB as (b & -> & Bb). destruct PA as (a & -> & Ba). cbn [bindr].
  eexists. split; [reflexivity|]. split; [reflexivity|].
  intros r i Hi. rewrite bit_bvv, (proj2 (N.ltb_lt _ _)) by exact Hi. cbn [andb]. rewrite !N.lor_spec, Bb, (Ba i Hi).
  assert (BO : bit r old i = bit env0 old i) by reflexivity. rewrite BO.
  destruct (N.leb_spec (f_start f) i) as [Hs|Hs]; cbn [andb].
  - rewrite N.shiftl_spec_high' by exact Hs. rewrite (proj2 (N.ltb_ge i (f_start f))) by exact Hs. cbn [andb orb].
    destruct (N.leb_spec i (f_end f)) as [He|He].
    + rewrite (proj2 (N.ltb_ge _ _)) by exact He. cbn [andb]. apply orb_false_r.
    + rewrite (proj2 (N.ltb_lt _ _)) by exact He. rewrite HH by lia. reflexivity.
  - rewrite N.shiftl_spec_low by exact Hs. rewrite (proj2 (N.ltb_lt i (f_start f))) by exact Hs.
    rewrite (proj2 (N.ltb_ge _ _)) by lia. cbn [andb orb]. rewrite !orb_false_r. reflexivity.
Qed.

(** What a register holds: what was stored, or its initial value. *)
Definition holds_value (m : rdict) (x : N) (d : reg) (index : N) (use_init : bool) (v : bv) : Prop :=
  match dget m (key_of d index) with
  | Some v' => v = v'
  | None => if use_init then match init_reg_con d with Some v' => v = v' | None => init_reg_symb x d = Ok v end
            else v = BVS (r_len d) x
  end.
Lemma fetch_spec : forall m x d index ui v m' x', fetch_reg m x d index ui = Ok (v, m', x') ->
  holds_value m x d index ui v /\ dget m' (key_of d index) = Some v /\
  (forall k, k <> key_of d index -> dget m' k = dget m k) /\ (forall k v', dget m k = Some v' -> dget m' k = Some v').
Proof.
  intros m x d index ui v m' x' H. unfold fetch_reg in H. unfold holds_value.
  destruct (dget m (key_of d index)) as [v0|] eqn:E.
  - injection H as <- <- <-. auto.
  - assert (H' : exists v1, (if ui then match init_reg_con d with Some v => Ok v | None => init_reg_symb x d end else Ok (BVS (r_len d) x)) = Ok v1 /\
       v1 = v /\ m' = update_reg m d index v1).
    { apply bindr_ok in H as (v1 & H1 & H2). exists v1. split; [exact H1|]. injection H2 as <- <- <-. auto. }
    destruct H' as (v1 & H1 & -> & ->). unfold update_reg. split.
    { destruct ui; [|injection H1 as <-; reflexivity]. destruct (init_reg_con d); [injection H1 as <-; reflexivity|exact H1]. }
    split; [apply dget_set|]. split; [intros k Hk; apply dget_other; exact Hk|].
    intros k v' Hk. rewrite dget_other; [exact Hk|]. intros ->. congruence.
Qed.

(** A register description the device can work with, and stored values of the right width. *)
Definition reg_ok (d : reg) : Prop :=
  0 < r_len d /\ Forall (field_fits (r_len d)) (r_fields d) /\ ForallOrdPairs disjoint (r_fields d) /\
  ((exists f, In f (r_fields d) /\ f_init f = None) -> ascending 0 (r_len d) (r_fields d)).
Definition width_ok (m : rdict) (d : reg) (index : N) : Prop :=
  forall v, dget m (key_of d index) = Some v -> width v = r_len d.

Lemma fetch_total : forall m x d index ui, reg_ok d -> width_ok m d index ->
  exists v m' x', fetch_reg m x d index ui = Ok (v, m', x') /\ width v = r_len d.
Proof.
  intros m x d index ui (H1 & H2 & H3 & H4) Hw. unfold fetch_reg. destruct (dget m (key_of d index)) as [v|] eqn:E.
  - exists v, m, x. split; [reflexivity|]. apply Hw. exact E.
  - destruct ui.
    + destruct (init_reg_con d) as [v|] eqn:Ec.
      * cbn [bindr]. do 3 eexists. split; [reflexivity|]. unfold init_reg_con in Ec. destruct (init_con_loop (r_fields d) 0); [|discriminate].
        injection Ec as <-. reflexivity.
      * assert (Hx : exists f, In f (r_fields d) /\ f_init f = None).
        { unfold init_reg_con in Ec. destruct (init_con_loop (r_fields d) 0) eqn:El; [discriminate|].
          clear -El. revert El. generalize 0. induction (r_fields d) as [|f fs IH]; intros acc El; cbn [init_con_loop] in El; [discriminate|].
          destruct (f_init f) eqn:Ef; [|exists f; split; [left; reflexivity|exact Ef]].
          destruct (IH _ El) as (g & Hg & Q). exists g. split; [right; exact Hg|exact Q]. }
        destruct (init_symb_spec d x H1 (H4 Hx)) as (v & E' & W & _). rewrite E'. cbn [bindr]. do 3 eexists. split; [reflexivity|exact W].
    + cbn [bindr]. do 3 eexists. split; reflexivity.
Qed.

Lemma change_spec : forall m x d f index ui new, reg_ok d -> width_ok m d index -> In f (r_fields d) ->
  new < 2 ^ (f_end f + 1 - f_start f) ->
  exists m' x' old v, change_reg_field m x d f index ui new = Ok (m', x') /\
  holds_value m x d index ui old /\ width old = r_len d /\ width v = r_len d /\
  dget m' (key_of d index) = Some v /\
  (forall r i, i < r_len d -> bit r v i = if (f_start f <=? i) && (i <=? f_end f) then N.testbit new (i - f_start f) else bit r old i) /\
  (forall k, k <> key_of d index -> dget m' k = dget m k).
Proof.
  intros m x d f index ui new Hd Hw Hf Hn.
  destruct (fetch_total m x d index ui Hd Hw) as (old & m1 & x1 & E & W).
  destruct (fetch_spec _ _ _ _ _ _ _ _ E) as (F1 & F2 & F3 & F4).
  destruct Hd as (_ & Hfit & _). rewrite Forall_forall in Hfit. destruct (Hfit f Hf) as (A1 & A2 & _).
  destruct (change_value_spec d f old new W A1 A2 Hn) as (v & Ev & Wv & Bv).
  unfold change_reg_field. rewrite E. cbn [bindr]. rewrite Ev. cbn [bindr].
  exists (update_reg m1 d index v), x1, old, v. split; [reflexivity|]. split; [exact F1|]. split; [exact W|]. split; [exact Wv|].
  split; [apply dget_set|]. split; [exact Bv|]. intros k Hk. unfold update_reg. rewrite dget_other by exact Hk. apply F3. exact Hk.
Qed.

(** ** Values of fields *)
Lemma field_value_bit : forall r e f i, N.testbit (field_value r e f) i = (i <? f_end f + 1 - f_start f) && bit r e (i + f_start f).
Proof. intros. unfold field_value. change (?a mod 2 ^ ?w) with (wrap w a). rewrite testbit_wrap, N.div_pow2_bits. reflexivity. Qed.
Lemma field_value_lt : forall r e f, field_value r e f < 2 ^ (f_end f + 1 - f_start f).
Proof. intros. apply N.mod_lt, pow2_ne. Qed.
Lemma field_value_eq : forall r e e' f, (forall i, covers f i -> bit r e i = bit r e' i) -> field_value r e f = field_value r e' f.
Proof.
  intros r e e' f H. apply (bits_eq (f_end f + 1 - f_start f)); try apply field_value_lt. intros i Hi.
  rewrite !field_value_bit, (proj2 (N.ltb_lt _ _)) by exact Hi. cbn [andb]. apply H. unfold covers. lia.
Qed.
Lemma ev_slice : forall r e f, ev r (BvExtract (f_end f) (f_start f) e) = field_value r e f.
Proof. reflexivity. Qed.
Lemma changed_value : forall r v old f new L, f_start f <= f_end f -> f_end f < L -> new < 2 ^ (f_end f + 1 - f_start f) ->
  (forall i, i < L -> bit r v i = if (f_start f <=? i) && (i <=? f_end f) then N.testbit new (i - f_start f) else bit r old i) ->
  field_value r v f = new /\
  forall g, f_end g < L -> disjoint f g -> field_value r v g = field_value r old g.
Proof.
  intros r v old f new L H1 H2 H3 B. split.
  - apply (bits_eq (f_end f + 1 - f_start f)); [apply field_value_lt|exact H3|]. intros i Hi.
    rewrite field_value_bit, (proj2 (N.ltb_lt _ _)) by exact Hi. cbn [andb]. rewrite B by lia. nb; try lia. f_equal. lia.
  - intros g Hg D. apply field_value_eq. intros i Hc. rewrite B by (unfold covers in Hc; lia).
    destruct ((f_start f <=? i) && (i <=? f_end f)) eqn:E; [|reflexivity].
    apply andb_prop in E as [E1 E2]. apply N.leb_le in E1, E2. exfalso. apply (D i); [split; assumption|exact Hc].
Qed.

(** ** Access checks *)
Section Access.
Variable is_true : bexp -> bool.
Hypothesis is_true_ok : forall c, is_true c = true -> forall r, eb r c = true.

Lemma find_fields_spec : forall fs prev new l, find_fields is_true prev new fs = Ok l ->
  (forall e, In e l -> exists f, In f fs /\ e = (f, BvExtract (f_end f) (f_start f) prev, BvExtract (f_end f) (f_start f) new)) /\
  (forall f, In f fs -> In (f, BvExtract (f_end f) (f_start f) prev, BvExtract (f_end f) (f_start f) new) l \/
     forall r, field_value r prev f = field_value r new f) /\
  (forall f, In f fs -> f_start f <= f_end f).
Proof.
  induction fs as [|f fs IH]; intros prev new l H; cbn [find_fields] in H.
  - injection H as <-. split; [intros e []|]. split; intros f [].
  - apply bindr_ok in H as (p & H1 & H). apply bindr_ok in H as (n & H2 & H). apply bindr_ok in H as (rest & H3 & H).
    apply slice_inv in H1 as (A1 & _ & ->). apply slice_inv in H2 as (_ & _ & ->).
    destruct (IH _ _ _ H3) as (I1 & I2 & I3).
    assert (HS : forall g, In g (f :: fs) -> f_start g <= f_end g) by (intros g [<-|Hg]; [exact A1|auto]).
    destruct (is_true _) eqn:E in H; injection H as <-.
    + split; [intros e He; destruct (I1 e He) as (g & Hg & Q); exists g; split; [right; exact Hg|exact Q]|].
      split; [|exact HS]. intros g [<-|Hg]; [|auto]. right. intros r. pose proof (is_true_ok _ E r) as Q.
      apply BEq_true in Q. exact Q.
    + split; [intros e [<-|He]; [exists f; split; [left; reflexivity|reflexivity]|]; destruct (I1 e He) as (g & Hg & Q); exists g; split; [right; exact Hg|exact Q]|].
      split; [|exact HS]. intros g [<-|Hg]; [left; left; reflexivity|]. destruct (I2 g Hg) as [Q|Q]; [left; right; exact Q|right; exact Q].
Qed.
Definition not_writable (f : field) : bool := match f_acc f with NA | RO => true | _ => false end.
(** No read-only field comes after one that ignores writes. *)
Fixpoint iw_last (fs : list field) : bool :=
  match fs with
  | [] => true
  | f :: fs => (if access_eqb (f_acc f) IW then forallb (fun g => negb (not_writable g)) fs else true) && iw_last fs
  end.
(** The fields of [l] come from [fs], in order. *)
Lemma find_fields_order : forall fs prev new l, find_fields is_true prev new fs = Ok l -> iw_last fs = true ->
  iw_last (map (fun e => fst (fst e)) l) = true.
Proof.
  induction fs as [|f fs IH]; intros prev new l H Hs; cbn [find_fields] in H.
  - injection H as <-. reflexivity.
  - apply bindr_ok in H as (p & H1 & H). apply bindr_ok in H as (n & H2 & H). apply bindr_ok in H as (rest & H3 & H).
    cbn [iw_last] in Hs. apply andb_prop in Hs as [Hs1 Hs2].
    destruct (is_true _) eqn:E in H; injection H as <-; [eapply IH; eauto|]. cbn [map iw_last fst].
    rewrite (IH _ _ _ H3 Hs2), andb_true_r. destruct (access_eqb (f_acc f) IW); [|reflexivity].
    apply forallb_forall. intros g Hg. apply in_map_iff in Hg as (e & <- & He).
    destruct (proj1 (find_fields_spec _ _ _ _ H3) e He) as (g & Hg & ->). cbn [fst].
    rewrite forallb_forall in Hs1. apply Hs1. exact Hg.
Qed.
Lemma check_fields_spec : forall l l', check_fields l = Ok l' -> iw_last (map (fun e => fst (fst e)) l) = true ->
  forall e, In e l -> not_writable (fst (fst e)) = false.
Proof.
  induction l as [|[[f p] n] l IH]; intros l' H Hs e He; [destruct He|]. cbn [check_fields] in H. cbn [map iw_last fst] in Hs.
  apply andb_prop in Hs as [Hs1 Hs2].
  assert (G : not_writable f = false -> (exists l1, check_fields l = Ok l1) \/ f_acc f = IW -> In e ((f, p, n) :: l) -> not_writable (fst (fst e)) = false).
  { intros Hf Hor [<-|Hin]; [exact Hf|]. destruct Hor as [[l1 E]|E]; [eapply IH; eauto|].
    rewrite E in Hs1. cbn [access_eqb] in Hs1. rewrite forallb_forall in Hs1.
    specialize (Hs1 (fst (fst e)) (in_map (fun e => fst (fst e)) _ _ Hin)). destruct (not_writable (fst (fst e))); [discriminate|reflexivity]. }
  unfold not_writable in G at 1.
  destruct (f_acc f) eqn:Ef; try discriminate; try (apply bindr_ok in H as (l1 & H1 & _)); apply G; eauto.
Qed.
Lemma access_spec : forall d prev new l l', iw_last (r_fields d) = true ->
  find_fields_on_write is_true prev new d = Ok l -> check_access_write d l = Ok l' ->
  forall f, In f (r_fields d) -> not_writable f = true -> forall r, field_value r prev f = field_value r new f.
Proof.
  intros d prev new l l' Hs Hl Hc f Hf Hn r. unfold find_fields_on_write in Hl.
  destruct (find_fields_spec _ _ _ _ Hl) as (_ & I2 & _). destruct (I2 f Hf) as [Q|Q]; [|apply Q].
  exfalso. assert (Hc' : exists l1, check_fields l = Ok l1).
  { unfold check_access_write in Hc. destruct l; [|eauto]. destruct (r_acc d); try discriminate; eauto. }
  destruct Hc' as [l1 Hc']. pose proof (check_fields_spec _ _ Hc' (find_fields_order _ _ _ _ Hl Hs) _ Q) as R. cbn [fst] in R. congruence.
Qed.
(** What the check hands on: the same fields; a field that ignores writes is its old value. *)
Lemma check_fields_keep : forall l l', check_fields l = Ok l' -> forall f p n, In (f, p, n) l -> f_acc f <> IW -> In (f, p, n) l'.
Proof.
  induction l as [|[[g q] m] l IH]; intros l' H f p n Hin Hf; [destruct Hin|]. cbn [check_fields] in H.
  destruct (f_acc g) eqn:Eg; try discriminate;
    try (apply bindr_ok in H as (l1 & H1 & H2); injection H2 as <-; destruct Hin as [Q|Hin]; [left; exact Q|right; eauto]).
  injection H as <-. destruct Hin as [Q|Hin]; [injection Q as -> -> ->; congruence|right; exact Hin].
Qed.
Lemma check_access_keep : forall d l l', check_access_write d l = Ok l' -> forall f p n, In (f, p, n) l -> f_acc f <> IW -> In (f, p, n) l'.
Proof.
  intros d l l' H. unfold check_access_write in H. destruct l; [intros f p n []|].
  assert (H' : check_fields (p :: l) = Ok l') by (destruct (r_acc d); exact H). apply check_fields_keep. exact H'.
Qed.
End Access.
