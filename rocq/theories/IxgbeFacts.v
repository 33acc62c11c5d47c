(** * Facts about the driver's register helpers and programs *)

From Coq Require Import NArith List Bool Lia Arith.
From Verif Require Import Ixgbe.
Import ListNotations.
Open Scope N_scope.

(** ** Bits *)

(** Bits [s] to [e] of a register. *)
Definition bits (v s e : N) : N := (v / 2 ^ s) mod 2 ^ (e + 1 - s).

Lemma high_bits : forall v n b, v < 2 ^ n -> n <= b -> N.testbit v b = false.
Proof.
  intros v n b H Hb. destruct (N.eq_dec v 0) as [->|Hz]; [apply N.bits_0|]. apply N.bits_above_log2.
  apply N.log2_lt_pow2; [lia|]. eapply N.lt_le_trans; [exact H|]. apply N.pow_le_mono_r; lia.
Qed.
Lemma bits_lt : forall v s e, bits v s e < 2 ^ (e + 1 - s).
Proof. intros. apply N.mod_lt. apply N.pow_nonzero. lia. Qed.
Lemma testbit_bits : forall v s e b, N.testbit (bits v s e) b = (b <? e + 1 - s) && N.testbit v (b + s).
Proof.
  intros v s e b. unfold bits. destruct (N.ltb_spec b (e + 1 - s)) as [H|H].
  - rewrite N.mod_pow2_bits_low by exact H. rewrite N.div_pow2_bits. reflexivity.
  - rewrite N.mod_pow2_bits_high by exact H. reflexivity.
Qed.
Lemma bits_eq : forall v w s e, s <= e -> (forall b, s <= b <= e -> N.testbit v b = N.testbit w b) -> bits v s e = bits w s e.
Proof.
  intros v w s e Hs H. apply N.bits_inj. intros b. rewrite !testbit_bits.
  destruct (N.ltb_spec b (e + 1 - s)) as [L|L]; [|reflexivity]. cbn [andb]. apply H. lia.
Qed.
Lemma bits_is : forall v s e x, s <= e -> x < 2 ^ (e + 1 - s) -> (forall b, s <= b <= e -> N.testbit v b = N.testbit x (b - s)) -> bits v s e = x.
Proof.
  intros v s e x Hs Hx H. apply N.bits_inj. intros b. rewrite !testbit_bits.
  destruct (N.ltb_spec b (e + 1 - s)) as [L|L]; cbn [andb].
  - rewrite H by lia. f_equal. lia.
  - symmetry. eapply high_bits; eassumption.
Qed.
Lemma bits_one : forall v n, bits v n n = if N.testbit v n then 1 else 0.
Proof.
  intros v n. apply bits_is; [lia|replace (n + 1 - n) with 1 by lia; destruct (N.testbit v n); reflexivity|].
  intros b Hb. replace b with n by lia. rewrite N.sub_diag. destruct (N.testbit v n); reflexivity.
Qed.

Lemma testbit_all32 : forall b, N.testbit all32 b = (b <? 32).
Proof.
  intros b. change all32 with (N.ones 32). destruct (N.ltb_spec b 32); [apply N.ones_spec_low; lia|apply N.ones_spec_high; lia].
Qed.
Lemma testbit_u32 : forall v b, N.testbit (u32 v) b = (b <? 32) && N.testbit v b.
Proof.
  intros v b. unfold u32. destruct (N.ltb_spec b 32); [rewrite N.mod_pow2_bits_low by lia|rewrite N.mod_pow2_bits_high by lia]; reflexivity.
Qed.
Lemma u32_lt : forall v, u32 v < 2 ^ 32.
Proof. intros. apply N.mod_lt. discriminate. Qed.
Lemma testbit_shl32 : forall s b, N.testbit (u32 (N.shiftl all32 s)) b = (b <? 32) && (s <=? b).
Proof.
  intros s b. rewrite testbit_u32. destruct (N.ltb_spec b 32) as [H|H]; [|reflexivity]. cbn [andb].
  destruct (N.leb_spec s b) as [L|L].
  - rewrite N.shiftl_spec_high' by exact L. rewrite testbit_all32. apply N.ltb_lt. lia.
  - rewrite N.shiftl_spec_low by exact L. reflexivity.
Qed.
Lemma testbit_BITS : forall s e b, s <= e <= 31 -> N.testbit (BITS s e) b = (s <=? b) && (b <=? e).
Proof.
  intros s e b H. unfold BITS. rewrite N.lxor_spec, testbit_shl32.
  destruct (N.eqb_spec e 31) as [->|Hne].
  - rewrite N.bits_0. destruct (N.ltb_spec b 32), (N.leb_spec s b), (N.leb_spec b 31); try reflexivity; lia.
  - rewrite testbit_shl32. destruct (N.ltb_spec b 32), (N.leb_spec s b), (N.leb_spec b e), (N.leb_spec (e + 1) b); try reflexivity; lia.
Qed.
Lemma BIT_BITS : forall n, n <= 31 -> BIT n = BITS n n.
Proof.
  intros n H. apply N.bits_inj. intros b. rewrite testbit_BITS by lia. unfold BIT. rewrite testbit_u32.
  destruct (N.leb_spec n b) as [L|L].
  - rewrite N.shiftl_spec_high' by exact L. destruct (N.leb_spec b n) as [L'|L'].
    + replace (b - n) with 0 by lia. destruct (N.ltb_spec b 32); [reflexivity|lia].
    + rewrite (N.bits_above_log2 1 (b - n)) by (change (N.log2 1) with 0; lia). rewrite !andb_false_r. reflexivity.
  - rewrite N.shiftl_spec_low by exact L. apply andb_false_r.
Qed.
Lemma BITS_lt : forall s e, s <= e <= 31 -> BITS s e < 2 ^ 32.
Proof.
  intros s e H. destruct (N.eq_dec (BITS s e) 0) as [->|Hz]; [reflexivity|]. apply N.log2_lt_pow2; [lia|].
  assert (T := N.bit_log2 _ Hz). rewrite testbit_BITS in T by exact H. apply andb_prop in T as [_ T]. apply N.leb_le in T. lia.
Qed.
Lemma BITS_nz : forall s e, s <= e <= 31 -> BITS s e <> 0.
Proof.
  intros s e H E. assert (T := testbit_BITS s e s H). rewrite E, N.bits_0, N.leb_refl, (proj2 (N.leb_le s e)) in T by lia. discriminate.
Qed.

Lemma land_1 : forall v n, (N.land (N.shiftr v n) 1 =? 0) = negb (N.testbit v n).
Proof.
  intros v n. change 1 with (N.ones 1). rewrite N.land_ones. change (2 ^ 1) with 2. rewrite <- N.bit0_mod, N.shiftr_spec', N.add_0_l.
  destruct (N.testbit v n); reflexivity.
Qed.
Lemma ffs_loop_spec : forall fuel v n, (forall b, b < n -> N.testbit v b = false) -> (exists b, n <= b < n + N.of_nat fuel /\ N.testbit v b = true) ->
  N.testbit v (ffs_loop fuel v n) = true /\ forall b, b < ffs_loop fuel v n -> N.testbit v b = false.
Proof.
  induction fuel as [|fuel IH]; intros v n Hl (b & Hb & Ht); [lia|]. cbn [ffs_loop]. rewrite land_1.
  destruct (N.testbit v n) eqn:E; cbn [negb]; [split; [exact E|exact Hl]|].
  apply IH.
  - intros c Hc. destruct (N.eq_dec c n) as [->|]; [exact E|apply Hl; lia].
  - exists b. split; [|exact Ht]. destruct (N.eq_dec b n) as [->|]; [congruence|lia].
Qed.
(** The first set bit of any nonzero value of 32 bits. *)
Lemma ffs_spec : forall v, v <> 0 -> v < 2 ^ 32 -> N.testbit v (find_first_set v) = true /\ forall b, b < find_first_set v -> N.testbit v b = false.
Proof.
  intros v Hz Hv. unfold find_first_set. destruct (N.eqb_spec v 0); [contradiction|]. apply ffs_loop_spec; [intros b Hb; lia|].
  exists (N.log2 v). split; [|apply N.bit_log2; exact Hz]. split; [lia|]. apply N.log2_lt_pow2 in Hv; [|lia]. lia.
Qed.
Lemma ffs_BITS : forall s e, s <= e <= 31 -> find_first_set (BITS s e) = s.
Proof.
  intros s e H. destruct (ffs_spec _ (BITS_nz s e H) (BITS_lt s e H)) as [T L].
  rewrite testbit_BITS in T by exact H. apply andb_prop in T as [T _]. apply N.leb_le in T.
  destruct (N.lt_trichotomy s (find_first_set (BITS s e))) as [C|[C|C]]; [|auto|lia].
  specialize (L s C). rewrite testbit_BITS, N.leb_refl, (proj2 (N.leb_le s e)) in L by lia. discriminate.
Qed.

Lemma testbit_not32 : forall x b, N.testbit (not32 x) b = xorb (N.testbit x b) (b <? 32).
Proof. intros. unfold not32. rewrite N.lxor_spec, testbit_all32. reflexivity. Qed.

(** Writing a value that fits in a field. *)
Lemma testbit_field_write : forall o s e v b, s <= e <= 31 -> o < 2 ^ 32 -> v < 2 ^ (e + 1 - s) ->
  N.testbit (field_write o (BITS s e) v) b = if (s <=? b) && (b <=? e) then N.testbit v (b - s) else N.testbit o b.
Proof.
  intros o s e v b H Ho Hv. unfold field_write. rewrite ffs_BITS by exact H.
  rewrite N.lor_spec, N.land_spec, testbit_not32, testbit_BITS, testbit_u32 by exact H.
  destruct (N.leb_spec s b) as [L|L]; cbn [andb].
  - rewrite N.shiftl_spec_high' by exact L. destruct (N.leb_spec b e) as [L'|L'].
    + destruct (N.ltb_spec b 32) as [M|M]; [|lia]. cbn [xorb andb]. rewrite andb_false_r. reflexivity.
    + rewrite (high_bits v (e + 1 - s) (b - s)) by (assumption || lia). rewrite andb_false_r, orb_false_r.
      destruct (N.ltb_spec b 32) as [M|M]; cbn [xorb]; [apply andb_true_r|]. rewrite (high_bits o 32 b) by assumption. reflexivity.
  - rewrite N.shiftl_spec_low by exact L. rewrite andb_false_r, orb_false_r.
    destruct (N.ltb_spec b 32) as [M|M]; cbn [xorb]; [apply andb_true_r|lia].
Qed.
Lemma field_write_lt : forall o s e v, s <= e <= 31 -> o < 2 ^ 32 -> field_write o (BITS s e) v < 2 ^ 32.
Proof.
  intros o s e v H Ho. unfold field_write. set (x := N.lor _ _). destruct (N.eq_dec x 0) as [->|Hz]; [reflexivity|]. apply N.log2_lt_pow2; [lia|].
  assert (T := N.bit_log2 _ Hz). destruct (N.lt_ge_cases (N.log2 x) 32) as [|G]; [assumption|exfalso].
  unfold x in T at 1. rewrite N.lor_spec, N.land_spec, testbit_u32, (high_bits o 32 _ Ho G) in T. destruct (N.ltb_spec (N.log2 x) 32); [lia|discriminate].
Qed.
Lemma set_is_write : forall o n, n <= 31 -> o < 2 ^ 32 -> N.lor o (BIT n) = field_write o (BITS n n) 1.
Proof.
  intros o n H Ho. apply N.bits_inj. intros b. rewrite testbit_field_write by (assumption || lia || (replace (n + 1 - n) with 1 by lia; reflexivity)).
  rewrite N.lor_spec, BIT_BITS, testbit_BITS by lia. destruct (N.leb_spec n b), (N.leb_spec b n); cbn [andb]; try apply orb_false_r.
  replace (b - n) with 0 by lia. apply orb_true_r.
Qed.
(** Reading a field. *)
Lemma field_read_bits : forall v s e, s <= e <= 31 -> field_read v (BITS s e) = bits v s e.
Proof.
  intros v s e H. unfold field_read. rewrite ffs_BITS by exact H. apply N.bits_inj. intros b.
  rewrite N.land_spec, !N.shiftr_spec', testbit_BITS, testbit_bits by exact H. rewrite andb_comm. f_equal.
  destruct (N.leb_spec s (b + s)), (N.leb_spec (b + s) e), (N.ltb_spec b (e + 1 - s)); try reflexivity; lia.
Qed.
Lemma bits_write_same : forall o s e v, s <= e <= 31 -> o < 2 ^ 32 -> v < 2 ^ (e + 1 - s) -> bits (field_write o (BITS s e) v) s e = v.
Proof.
  intros o s e v H Ho Hv. apply bits_is; [lia|exact Hv|]. intros b Hb. rewrite testbit_field_write by assumption.
  destruct (N.leb_spec s b), (N.leb_spec b e); cbn [andb]; try reflexivity; lia.
Qed.
Lemma bits_write_other : forall o s e v s' e', s <= e <= 31 -> o < 2 ^ 32 -> v < 2 ^ (e + 1 - s) -> s' <= e' -> (e < s' \/ e' < s) ->
  bits (field_write o (BITS s e) v) s' e' = bits o s' e'.
Proof.
  intros o s e v s' e' H Ho Hv Hs D. apply bits_eq; [exact Hs|]. intros b Hb. rewrite testbit_field_write by assumption.
  destruct (N.leb_spec s b), (N.leb_spec b e); cbn [andb]; try reflexivity; lia.
Qed.

(** ** Views *)

(** What the driver last read from or wrote to each register. *)
Definition view := loc -> option N.
Definition upd (vw : view) (l : loc) (v : N) : view := fun l' => if loc_eqb l l' then Some v else vw l'.
Definition see (vw : view) (e : event) : view :=
  match e with ERead l v | EWrite l v => upd vw l v | _ => vw end.
Definition view_after (vw : view) (tr : list event) : view := fold_left see tr vw.
(** Every event of an execution, with the view just before it. *)
Definition along (P : view -> event -> Prop) (vw : view) (tr : list event) : Prop :=
  forall p e q, tr = p ++ e :: q -> P (view_after vw p) e.

Lemma loc_eqb_eq : forall a b, loc_eqb a b = true <-> a = b.
Proof.
  intros [d r|d r] [d' r'|d' r']; cbn; try (split; [discriminate|intros [=]]);
  rewrite andb_true_iff, !N.eqb_eq; split; [intros [-> ->]; reflexivity|intros [= -> ->]; auto|intros [-> ->]; reflexivity|intros [= -> ->]; auto].
Qed.
Lemma upd_same : forall vw l v, upd vw l v l = Some v.
Proof. intros. unfold upd. rewrite (proj2 (loc_eqb_eq l l) eq_refl). reflexivity. Qed.
Lemma upd_other : forall vw l v l', l <> l' -> upd vw l v l' = vw l'.
Proof. intros vw l v l' H. unfold upd. destruct (loc_eqb l l') eqn:E; [apply loc_eqb_eq in E; contradiction|reflexivity]. Qed.

Lemma along_nil : forall (P : view -> event -> Prop) vw, along P vw [].
Proof. intros P vw p e q H. destruct p; discriminate. Qed.
Lemma along_cons : forall (P : view -> event -> Prop) vw e tr, P vw e -> along P (see vw e) tr -> along P vw (e :: tr).
Proof.
  intros P vw e tr H1 H2 p e' q E. destruct p as [|e0 p]; injection E as -> ->; [exact H1|]. cbn. apply (H2 p e' q). reflexivity.
Qed.
Lemma along_inv : forall (P : view -> event -> Prop) vw e tr, along P vw (e :: tr) -> P vw e /\ along P (see vw e) tr.
Proof.
  intros P vw e tr H. split; [exact (H [] e tr eq_refl)|]. intros p e' q E. apply (H (e :: p) e' q). rewrite E. reflexivity.
Qed.
Lemma along_impl : forall (P Q : view -> event -> Prop) vw tr, (forall w e, P w e -> Q w e) -> along P vw tr -> along Q vw tr.
Proof. intros P Q vw tr H A p e q E. apply H. eapply A. exact E. Qed.

(** ** Reasoning about programs

    [any] is what may be assumed about the events the card decides, [ok] what has to hold
    of every event. *)
Section Safe.
Variables any ok : view -> event -> Prop.
Fixpoint safe {A} (p : prog A) (vw : view) (Q : A -> view -> Prop) : Prop :=
  match p with
  | Ret a => Q a vw
  | Fatal => True
  | Read l k => forall v, v < 2 ^ 32 -> any vw (ERead l v) -> ok vw (ERead l v) /\ safe (k v) (upd vw l v) Q
  | Write l v k => ok vw (EWrite l v) /\ safe k (upd vw l v) Q
  | Sleep ns k => ok vw (ESleep ns) /\ safe k vw Q
  | Map d p s k => ok vw (EMap d p s) /\ safe k vw Q
  | Phys x k => forall v, v < 2 ^ 64 -> any vw (EPhys x v) -> ok vw (EPhys x v) /\ safe (k v) vw Q
  end.

Lemma safe_sound : forall A (p : prog A) tr o, runs p tr o -> forall vw Q, safe p vw Q -> along any vw tr ->
  along ok vw tr /\ forall a, o = Some a -> Q a (view_after vw tr).
Proof.
  intros A p tr o H. induction H as [a| |l k v tr o Hv H IH|l v k tr o H IH|ns k tr o H IH|d ph s k tr o H IH|x k v tr o Hv H IH];
    intros vw Q S HA; cbn [safe] in S.
  - split; [apply along_nil|]. intros b [= ->]. exact S.
  - split; [apply along_nil|]. discriminate.
  - apply along_inv in HA as [A1 A2]. destruct (S v Hv A1) as [S1 S2]. destruct (IH _ _ S2 A2) as [I1 I2]. split; [apply along_cons; assumption|exact I2].
  - apply along_inv in HA as [A1 A2]. destruct S as [S1 S2]. destruct (IH _ _ S2 A2) as [I1 I2]. split; [apply along_cons; assumption|exact I2].
  - apply along_inv in HA as [A1 A2]. destruct S as [S1 S2]. destruct (IH _ _ S2 A2) as [I1 I2]. split; [apply along_cons; assumption|exact I2].
  - apply along_inv in HA as [A1 A2]. destruct S as [S1 S2]. destruct (IH _ _ S2 A2) as [I1 I2]. split; [apply along_cons; assumption|exact I2].
  - apply along_inv in HA as [A1 A2]. destruct (S v Hv A1) as [S1 S2]. destruct (IH _ _ S2 A2) as [I1 I2]. split; [apply along_cons; assumption|exact I2].
Qed.

Lemma safe_mono : forall A (p : prog A) vw (Q Q' : A -> view -> Prop), (forall a w, Q a w -> Q' a w) -> safe p vw Q -> safe p vw Q'.
Proof.
  induction p as [a| |l k IH|l v k IH|ns k IH|d ph s k IH|x k IH]; intros vw Q Q' H S; cbn [safe] in *; auto.
  - intros v Hv Ha. destruct (S v Hv Ha). split; [assumption|]. eapply IH; eassumption.
  - destruct S. split; [assumption|]. eapply IH; eassumption.
  - destruct S. split; [assumption|]. eapply IH; eassumption.
  - destruct S. split; [assumption|]. eapply IH; eassumption.
  - intros v Hv Ha. destruct (S v Hv Ha). split; [assumption|]. eapply IH; eassumption.
Qed.
Lemma safe_bind : forall A B (p : prog A) (f : A -> prog B) vw Q, safe p vw (fun a w => safe (f a) w Q) -> safe (bind p f) vw Q.
Proof.
  induction p as [a| |l k IH|l v k IH|ns k IH|d ph s k IH|x k IH]; intros f vw Q S; cbn [safe bind] in *; auto.
  - intros v Hv Ha. destruct (S v Hv Ha). auto.
  - destruct S. auto.
  - destruct S. auto.
  - destruct S. auto.
  - intros v Hv Ha. destruct (S v Hv Ha). auto.
Qed.
Lemma safe_then : forall A B (p : prog A) (f : A -> prog B) vw Q R, safe p vw R -> (forall a w, R a w -> safe (f a) w Q) -> safe (bind p f) vw Q.
Proof. intros A B p f vw Q R H1 H2. apply safe_bind. eapply safe_mono; [|exact H1]. exact H2. Qed.
Lemma safe_when : forall b (p : prog unit) vw Q, (b = true -> safe p vw Q) -> (b = false -> Q tt vw) -> safe (when b p) vw Q.
Proof. intros [|] p vw Q H1 H2; cbn [when safe]; auto. Qed.
Lemma safe_for : forall (I : N -> view -> Prop) count lo (body : N -> prog unit) vw,
  I lo vw -> (forall n w, lo <= n < lo + N.of_nat count -> I n w -> safe (body n) w (fun _ w' => I (n + 1) w')) ->
  safe (for_ lo count body) vw (fun _ w => I (lo + N.of_nat count) w).
Proof.
  intros I. induction count as [|c IH]; intros lo body vw H0 Hb; cbn [for_ safe].
  - rewrite N.add_0_r. exact H0.
  - eapply safe_then; [apply Hb; [lia|exact H0]|]. cbv beta. intros _ w Hw.
    replace (lo + N.of_nat (S c)) with (lo + 1 + N.of_nat c) by lia. apply IH; [exact Hw|]. intros n w' Hn. apply Hb. lia.
Qed.
(** Waiting on one register: what was read last decides. *)
Lemma safe_wait : forall us l (c : N -> bool) vw (Q : bool -> view -> Prop),
  (forall w ns, ok w (ESleep ns)) -> (forall w v, ok w (ERead l v)) ->
  (forall v w, v < 2 ^ 32 -> w l = Some v -> (forall l', l' <> l -> w l' = vw l') -> Q (c v) w) ->
  safe (if_after_timeout us (Read l (fun v => Ret (c v)))) vw Q.
Proof.
  intros us l c vw Q Hs Hr HQ. unfold if_after_timeout. cbn [safe]. split; [apply Hs|].
  assert (G : forall n w, (forall l', l' <> l -> w l' = vw l') -> (exists v, v < 2 ^ 32 /\ w l = Some v /\ c v = true) ->
    safe (poll n us (Read l (fun v => Ret (c v)))) w Q).
  { induction n as [|n IH]; intros w Hw (v & Hv & Hl & Hc); cbn [poll safe bind].
    - rewrite <- Hc. eapply HQ; eassumption.
    - intros v' Hv' _. split; [apply Hr|]. destruct (c v') eqn:E; cbn [negb safe].
      + split; [apply Hs|]. apply IH.
        * intros l' Hl'. rewrite upd_other by congruence. auto.
        * exists v'. split; [exact Hv'|]. split; [apply upd_same|exact E].
      + rewrite <- E. apply HQ; [exact Hv'|apply upd_same|]. intros l' Hl'. rewrite upd_other by congruence. auto. }
  change 10%nat with (S 9). generalize 9%nat as n9. intros n9. cbn [poll safe bind]. intros v' Hv' _. split; [apply Hr|].
  destruct (c v') eqn:E; cbn [negb safe].
  - split; [apply Hs|]. apply G.
    + intros l' Hl'. rewrite upd_other by congruence. auto.
    + exists v'. split; [exact Hv'|]. split; [apply upd_same|exact E].
  - rewrite <- E. apply HQ; [exact Hv'|apply upd_same|]. intros l' Hl'. rewrite upd_other by congruence. auto.
Qed.
End Safe.
