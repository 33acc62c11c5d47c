(** * Consistent-hashing table (env/src/structs/cht.c)

    Indices are natural numbers: heights and backend counts are uint16_t below 40000,
    so no product in the code wraps, and the casts to uint16_t are of values below the
    height or the backend count. *)

From Coq Require Import NArith List Bool Lia Arith Permutation Znumtheory ZArith.
From Verif Require Import IndexPool.
Import ListNotations.
Open Scope nat_scope.

(** cht.c 18-25: entry [j] of backend [i]'s permutation for height [h]. *)
Definition perm_entry (h i j : nat) : nat :=
  let offset := (i * 31) mod h in
  let shift := i mod (h - 1) + 1 in
  (offset + shift * j) mod h.

(** cht.c 29-36: one iteration; [None] is a write outside the data array. *)
Definition fill_step (h c : nat) (st : list nat * list nat) (ij : nat * nat) : option (list nat * list nat) :=
  let (next, data) := st in
  let (i, j) := ij in
  let bucket := perm_entry h j i in
  let priority := nth bucket next 0 in
  let next' := set_nth next bucket (priority + 1) in
  if (c * bucket + priority <? length data)
  then Some (next', set_nth data (c * bucket + priority) j)
  else None.
Fixpoint fill (h c : nat) (st : list nat * list nat) (l : list (nat * nat)) : option (list nat * list nat) :=
  match l with
  | [] => Some st
  | ij :: l' => match fill_step h c st ij with Some st' => fill h c st' l' | None => None end
  end.
(** The double loop's iteration order, cht.c 29-30. *)
Definition fill_order (h c : nat) : list (nat * nat) :=
  flat_map (fun i => map (fun j => (i, j)) (seq 0 c)) (seq 0 h).

(** cht.c 7-41: the table's data ([None] if the code writes out of bounds). *)
Definition cht_alloc (h c : nat) : option (list nat) :=
  match fill h c (repeat 0 h, repeat 0 (h * c)) (fill_order h c) with
  | Some (_, data) => Some data
  | None => None
  end.

(** One row of the table: the preference list of a bucket. *)
Definition cht_row (c : nat) (data : list nat) (bucket : nat) : list nat := firstn c (skipn (c * bucket) data).

(** cht.c 43-54; [hash] is os_memory_hash of the object. *)
Definition cht_find (data : list nat) (h c : nat) (hash : nat) (p : pool) (time : N) : option nat :=
  let bucket := (hash mod h) * c in
  find (fun cand => pool_used p time cand) (map (fun i => nth (bucket + i) data 0) (seq 0 c)).

(** * Proofs *)

(** Backends of the events of [l] that land in bucket [b], in order. *)
Definition landed (h b : nat) (l : list (nat * nat)) : list nat :=
  map snd (filter (fun ij => perm_entry h (snd ij) (fst ij) =? b) l).

Record finv (h c : nat) (done : list (nat * nat)) (st : list nat * list nat) : Prop := {
  fi_next_len : length (fst st) = h;
  fi_data_len : length (snd st) = h * c;
  fi_next : forall b, b < h -> nth b (fst st) 0 = length (landed h b done);
  fi_data : forall b p, b < h -> p < length (landed h b done) ->
     nth (c * b + p) (snd st) 0 = nth p (landed h b done) 0 }.

Lemma landed_app : forall h b l l', landed h b (l ++ l') = landed h b l ++ landed h b l'.
Proof. intros. unfold landed. rewrite filter_app, map_app. reflexivity. Qed.

Lemma cell_inj : forall c b p b' p', p < c -> p' < c -> c * b + p = c * b' + p' -> b = b' /\ p = p'.
Proof.
  intros c b p b' p' Hp Hp' E.
  assert (b = b') by (apply (f_equal (fun x => x / c)) in E;
    rewrite (Nat.mul_comm c b), (Nat.mul_comm c b') in E;
    rewrite !Nat.div_add_l in E by lia; rewrite !Nat.div_small in E by auto; lia).
  subst. lia.
Qed.

Lemma fill_inv : forall h c, 0 < h -> forall l done st,
  (forall b, b < h -> length (landed h b (done ++ l)) <= c) ->
  finv h c done st -> exists st', fill h c st l = Some st' /\ finv h c (done ++ l) st'.
Proof.
  intros h c Hh. induction l as [|[i j] l IH]; intros done st HC I.
  - rewrite app_nil_r. exists st. auto.
  - cbn [fill]. destruct st as [next data]. unfold fill_step.
    set (b0 := perm_entry h j i).
    assert (Hb0 : b0 < h) by (apply Nat.mod_upper_bound; lia).
    pose proof (fi_next _ _ _ _ I b0 Hb0) as N0. cbn [fst] in N0. rewrite N0.
    assert (L1 : landed h b0 [(i, j)] = [j]).
    { unfold landed. cbn. fold b0. rewrite Nat.eqb_refl. reflexivity. }
    assert (LO : forall b, b <> b0 -> landed h b [(i, j)] = []).
    { intros b Hb. unfold landed. cbn. fold b0. destruct (Nat.eqb_spec b0 b); [congruence|reflexivity]. }
    set (p0 := length (landed h b0 done)) in *.
    assert (P0 : p0 < c).
    { pose proof (HC b0 Hb0) as X. change ((i, j) :: l) with ([(i, j)] ++ l) in X.
      rewrite !landed_app, L1 in X. rewrite !app_length in X. cbn in X. unfold p0. lia. }
    pose proof (fi_data_len _ _ _ _ I) as DL. cbn [snd] in DL. rewrite DL.
    destruct (Nat.ltb_spec (c * b0 + p0) (h * c)).
    2:{ exfalso. assert (c * b0 + c <= c * h) by (replace (c * b0 + c) with (c * (b0 + 1)) by lia; apply Nat.mul_le_mono_l; lia). lia. }
    destruct (IH (done ++ [(i, j)]) (set_nth next b0 (p0 + 1), set_nth data (c * b0 + p0) j)) as [st' [E I']].
    + intros b Hb. rewrite <- app_assoc. cbn. auto.
    + pose proof (fi_next_len _ _ _ _ I) as NL. cbn [fst] in NL.
      constructor; cbn [fst snd].
      * rewrite set_nth_length. auto.
      * rewrite set_nth_length. auto.
      * intros b Hb. rewrite set_nth_nth by lia. rewrite landed_app, app_length.
        destruct (Nat.eqb_spec b b0) as [->|Nb].
        -- rewrite L1. cbn. reflexivity.
        -- rewrite LO by auto. cbn. rewrite Nat.add_0_r. apply (fi_next _ _ _ _ I b Hb).
      * intros b p Hb Hp. rewrite set_nth_nth by lia. rewrite landed_app in Hp |- *.
        rewrite app_length in Hp.
        assert (Hpc : p < c).
        { pose proof (HC b Hb) as X. change ((i, j) :: l) with ([(i, j)] ++ l) in X.
          rewrite !landed_app in X. rewrite !app_length in X. lia. }
        destruct (Nat.eqb_spec (c * b + p) (c * b0 + p0)) as [Eq|Ne].
        -- apply cell_inj in Eq as [-> ->]; auto. rewrite L1. rewrite app_nth2 by (unfold p0; lia).
           replace (p0 - length (landed h b0 done)) with 0 by (unfold p0; lia). reflexivity.
        -- destruct (Nat.eq_dec b b0) as [->|Nb].
           ++ rewrite L1 in Hp. cbn in Hp. assert (p <> p0) by (intros ->; apply Ne; auto).
              rewrite app_nth1 by (unfold p0 in *; lia). apply (fi_data _ _ _ _ I); auto. unfold p0 in *. lia.
           ++ rewrite LO in Hp |- * by auto. cbn in Hp. rewrite app_nil_r. apply (fi_data _ _ _ _ I); auto. lia.
    + exists st'. split; [exact E|]. rewrite <- app_assoc in I'. exact I'.
Qed.

(** Each permutation hits each bucket exactly once if its shift is coprime to the height. *)
Definition shift_of (h i : nat) : nat := i mod (h - 1) + 1.
Definition coprime (a b : nat) : Prop := Nat.gcd a b = 1.

Lemma mod_eq_divide : forall a b h, h <> 0 -> a <= b -> a mod h = b mod h -> Nat.divide h (b - a).
Proof.
  intros a b h Hh Hle E. exists (b / h - a / h).
  pose proof (Nat.div_mod a h Hh). pose proof (Nat.div_mod b h Hh).
  pose proof (Nat.div_le_mono a b h Hh Hle).
  rewrite Nat.mul_sub_distr_r. lia.
Qed.

Lemma perm_entry_inj : forall h i j j', 0 < h -> coprime h (shift_of h i) ->
  j < h -> j' < h -> perm_entry h i j = perm_entry h i j' -> j = j'.
Proof.
  assert (G : forall h i j j', 0 < h -> coprime h (shift_of h i) -> j <= j' -> j' < h ->
     perm_entry h i j = perm_entry h i j' -> j = j').
  { intros h i j j' Hh HG Hle Hj' E. unfold perm_entry in E. fold (shift_of h i) in E.
    apply mod_eq_divide in E; [|lia|apply Nat.add_le_mono_l, Nat.mul_le_mono_l; auto].
    replace ((i * 31) mod h + shift_of h i * j' - ((i * 31) mod h + shift_of h i * j))
      with (shift_of h i * (j' - j)) in E by (rewrite Nat.mul_sub_distr_l; lia).
    apply Nat.gauss in E; [|exact HG].
    destruct (Nat.eq_dec (j' - j) 0); [lia|].
    apply Nat.divide_pos_le in E; lia. }
  intros h i j j' Hh HG Hj Hj' E.
  destruct (le_ge_dec j j'); [eapply G; eauto|symmetry; eapply G; eauto].
Qed.

Lemma perm_entry_surj : forall h i b, 0 < h -> coprime h (shift_of h i) -> b < h ->
  exists j, j < h /\ perm_entry h i j = b.
Proof.
  intros h i b Hh HG Hb.
  assert (ND : NoDup (map (perm_entry h i) (seq 0 h))).
  { assert (K : forall l, NoDup l -> (forall x, In x l -> x < h) -> NoDup (map (perm_entry h i) l)).
    { induction l as [|x l IH]; cbn; intros HN HL; constructor; inversion HN; subst.
      - intros X. apply in_map_iff in X as [y [E Hy]]. apply perm_entry_inj in E; auto. subst. contradiction.
      - apply IH; auto. }
    apply K; [apply seq_NoDup|]. intros x Hx. apply in_seq in Hx. lia. }
  assert (IN : incl (seq 0 h) (map (perm_entry h i) (seq 0 h))).
  { apply NoDup_length_incl; [auto|rewrite map_length; lia|].
    intros y Hy. apply in_map_iff in Hy as [x [<- _]]. apply in_seq. 
    assert (perm_entry h i x < h) by (apply Nat.mod_upper_bound; lia). lia. }
  assert (In b (seq 0 h)) by (apply in_seq; lia).
  apply IN in H. apply in_map_iff in H as [j [E Hj]]. exists j. apply in_seq in Hj. split; [lia|auto].
Qed.

Lemma in_fill_order : forall h c i j, In (i, j) (fill_order h c) <-> i < h /\ j < c.
Proof.
  intros. unfold fill_order. rewrite in_flat_map. split.
  - intros [x [Hx Hy]]. apply in_map_iff in Hy as [y [E Hy]]. injection E as -> ->.
    apply in_seq in Hx. apply in_seq in Hy. lia.
  - intros [Hi Hj]. exists i. split; [apply in_seq; lia|]. apply in_map_iff. exists j. split; [auto|apply in_seq; lia].
Qed.

Lemma fill_order_NoDup : forall h c, NoDup (fill_order h c).
Proof.
  intros. unfold fill_order. assert (G : forall l : list nat, NoDup l -> NoDup (flat_map (fun i => map (fun j => (i, j)) (seq 0 c)) l)).
  { induction l as [|x l IH]; cbn; intros H; [constructor|]. inversion H as [|? ? Hx Hl]; subst.
    assert (ND1 : NoDup (map (fun j => (x, j)) (seq 0 c))).
    { apply FinFun.Injective_map_NoDup; [intros a b E; congruence|apply seq_NoDup]. }
    revert ND1. generalize (IH Hl). clear IH. intros ND2.
    assert (D : forall y, In y (map (fun j => (x, j)) (seq 0 c)) -> ~ In y (flat_map (fun i => map (fun j => (i, j)) (seq 0 c)) l)).
    { intros y Hy Hy'. apply in_map_iff in Hy as [j [<- _]]. apply in_flat_map in Hy' as [z [Hz Hy']].
      apply in_map_iff in Hy' as [j' [E _]]. injection E as -> ->. contradiction. }
    induction (map (fun j => (x, j)) (seq 0 c)) as [|a m IHm]; cbn; intros ND1; [auto|].
    inversion ND1; subst. constructor.
    - intros X. apply in_app_or in X as [X|X]; [contradiction|]. apply (D a); [left; auto|auto].
    - apply IHm; auto. intros y Hy. apply D. right. auto. }
  apply G. apply seq_NoDup.
Qed.

Lemma landed_perm : forall h c b, 0 < h -> (forall i, i < c -> coprime h (shift_of h i)) -> b < h ->
  Permutation (landed h b (fill_order h c)) (seq 0 c).
Proof.
  intros h c b Hh HG Hb. apply NoDup_Permutation; [|apply seq_NoDup|].
  - unfold landed. pose proof (NoDup_filter (fun ij => perm_entry h (snd ij) (fst ij) =? b) (fill_order_NoDup h c)) as ND.
    assert (D : forall x y, In x (filter (fun ij => perm_entry h (snd ij) (fst ij) =? b) (fill_order h c)) ->
       In y (filter (fun ij => perm_entry h (snd ij) (fst ij) =? b) (fill_order h c)) -> snd x = snd y -> x = y).
    { intros [i j] [i' j'] Hx Hy E. cbn in E. subst j'.
      apply filter_In in Hx as [Hx Ex]. apply filter_In in Hy as [Hy Ey]. cbn in Ex, Ey.
      apply in_fill_order in Hx. apply in_fill_order in Hy. apply Nat.eqb_eq in Ex. apply Nat.eqb_eq in Ey.
      f_equal. apply (perm_entry_inj h j); try lia. apply HG. lia. }
    revert ND D. generalize (filter (fun ij => perm_entry h (snd ij) (fst ij) =? b) (fill_order h c)).
    induction l as [|x l IH]; cbn; intros ND D; constructor; inversion ND; subst.
    + intros X. apply in_map_iff in X as [y [E Hy]]. assert (x = y) by (apply D; auto). subst. contradiction.
    + apply IH; auto.
  - intros j. split.
    + intros H. unfold landed in H. apply in_map_iff in H as [[i j'] [<- H]]. apply filter_In in H as [H _].
      apply in_fill_order in H. apply in_seq. cbn. lia.
    + intros H. apply in_seq in H. destruct (perm_entry_surj h j b) as [i [Hi E]]; auto; [apply HG; lia|].
      unfold landed. apply in_map_iff. exists (i, j). split; [reflexivity|]. apply filter_In. split.
      * apply in_fill_order. lia.
      * cbn. apply Nat.eqb_eq. auto.
Qed.

Lemma row_nth : forall c data b p d, p < c -> nth p (cht_row c data b) d = nth (c * b + p) data d.
Proof.
  intros. unfold cht_row.
  assert (F : forall n (l : list nat) k, k < n -> nth k (firstn n l) d = nth k l d).
  { induction n; intros l k Hk; [lia|]. destruct l; [rewrite firstn_nil; reflexivity|].
    destruct k; cbn; auto. apply IHn. lia. }
  assert (K : forall n (l : list nat) k, nth k (skipn n l) d = nth (n + k) l d).
  { induction n; intros; cbn; auto. destruct l; cbn; auto. destruct k; auto. }
  rewrite F by auto. apply K.
Qed.

Lemma cht_alloc_rows : forall h c, 0 < h -> (forall i, i < c -> coprime h (shift_of h i)) ->
  exists data, cht_alloc h c = Some data /\ length data = h * c /\
    forall b, b < h -> Permutation (cht_row c data b) (seq 0 c).
Proof.
  intros h c Hh HG. unfold cht_alloc.
  assert (HL : forall b, b < h -> length (landed h b (fill_order h c)) = c).
  { intros b Hb. rewrite (Permutation_length (landed_perm h c b Hh HG Hb)). apply seq_length. }
  destruct (fill_inv h c Hh (fill_order h c) [] (repeat 0 h, repeat 0 (h * c))) as [[next data] [E I]].
  - intros b Hb. cbn [app]. rewrite HL by auto. lia.
  - constructor; cbn.
    + apply repeat_length.
    + apply repeat_length.
    + intros b _. assert (NR : forall n i, nth i (repeat 0 n) 0 = 0) by (induction n; destruct i; cbn; auto). apply NR.
    + intros; lia.
  - rewrite E. exists data. split; [reflexivity|]. cbn [app] in I.
    pose proof (fi_data_len _ _ _ _ I) as DL. cbn [snd] in DL. split; [auto|].
    intros b Hb.
    assert (RL : length (cht_row c data b) = c).
    { unfold cht_row. rewrite firstn_length, skipn_length, DL.
      assert (c * b + c <= h * c); [|lia].
      replace (c * b + c) with ((b + 1) * c) by lia. apply Nat.mul_le_mono_r. lia. }
    assert (R : cht_row c data b = landed h b (fill_order h c)).
    { apply nth_ext with (d := 0) (d' := 0); [rewrite HL by auto; auto|].
      intros p Hp. rewrite RL in Hp. rewrite row_nth by auto.
      apply (fi_data _ _ _ _ I b p Hb). rewrite HL by auto. auto. }
    rewrite R. apply landed_perm; auto.
Qed.

Lemma shift_coprime_prime : forall h i, prime (Z.of_nat h) -> coprime h (shift_of h i).
Proof.
  intros h i HP.
  assert (H2 : 1 < h) by (pose proof (prime_ge_2 _ HP); lia).
  assert (HS : 0 < shift_of h i < h).
  { unfold shift_of. assert (i mod (h - 1) < h - 1) by (apply Nat.mod_upper_bound; lia). lia. }
  unfold coprime. 
  assert (HD : Nat.divide (Nat.gcd h (shift_of h i)) h) by apply Nat.gcd_divide_l.
  assert (HD' : Nat.divide (Nat.gcd h (shift_of h i)) (shift_of h i)) by apply Nat.gcd_divide_r.
  set (g := Nat.gcd h (shift_of h i)) in *.
  assert (Z.divide (Z.of_nat g) (Z.of_nat h)).
  { destruct HD as [q E]. exists (Z.of_nat q). rewrite E. lia. }
  apply prime_divisors in H; [|auto].
  apply Nat.divide_pos_le in HD'; [|lia].
  destruct H as [H|[H|[H|H]]]; lia.
Qed.

Lemma cht_find_row : forall data h c hash p time, 
  cht_find data h c hash p time = find (fun cand => pool_used p time cand)
    (map (fun i => nth (c * (hash mod h) + i) data 0) (seq 0 c)).
Proof. intros. unfold cht_find. rewrite (Nat.mul_comm (hash mod h) c). reflexivity. Qed.

Lemma map_seq_row : forall c data b, length data >= c * b + c ->
  map (fun i => nth (c * b + i) data 0) (seq 0 c) = cht_row c data b.
Proof.
  intros. apply nth_ext with (d := 0) (d' := 0).
  - rewrite map_length, seq_length. unfold cht_row. rewrite firstn_length, skipn_length. lia.
  - intros p Hp. rewrite map_length, seq_length in Hp.
    rewrite nth_indep with (d' := (fun i => nth (c * b + i) data 0) 0) by (rewrite map_length, seq_length; auto).
    rewrite (map_nth (fun i => nth (c * b + i) data 0)). rewrite seq_nth by auto.
    rewrite row_nth by auto. reflexivity.
Qed.

(** Backend [b] is in use in the pool and not expired. *)
Definition avail (p : pool) (time : N) (b : nat) : Prop :=
  exists v, pool_abs p b = Some v /\ young time (expiry p) v.
(** The first available backend in a preference list. *)
Definition first_avail (p : pool) (time : N) (row : list nat) (b : nat) : Prop :=
  exists before after, row = before ++ b :: after /\ avail p time b /\
    forall x, In x before -> ~ avail p time x.

Lemma pool_used_avail : forall p time b, pool_used p time b = true <-> avail p time b.
Proof.
  intros p t i. unfold avail, pool_used, pool_abs, young.
  destruct (Nat.leb_spec (length (stamps p)) i); destruct (Nat.ltb_spec i (length (stamps p))); try lia.
  - split; [discriminate|]. intros [v [E _]]. discriminate.
  - destruct (N.eqb_spec (stamp p i) TIME_MAX).
    + split; [discriminate|]. intros [v [E _]]. discriminate.
    + destruct (N.leb_spec (expiry p) t); cbn.
      * destruct (N.ltb_spec (stamp p i) (t - expiry p)).
        -- split; [discriminate|]. intros [v [E Y]]. injection E as <-. lia.
        -- split; [|auto]. intros _. exists (stamp p i). split; [auto|]. lia.
      * split; [|auto]. intros _. exists (stamp p i). split; [auto|]. lia.
Qed.

Lemma find_first_avail : forall p time row,
  match find (fun cand => pool_used p time cand) row with
  | Some b => first_avail p time row b
  | None => forall x, In x row -> ~ avail p time x
  end.
Proof.
  induction row as [|x row IH]; cbn; [intros ? []|].
  destruct (pool_used p time x) eqn:E.
  - exists [], row. split; [reflexivity|]. split; [apply pool_used_avail; auto|]. intros ? [].
  - assert (~ avail p time x) by (rewrite <- pool_used_avail; congruence).
    destruct (find _ row) as [b|].
    + destruct IH as [be [af [-> [U N]]]]. exists (x :: be), af. repeat split; auto.
      intros y [<-|Hy]; auto.
    + intros y [<-|Hy]; auto.
Qed.

Lemma cht_find_spec : forall h c data hash p time, 0 < h -> length data = h * c ->
  match cht_find data h c hash p time with
  | Some b => first_avail p time (cht_row c data (hash mod h)) b
  | None => forall x, In x (cht_row c data (hash mod h)) -> ~ avail p time x
  end.
Proof.
  intros. rewrite cht_find_row. rewrite map_seq_row.
  - apply find_first_avail.
  - assert (hash mod h < h) by (apply Nat.mod_upper_bound; lia). rewrite H0.
    replace (c * (hash mod h) + c) with ((hash mod h + 1) * c) by lia. apply Nat.mul_le_mono_r. lia.
Qed.

Lemma cht_find_complete : forall h c, prime (Z.of_nat h) ->
  exists data, cht_alloc h c = Some data /\
  forall hash p time,
    match cht_find data h c hash p time with
    | Some b => b < c /\ first_avail p time (cht_row c data (hash mod h)) b
    | None => forall b, b < c -> ~ avail p time b
    end.
Proof.
  intros h c HP. assert (Hh : 0 < h) by (pose proof (prime_ge_2 _ HP); lia).
  destruct (cht_alloc_rows h c Hh) as [data [E [L R]]].
  { intros. apply shift_coprime_prime. auto. }
  exists data. split; [auto|]. intros hash p time.
  pose proof (cht_find_spec h c data hash p time Hh L) as F.
  assert (Hb : hash mod h < h) by (apply Nat.mod_upper_bound; lia).
  specialize (R _ Hb).
  destruct (cht_find data h c hash p time) as [b|].
  - split; [|auto]. destruct F as [be [af [Er _]]]. 
    assert (In b (seq 0 c)).
    { eapply Permutation_in; [exact R|]. rewrite Er. apply in_or_app. right. left. auto. }
    apply in_seq in H. lia.
  - intros b Hbc. apply F. eapply Permutation_in; [symmetry; exact R|]. apply in_seq. lia.
Qed.

Lemma cht_rows_prime : forall h c, prime (Z.of_nat h) ->
  exists data, cht_alloc h c = Some data /\ length data = h * c /\
    forall b, b < h -> Permutation (cht_row c data b) (seq 0 c).
Proof.
  intros h c HP. apply cht_alloc_rows.
  - pose proof (prime_ge_2 _ HP); lia.
  - intros. apply shift_coprime_prime. auto.
Qed.

Lemma cht_height_4 : exists h c, 0 < c /\ c < h /\ (N.of_nat h < 40000)%N /\ cht_alloc h c = None.
Proof. exists 4, 2. repeat split; try lia; vm_compute; reflexivity. Qed.

Lemma prime_5 : prime (Z.of_nat 5).
Proof.
  apply prime_intro; [lia|]. intros n Hn. cbn in Hn.
  assert (n = 1 \/ n = 2 \/ n = 3 \/ n = 4)%Z as D by lia.
  destruct D as [D|[D|[D|D]]]; rewrite D; apply Zgcd_1_rel_prime; vm_compute; reflexivity.
Qed.
