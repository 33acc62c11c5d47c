(** * The heap

    Models tool/klint/heap.py: reads and writes of elements (115-190), ownership
    fractions (70-101), and the ownership part of the map contract,
    tool/klint/externals/structs/map.py (87-139).

    The code works on ghost maps; here an element array is a real map from indices to
    (value, presence), i.e. a ghost map read through an assignment that satisfies the
    path constraints (GhostTrace.v; C17-C20 are the theorems that justify this).
    [utils.definitely_true(e)] is true only if [e] holds in every such assignment, so
    the model, which asks only for the one at hand, accepts every access the code
    accepts. Left out: allocation itself (new_array, C28) and the resolution of
    pointers (BaseIndex.v). *)

From Coq Require Import NArith List Bool Lia Arith.
From Verif Require Import Solver.
Import ListNotations.
Open Scope N_scope.

(** An allocation: [hes] is the size of an element in bits, [hel] the elements,
    [hfr] the fractions, None if the allocation is ephemeral (51-58). *)
Record hobj := mkH { hes : N; hel : N -> N * bool; hfr : option (N -> N * bool) }.

Definition hset (o : hobj) (i v : N) : hobj :=
  mkH (hes o) (fun x => if x =? i then (v, true) else hel o x) (hfr o).
Definition fset (o : hobj) (i v : N) : hobj :=
  mkH (hes o) (hel o) match hfr o with None => None | Some f => Some (fun x => if x =? i then (v, true) else f x) end.

(** claripy: [x.concat(low)], slices from 0, slices to the end, and [.reversed] (of
    [n] bytes). *)
Definition cat (low lw high : N) : N := N.lor low (N.shiftl high lw).
Definition low (w x : N) : N := x mod 2 ^ w.
Fixpoint rev8 (n : nat) (x : N) : N :=
  match n with
  | O => 0
  | S n' => cat (rev8 n' (N.shiftr x 8)) (8 * N.of_nat n') (low 8 x)
  end.
Definition reversed (w x : N) : res N :=
  if w mod 8 =? 0 then Ok (rev8 (N.to_nat (w / 8)) x) else Err.

Section Heap.
Variable pw : N. (* state.sizes.ptr *)
Definition inc (i : N) : N := (i + 1) mod 2 ^ pw.

(** heap.py 122-128 *)
Definition can_read (o : hobj) (i : N) : bool :=
  match hfr o with None => snd (hel o i) | Some f => snd (f i) && negb (fst (f i) =? 0) end.
(** heap.py 119-132: [acc] is the result so far, [aw] its size. *)
Fixpoint read_loop (fuel : nat) (o : hobj) (i acc aw need : N) : res (N * N) :=
  if need <=? aw then Ok (acc, aw)
  else match fuel with
       | O => NoFuel
       | S fuel' =>
           if can_read o i then read_loop fuel' o (inc i) (cat acc aw (fst (hel o i))) (aw + hes o) need
           else Err
       end.
(** heap.py 115-143; [size] in bytes, [off] in bits. *)
Definition hread (o : hobj) (i off size : N) (reverse : bool) : res N :=
  if size =? 0 then Err
  else
    do (v, w) <- read_loop (S (N.to_nat (size * 8 + off))) o i 0 0 (size * 8 + off);
    do v' <- (if reverse then reversed w v else Ok v);
    Ok (low (size * 8) (N.shiftr v' off)).

(** heap.py 155-158 *)
Definition can_write (o : hobj) (i : N) : bool :=
  match hfr o with None => true | Some f => snd (f i) && (fst (f i) =? 100) end.
(** heap.py 161-173: the size of the chunk. *)
Definition chunk_size (ws off rw : N) : N :=
  let c := N.min rw ws in if off =? 0 then c else N.min c (ws - off).
(** heap.py 174-182: the new element, given the current one. *)
Definition fill (ws off cw chunk current : N) : N :=
  if cw =? ws then chunk
  else
    let c1 := if off =? 0 then chunk else cat (low off current) off chunk in
    let w1 := off + cw in
    if w1 =? ws then c1 else cat c1 w1 (N.shiftr current w1).
(** heap.py 154-190; [rw] is the size of [rest]. *)
Fixpoint write_loop (fuel : nat) (o : hobj) (i off rest rw : N) (reverse : bool) : res hobj :=
  if rw =? 0 then Ok o
  else match fuel with
       | O => NoFuel
       | S fuel' =>
           let ws := hes o in
           if negb (can_write o i) then Err
           else if (ws =? 0) || (ws <=? off) then Err
           else
             let cw := chunk_size ws off rw in
             let chunk := low cw rest in
             do cur <- (if reverse then reversed ws (fst (hel o i)) else Ok (fst (hel o i)));
             let e := fill ws off cw chunk cur in
             do e' <- (if reverse then reversed ws e else Ok e);
             write_loop fuel' (hset o i e') (inc i) 0 (N.shiftr rest cw) (rw - cw) reverse
       end.
(** heap.py 146-190; [w] is the size of the value in bits. *)
Definition hwrite (o : hobj) (i off v w : N) (reverse : bool) : res hobj :=
  write_loop (S (N.to_nat w)) o i off v w reverse.

(** ** Ownership *)

(** heap.py 70-86: None takes everything; a Python int is coerced to 8 bits. *)
Definition take (o : hobj) (fraction : option N) (i : N) : res (hobj * N) :=
  match hfr o with
  | None => Err
  | Some f =>
      let '(cur, present) := f i in
      let fr := match fraction with None => cur | Some x => x mod 2 ^ 8 end in
      if present && (fr <=? cur) then Ok (fset o i ((cur + 2 ^ 8 - fr) mod 2 ^ 8), cur) else Err
  end.
(** heap.py 89-101 *)
Definition give (o : hobj) (fraction : N) (i : N) : res hobj :=
  match hfr o with
  | None => Err
  | Some f =>
      let '(cur, present) := f i in
      let n := (cur + fraction mod 2 ^ 8) mod 2 ^ 8 in
      if present && (n <=? 100) then Ok (fset o i n) else Err
  end.

(** ** Bits *)

Lemma low_bits : forall w x b, N.testbit (low w x) b = (b <? w) && N.testbit x b.
Proof.
  intros w x b. unfold low. destruct (N.ltb_spec b w).
  - apply N.mod_pow2_bits_low. auto.
  - apply N.mod_pow2_bits_high. auto.
Qed.
Lemma cat_bits : forall l lw h b, l < 2 ^ lw ->
  N.testbit (cat l lw h) b = if b <? lw then N.testbit l b else N.testbit h (b - lw).
Proof.
  intros l lw h b L. unfold cat. rewrite N.lor_spec. destruct (N.ltb_spec b lw).
  - rewrite N.shiftl_spec_low by auto. apply orb_false_r.
  - rewrite N.shiftl_spec_high' by auto.
    replace (N.testbit l b) with false; [auto|]. symmetry.
    rewrite <- (N.mod_small _ _ L). apply N.mod_pow2_bits_high. auto.
Qed.
Lemma low_lt : forall w x, low w x < 2 ^ w.
Proof. intros. apply N.mod_lt. apply N.pow_nonzero. discriminate. Qed.
Lemma small_bits : forall w x, (forall b, w <= b -> N.testbit x b = false) -> x < 2 ^ w.
Proof.
  intros w x H. replace x with (low w x); [apply low_lt|]. apply N.bits_inj. intros b. rewrite low_bits.
  destruct (N.ltb_spec b w); [auto|]. symmetry. auto.
Qed.
Lemma bits_small : forall w x b, x < 2 ^ w -> w <= b -> N.testbit x b = false.
Proof. intros w x b L H. rewrite <- (N.mod_small _ _ L). apply N.mod_pow2_bits_high. auto. Qed.
Lemma cat_lt : forall l lw h hw, l < 2 ^ lw -> h < 2 ^ hw -> cat l lw h < 2 ^ (lw + hw).
Proof.
  intros l lw h hw L H. apply small_bits. intros b B. rewrite cat_bits by auto.
  destruct (N.ltb_spec b lw); [lia|]. apply (bits_small hw); [auto|lia].
Qed.
Lemma low_small : forall w x, x < 2 ^ w -> low w x = x.
Proof. intros. apply N.mod_small. auto. Qed.
Lemma shiftr_lt : forall x n w, x < 2 ^ (n + w) -> N.shiftr x n < 2 ^ w.
Proof.
  intros x n w H. apply small_bits. intros b B. rewrite N.shiftr_spec'. apply (bits_small (n + w)); [auto|lia].
Qed.

(** Reversing bytes. *)
Lemma rev8_lt : forall n x, rev8 n x < 2 ^ (8 * N.of_nat n).
Proof.
  induction n as [|n IH]; intros x; [cbn; lia|]. cbn [rev8].
  replace (8 * N.of_nat (S n)) with (8 * N.of_nat n + 8) by lia. apply cat_lt; [apply IH|apply low_lt].
Qed.
Lemma rev8_bits : forall n x j b, j < N.of_nat n -> b < 8 ->
  N.testbit (rev8 n x) (8 * j + b) = N.testbit x (8 * (N.of_nat n - 1 - j) + b).
Proof.
  induction n as [|n IH]; intros x j b J B; [lia|]. cbn [rev8]. rewrite cat_bits by apply rev8_lt.
  destruct (N.ltb_spec (8 * j + b) (8 * N.of_nat n)) as [L|L].
  - rewrite IH by lia. rewrite N.shiftr_spec'. f_equal. lia.
  - assert (j = N.of_nat n) by lia. subst j. rewrite low_bits.
    replace (8 * N.of_nat n + b - 8 * N.of_nat n) with b by lia. destruct (N.ltb_spec b 8); [|lia].
    cbn [andb]. f_equal. lia.
Qed.
Lemma rev8_rev8 : forall n x, x < 2 ^ (8 * N.of_nat n) -> rev8 n (rev8 n x) = x.
Proof.
  intros n x L. apply N.bits_inj. intros p.
  destruct (N.ltb_spec p (8 * N.of_nat n)) as [P|P].
  - pose proof (N.div_mod' p 8) as D. pose proof (N.mod_lt p 8 ltac:(discriminate)) as M.
    revert D M. generalize (p / 8) as q. generalize (p mod 8) as z. intros z q D M. subst p.
    rewrite rev8_bits by lia. rewrite rev8_bits by lia. f_equal. lia.
  - rewrite (bits_small _ _ _ (rev8_lt n _) P), (bits_small _ _ _ L P). reflexivity.
Qed.
Lemma reversed_ok : forall w x y, reversed w x = Ok y -> w mod 8 = 0 /\ y = rev8 (N.to_nat (w / 8)) x /\ y < 2 ^ w.
Proof.
  intros w x y H. unfold reversed in H. destruct (N.eqb_spec (w mod 8) 0) as [E|]; [|discriminate]. injection H as <-.
  split; [auto|]. split; [auto|]. pose proof (rev8_lt (N.to_nat (w / 8)) x) as R. rewrite N2Nat.id in R.
  pose proof (N.div_mod' w 8). replace (8 * (w / 8)) with w in R by lia. auto.
Qed.
Lemma reversed_reversed : forall w x y, x < 2 ^ w -> reversed w x = Ok y -> reversed w y = Ok x.
Proof.
  intros w x y L H. destruct (reversed_ok _ _ _ H) as [E [-> _]]. unfold reversed. rewrite E. cbn [N.eqb].
  rewrite rev8_rev8; [auto|]. rewrite N2Nat.id. pose proof (N.div_mod' w 8). replace (8 * (w / 8)) with w by lia. auto.
Qed.

(** ** Reads *)

(** Elements fit in their size. *)
Definition sized_el (o : hobj) : Prop := forall i, fst (hel o i) < 2 ^ hes o.

Lemma inc_small : forall i, i + 1 < 2 ^ pw -> inc i = i + 1.
Proof. intros. apply N.mod_small. auto. Qed.

(** Bit [j] of element [i] is bit [i * hes + j] of the allocation. *)
Lemma read_loop_bits : forall fuel o i acc aw need v w,
  sized_el o -> acc < 2 ^ aw -> 0 < hes o ->
  i * hes o + need <= 2 ^ pw * hes o + aw ->
  read_loop fuel o i acc aw need = Ok (v, w) ->
  need <= w /\ aw <= w /\ v < 2 ^ w /\
  (forall b, b < aw -> N.testbit v b = N.testbit acc b) /\
  (forall i' j, j < hes o -> i * hes o <= i' * hes o + j -> i' * hes o + j + aw < w + i * hes o ->
     N.testbit v (i' * hes o + j + aw - i * hes o) = N.testbit (fst (hel o i')) j) /\
  (forall i', i * hes o <= i' * hes o -> i' * hes o + aw < need + i * hes o -> can_read o i' = true).
Proof.
  induction fuel as [|fuel IH]; intros o i acc aw need v w SE AL ES NW H; cbn [read_loop] in H;
    destruct (N.leb_spec need aw) as [NA|NA].
  - injection H as <- <-. split; [auto|]. split; [lia|]. split; [auto|]. split; [auto|]. split; [intros; lia|intros; lia].
  - discriminate.
  - injection H as <- <-. split; [auto|]. split; [lia|]. split; [auto|]. split; [auto|]. split; [intros; lia|intros; lia].
  - destruct (can_read o i) eqn:CR; [|discriminate].
    assert (CI : i + 1 < 2 ^ pw \/ aw + hes o >= need) by nia.
    assert (GO : need <= w /\ aw + hes o <= w /\ v < 2 ^ w /\
      (forall b, b < aw + hes o -> N.testbit v b = N.testbit (cat acc aw (fst (hel o i))) b) /\
      (forall i' j, j < hes o -> (i + 1) * hes o <= i' * hes o + j -> i' * hes o + j + (aw + hes o) < w + (i + 1) * hes o ->
        N.testbit v (i' * hes o + j + (aw + hes o) - (i + 1) * hes o) = N.testbit (fst (hel o i')) j) /\
      (forall i', (i + 1) * hes o <= i' * hes o -> i' * hes o + (aw + hes o) < need + (i + 1) * hes o -> can_read o i' = true)).
    { destruct CI as [CI|CI].
      - rewrite inc_small in H by auto. apply IH in H; auto; [apply cat_lt; auto|nia].
      - destruct fuel; cbn [read_loop] in H; destruct (N.leb_spec need (aw + hes o)); try lia; injection H as <- <-;
          (split; [lia|]; split; [lia|]; split; [apply cat_lt; auto|]; split; [auto|]; split; intros; lia). }
    destruct GO as [G1 [G2 [G3 [G4 [G5 G6]]]]].
    split; [auto|]. split; [lia|]. split; [auto|]. split.
    { intros b B. rewrite G4 by lia. rewrite cat_bits by auto. destruct (N.ltb_spec b aw); [auto|lia]. }
    split.
    { intros i' j J L1 L2. destruct (N.eq_dec i' i) as [->|NE].
      - replace (i * hes o + j + aw - i * hes o) with (j + aw) by lia. rewrite G4 by lia. rewrite cat_bits by auto.
        destruct (N.ltb_spec (j + aw) aw); [lia|]. f_equal. lia.
      - assert (i' > i) by nia. rewrite <- (G5 i' j); [f_equal; nia|auto|nia|nia]. }
    { intros i' L1 L2. destruct (N.eq_dec i' i) as [->|NE]; [auto|]. apply G6; nia. }
Qed.
Lemma read_loop_total : forall fuel o i acc aw need, 0 < hes o -> (N.to_nat (need - aw) < fuel)%nat ->
  i * hes o + need <= 2 ^ pw * hes o + aw ->
  (forall i', i * hes o <= i' * hes o -> i' * hes o + aw < need + i * hes o -> can_read o i' = true) ->
  exists v w, read_loop fuel o i acc aw need = Ok (v, w).
Proof.
  induction fuel as [|fuel IH]; intros o i acc aw need ES F NW CR; [lia|]. cbn [read_loop].
  destruct (N.leb_spec need aw); [eauto|]. rewrite (CR i) by lia.
  assert (CI : i + 1 < 2 ^ pw \/ aw + hes o >= need) by nia. destruct CI as [CI|CI].
  - rewrite inc_small by auto. apply IH; [auto|lia|nia|]. intros i' L1 L2. apply CR; nia.
  - destruct fuel; cbn [read_loop]; destruct (N.leb_spec need (aw + hes o)); try lia; eauto.
Qed.

(** A plain read returns the addressed bits of the allocation. *)
Lemma hread_bits : forall o i off size v, sized_el o -> 0 < hes o ->
  i * hes o + off + size * 8 <= 2 ^ pw * hes o ->
  hread o i off size false = Ok v ->
  v < 2 ^ (size * 8) /\
  (forall i' j, j < hes o -> i * hes o + off <= i' * hes o + j -> i' * hes o + j < i * hes o + off + size * 8 ->
     N.testbit v (i' * hes o + j - (i * hes o + off)) = N.testbit (fst (hel o i')) j) /\
  (forall i', i * hes o <= i' * hes o -> i' * hes o < i * hes o + off + size * 8 -> can_read o i' = true).
Proof.
  intros o i off size v SE ES NW H. unfold hread in H. destruct (N.eqb_spec size 0); [discriminate|].
  destruct (read_loop _ _ _ _ _ _) as [[v0 w]| |] eqn:R; try discriminate. cbn [bindr] in H. injection H as <-.
  apply read_loop_bits in R; [|exact SE|reflexivity|exact ES|lia]. destruct R as [G1 [G2 [G3 [G4 [G5 G6]]]]].
  split; [apply low_lt|]. split.
  - intros i' j J L1 L2. rewrite low_bits, N.shiftr_spec'. destruct (N.ltb_spec (i' * hes o + j - (i * hes o + off)) (size * 8)); [|lia].
    cbn [andb]. rewrite <- (G5 i' j J); [f_equal; lia|lia|lia].
  - intros i' L1 L2. apply G6; lia.
Qed.
Lemma hread_total : forall o i off size, 0 < hes o -> size <> 0 ->
  i * hes o + off + size * 8 <= 2 ^ pw * hes o ->
  (forall i', i * hes o <= i' * hes o -> i' * hes o < i * hes o + off + size * 8 -> can_read o i' = true) ->
  exists v, hread o i off size false = Ok v.
Proof.
  intros o i off size ES NZ NW CR. unfold hread. destruct (N.eqb_spec size 0); [contradiction|].
  destruct (read_loop_total (S (N.to_nat (size * 8 + off))) o i 0 0 (size * 8 + off)) as [v [w E]]; [auto|lia|lia| |].
  - intros i' L1 L2. apply CR; lia.
  - rewrite E. cbn. eauto.
Qed.

(** ** Writes *)

Lemma chunk_size_le : forall ws off rw, 0 < ws -> off < ws -> 0 < rw ->
  0 < chunk_size ws off rw /\ chunk_size ws off rw <= rw /\ off + chunk_size ws off rw <= ws /\
  (chunk_size ws off rw < rw -> off + chunk_size ws off rw = ws).
Proof. intros ws off rw W O R. unfold chunk_size. destruct (N.eqb_spec off 0); repeat split; try intros; lia. Qed.

Lemma fill_bits : forall ws off cw chunk cur j, off + cw <= ws -> chunk < 2 ^ cw -> cur < 2 ^ ws -> j < ws ->
  N.testbit (fill ws off cw chunk cur) j =
  if (off <=? j) && (j <? off + cw) then N.testbit chunk (j - off) else N.testbit cur j.
Proof.
  intros ws off cw chunk cur j OC CL CU J. unfold fill. destruct (N.eqb_spec cw ws) as [->|NE].
  - assert (off = 0) by lia. subst off. replace (j - 0) with j by lia.
    destruct (N.leb_spec 0 j); [|lia]. destruct (N.ltb_spec j (0 + ws)); [auto|lia].
  - set (c1 := if off =? 0 then chunk else cat (low off cur) off chunk).
    assert (C1 : forall b, b < off + cw -> N.testbit c1 b = if off <=? b then N.testbit chunk (b - off) else N.testbit cur b).
    { intros b B. unfold c1. destruct (N.eqb_spec off 0) as [->|].
      - destruct (N.leb_spec 0 b); [|lia]. f_equal. lia.
      - rewrite cat_bits by apply low_lt. destruct (N.ltb_spec b off), (N.leb_spec off b); try lia; [|auto].
        rewrite low_bits. destruct (N.ltb_spec b off); [auto|lia]. }
    assert (L1 : c1 < 2 ^ (off + cw)).
    { unfold c1. destruct (N.eqb_spec off 0) as [->|]; [replace (0 + cw) with cw by lia; auto|]. apply cat_lt; [apply low_lt|auto]. }
    destruct (N.eqb_spec (off + cw) ws) as [E|NE2].
    + rewrite C1 by lia. destruct (N.leb_spec off j), (N.ltb_spec j (off + cw)); auto; lia.
    + rewrite cat_bits by auto. destruct (N.ltb_spec j (off + cw)).
      * rewrite C1 by auto. destruct (N.leb_spec off j); auto.
      * rewrite N.shiftr_spec'. rewrite andb_false_r. f_equal. lia.
Qed.
Lemma fill_lt : forall ws off cw chunk cur, off + cw <= ws -> chunk < 2 ^ cw -> cur < 2 ^ ws ->
  fill ws off cw chunk cur < 2 ^ ws.
Proof.
  intros ws off cw chunk cur OC CL CU. unfold fill. destruct (N.eqb_spec cw ws) as [->|NE]; [auto|].
  set (c1 := if off =? 0 then chunk else cat (low off cur) off chunk).
  assert (L1 : c1 < 2 ^ (off + cw)).
  { unfold c1. destruct (N.eqb_spec off 0) as [->|]; [replace (0 + cw) with cw by lia; auto|]. apply cat_lt; [apply low_lt|auto]. }
  destruct (N.eqb_spec (off + cw) ws) as [<-|NE2]; [auto|].
  replace (2 ^ ws) with (2 ^ ((off + cw) + (ws - (off + cw)))) by (f_equal; lia). apply cat_lt; [auto|]. apply shiftr_lt.
  replace (off + cw + (ws - (off + cw))) with ws by lia. auto.
Qed.

Lemma hset_frac : forall o i v, hfr (hset o i v) = hfr o.
Proof. reflexivity. Qed.
Lemma hset_sized : forall o i v, sized_el o -> v < 2 ^ hes o -> sized_el (hset o i v).
Proof. intros o i v S L x. cbn. destruct (x =? i); [auto|apply S]. Qed.

(** What a plain write does to the bits of an allocation. *)
Lemma write_loop_bits : forall fuel o i off rest rw o',
  sized_el o -> i * hes o + off + rw <= 2 ^ pw * hes o ->
  write_loop fuel o i off rest rw false = Ok o' ->
  hes o' = hes o /\ hfr o' = hfr o /\ sized_el o' /\
  (forall i' j, j < hes o -> N.testbit (fst (hel o' i')) j =
     if (i * hes o + off <=? i' * hes o + j) && (i' * hes o + j <? i * hes o + off + rw)
     then N.testbit rest (i' * hes o + j - (i * hes o + off)) else N.testbit (fst (hel o i')) j) /\
  (forall i', i * hes o <= i' * hes o -> i' * hes o < i * hes o + off + rw -> 0 < rw -> can_write o i' = true /\ snd (hel o' i') = true) /\
  (forall i', (i' < i \/ i * hes o + off + rw <= i' * hes o \/ rw = 0) -> hel o' i' = hel o i') /\
  (0 < rw -> 0 < hes o /\ off < hes o).
Proof.
  induction fuel as [|fuel IH]; intros o i off rest rw o' SE NW H; cbn [write_loop] in H;
    destruct (N.eqb_spec rw 0) as [RZ|RZ].
  - injection H as <-. subst rw. split; [auto|]. split; [auto|]. split; [auto|]. split.
    { intros i' j J. destruct (N.leb_spec (i * hes o + off) (i' * hes o + j)), (N.ltb_spec (i' * hes o + j) (i * hes o + off + 0)); auto; lia. }
    split; [intros; lia|]. split; [auto|lia].
  - discriminate.
  - injection H as <-. subst rw. split; [auto|]. split; [auto|]. split; [auto|]. split.
    { intros i' j J. destruct (N.leb_spec (i * hes o + off) (i' * hes o + j)), (N.ltb_spec (i' * hes o + j) (i * hes o + off + 0)); auto; lia. }
    split; [intros; lia|]. split; [auto|lia].
  - destruct (can_write o i) eqn:CW; [|discriminate]. cbn [negb] in H.
    destruct (N.eqb_spec (hes o) 0) as [|ES]; [discriminate|]. cbn [orb] in H. destruct (N.leb_spec (hes o) off) as [|OL]; [discriminate|].
    cbn [bindr] in H. set (cw := chunk_size (hes o) off rw) in *.
    destruct (chunk_size_le (hes o) off rw) as [C1 [C2 [C3 C4]]]; try lia. fold cw in C1, C2, C3, C4.
    set (e := fill (hes o) off cw (low cw rest) (fst (hel o i))) in *.
    assert (EL : e < 2 ^ hes o) by (apply fill_lt; auto using low_lt).
    assert (EB : forall j, j < hes o -> N.testbit e j = if (off <=? j) && (j <? off + cw) then N.testbit rest (j - off) else N.testbit (fst (hel o i)) j).
    { intros j J. unfold e. rewrite fill_bits by auto using low_lt. destruct (N.leb_spec off j), (N.ltb_spec j (off + cw)); cbn [andb]; auto.
      rewrite low_bits. destruct (N.ltb_spec (j - off) cw); [auto|lia]. }
    assert (CI : i + 1 < 2 ^ pw \/ rw = cw) by nia.
    assert (GO : hes o' = hes o /\ hfr o' = hfr o /\ sized_el o' /\
      (forall i' j, j < hes o -> N.testbit (fst (hel o' i')) j =
         if ((i + 1) * hes o + 0 <=? i' * hes o + j) && (i' * hes o + j <? (i + 1) * hes o + 0 + (rw - cw))
         then N.testbit (N.shiftr rest cw) (i' * hes o + j - ((i + 1) * hes o + 0)) else N.testbit (fst (hel (hset o i e) i')) j) /\
      (forall i', (i + 1) * hes o <= i' * hes o -> i' * hes o < (i + 1) * hes o + 0 + (rw - cw) -> 0 < rw - cw -> can_write o i' = true /\ snd (hel o' i') = true) /\
      (forall i', (i' < i + 1 \/ (i + 1) * hes o + 0 + (rw - cw) <= i' * hes o \/ rw - cw = 0) -> hel o' i' = hel (hset o i e) i')).
    { destruct CI as [CI|CI].
      - rewrite inc_small in H by auto. apply IH in H; [|apply hset_sized; auto|cbn [hset hes]; destruct (N.eq_dec rw cw); nia].
        cbn [hset hes hfr] in H. destruct H as [H1 [H2 [H3 [H4 [H5 [H6 _]]]]]]. auto 10.
      - replace (rw - cw) with 0 in * by lia. destruct fuel; cbn [write_loop] in H; rewrite N.eqb_refl in H; injection H as <-;
        (split; [auto|]; split; [auto|]; split; [apply hset_sized; auto|]; split;
         [intros i' j J; destruct (N.leb_spec ((i + 1) * hes o + 0) (i' * hes o + j)), (N.ltb_spec (i' * hes o + j) ((i + 1) * hes o + 0 + 0)); auto; lia|];
         split; [intros; lia|auto]). }
    destruct GO as [G1 [G2 [G3 [G4 [G5 G6]]]]].
    split; [auto|]. split; [auto|]. split; [auto|]. split.
    { intros i' j J. rewrite (G4 i' j J). cbn [hset hel]. destruct (N.eqb_spec i' i) as [->|NE].
      - cbn [fst]. rewrite EB by auto. destruct (N.leb_spec ((i + 1) * hes o + 0) (i * hes o + j)); [lia|]. cbn [andb].
        destruct (N.leb_spec off j), (N.ltb_spec j (off + cw)), (N.leb_spec (i * hes o + off) (i * hes o + j)),
          (N.ltb_spec (i * hes o + j) (i * hes o + off + rw)); cbn [andb]; auto; try lia; f_equal; lia.
      - destruct (N.lt_ge_cases i' i) as [LT|GE].
        + assert (i' * hes o + hes o <= i * hes o) by nia.
          destruct (N.leb_spec ((i + 1) * hes o + 0) (i' * hes o + j)), (N.leb_spec (i * hes o + off) (i' * hes o + j)); cbn [andb]; auto; lia.
        + assert (i * hes o + hes o <= i' * hes o) by nia.
          destruct (N.leb_spec ((i + 1) * hes o + 0) (i' * hes o + j)); [|lia].
          destruct (N.leb_spec (i * hes o + off) (i' * hes o + j)); [|lia]. cbn [andb].
          destruct (N.ltb_spec (i' * hes o + j) ((i + 1) * hes o + 0 + (rw - cw))), (N.ltb_spec (i' * hes o + j) (i * hes o + off + rw)); auto.
          * rewrite N.shiftr_spec'. f_equal. lia.
          * lia.
          * lia. }
    split.
    { intros i' L1 L2 _. destruct (N.eq_dec i' i) as [->|NE].
      - split; [auto|]. rewrite G6 by lia. cbn [hset hel]. rewrite N.eqb_refl. reflexivity.
      - assert (i * hes o + hes o <= i' * hes o) by nia. apply G5; [nia|lia|lia]. }
    split.
    { intros i' [LT|[GE|Z]]; [| |lia].
      - rewrite G6 by lia. cbn [hset hel]. destruct (N.eqb_spec i' i); [lia|auto].
      - assert (i' <> i) by nia. rewrite G6 by lia. cbn [hset hel]. destruct (N.eqb_spec i' i); [contradiction|auto]. }
    { intros _. lia. }
Qed.

(** ** Round trips *)

Lemma bits_eq : forall w x y, x < 2 ^ w -> y < 2 ^ w -> (forall b, b < w -> N.testbit x b = N.testbit y b) -> x = y.
Proof.
  intros w x y X Y H. apply N.bits_inj. intros b. destruct (N.lt_ge_cases b w); [auto|].
  rewrite (bits_small w x b), (bits_small w y b); auto.
Qed.
Lemma write_read : forall o i off v size o', sized_el o -> size <> 0 ->
  i * hes o + off + size * 8 <= 2 ^ pw * hes o -> v < 2 ^ (size * 8) ->
  hwrite o i off v (size * 8) false = Ok o' -> hread o' i off size false = Ok v.
Proof.
  intros o i off v size o' SE NZ NW VL H. unfold hwrite in H.
  destruct (write_loop_bits _ _ _ _ _ _ _ SE NW H) as [H1 [H2 [H3 [H4 [H5 [H6 H7]]]]]].
  destruct (H7 ltac:(lia)) as [ES OL].
  destruct (hread_total o' i off size) as [v' R]; [rewrite H1; auto|auto|rewrite H1; auto| |].
  { rewrite H1. intros i' L1 L2. destruct (H5 i' L1 L2 ltac:(lia)) as [C P]. unfold can_read, can_write in *. rewrite H2.
    destruct (hfr o) as [f|]; [|auto]. apply andb_prop in C as [C1 C2]. apply N.eqb_eq in C2. rewrite C1, C2. reflexivity. }
  rewrite R. f_equal.
  destruct (hread_bits o' i off size v' H3) as [V1 [V2 _]]; [rewrite H1; auto|rewrite H1; auto|auto|]. rewrite H1 in V2.
  apply (bits_eq (size * 8)); auto. intros b B.
  set (P := i * hes o + off + b). pose proof (N.div_mod' P (hes o)) as D. pose proof (N.mod_lt P (hes o) ltac:(lia)) as M.
  specialize (V2 (P / hes o) (P mod hes o) M). specialize (H4 (P / hes o) (P mod hes o) M).
  replace (P / hes o * hes o + P mod hes o) with P in * by lia.
  replace b with (P - (i * hes o + off)) by (unfold P; lia). rewrite V2 by (unfold P; lia). rewrite H4.
  destruct (N.leb_spec (i * hes o + off) P), (N.ltb_spec P (i * hes o + off + size * 8)); unfold P in *; try lia. reflexivity.
Qed.

(** Reversed accesses inside one element. *)
Lemma write_read_reversed : forall o i off v size o', sized_el o -> size <> 0 -> i < 2 ^ pw ->
  off + size * 8 <= hes o -> v < 2 ^ (size * 8) ->
  hwrite o i off v (size * 8) true = Ok o' -> hread o' i off size true = Ok v.
Proof.
  intros o i off v size o' SE NZ IP OL VL H. unfold hwrite in H.
  assert (NF : exists n, N.to_nat (size * 8) = S n) by (exists (pred (N.to_nat (size * 8))); lia). destruct NF as [n NF]. rewrite NF in H.
  cbn [write_loop] in H. destruct (N.eqb_spec (size * 8) 0); [lia|].
  destruct (can_write o i) eqn:CW; [|discriminate]. cbn [negb] in H. destruct (N.eqb_spec (hes o) 0) as [|ES]; [discriminate|].
  cbn [orb] in H. destruct (N.leb_spec (hes o) off); [discriminate|].
  assert (CE : chunk_size (hes o) off (size * 8) = size * 8) by (unfold chunk_size; destruct (N.eqb_spec off 0); lia).
  rewrite CE in H. destruct (reversed (hes o) (fst (hel o i))) as [cur| |] eqn:R1; try discriminate. cbn [bindr] in H.
  destruct (reversed_ok _ _ _ R1) as [_ [_ CL]].
  set (e := fill (hes o) off (size * 8) (low (size * 8) v) cur) in *.
  assert (EL : e < 2 ^ hes o) by (apply fill_lt; auto using low_lt).
  destruct (reversed (hes o) e) as [e'| |] eqn:R2; try discriminate. cbn [bindr] in H.
  destruct (reversed_ok _ _ _ R2) as [_ [_ EL']].
  replace (size * 8 - size * 8) with 0 in H by lia. rewrite N.eqb_refl in H. injection H as <-.
  unfold hread. destruct (N.eqb_spec size 0); [contradiction|].
  assert (CR : can_read (hset o i e') i = true).
  { unfold can_read, can_write in *. cbn [hset hfr hel]. rewrite N.eqb_refl. destruct (hfr o) as [f|]; [|auto].
    apply andb_prop in CW as [C1 C2]. apply N.eqb_eq in C2. rewrite C1, C2. reflexivity. }
  cbn [read_loop]. destruct (N.leb_spec (size * 8 + off) 0); [lia|]. rewrite CR. cbn [hset hes hel]. rewrite N.eqb_refl. cbn [fst].
  replace (cat 0 0 e') with e' by (unfold cat; rewrite N.shiftl_0_r; reflexivity).
  assert (X : exists m, N.to_nat (size * 8 + off) = S m) by (exists (pred (N.to_nat (size * 8 + off))); lia). destruct X as [m ->]. cbn [read_loop].
  destruct (N.leb_spec (size * 8 + off) (0 + hes o)); [|lia]. cbn [bindr]. replace (0 + hes o) with (hes o) by lia.
  rewrite (reversed_reversed _ _ _ EL R2). cbn [bindr]. f_equal. apply (bits_eq (size * 8)); [apply low_lt|auto|].
  intros b B. rewrite low_bits, N.shiftr_spec'. destruct (N.ltb_spec b (size * 8)); [|lia]. cbn [andb].
  unfold e. rewrite fill_bits by (auto using low_lt; lia). destruct (N.leb_spec off (b + off)), (N.ltb_spec (b + off) (off + size * 8)); try lia.
  cbn [andb]. rewrite low_bits. replace (b + off - off) with b by lia. destruct (N.ltb_spec b (size * 8)); [auto|lia].
Qed.

(** ** Bounds *)

(** [n] elements, all of them and no other present. *)
Definition bounded (o : hobj) (n : N) : Prop :=
  (forall i, snd (hel o i) = (i <? n)) /\
  match hfr o with None => True | Some f => forall i, snd (f i) = (i <? n) end.

Lemma can_read_bounded : forall o n i, bounded o n -> can_read o i = true -> i < n.
Proof.
  intros o n i [B1 B2] H. unfold can_read in H. destruct (hfr o) as [f|].
  - apply andb_prop in H as [H _]. rewrite B2 in H. apply N.ltb_lt. auto.
  - rewrite B1 in H. apply N.ltb_lt. auto.
Qed.
Lemma can_write_bounded : forall o n i, hfr o <> None -> bounded o n -> can_write o i = true -> i < n.
Proof.
  intros o n i F [B1 B2] H. unfold can_write in H. destruct (hfr o) as [f|]; [|contradiction].
  apply andb_prop in H as [H _]. rewrite B2 in H. apply N.ltb_lt. auto.
Qed.

Lemma read_loop_range : forall fuel o n i acc aw need r, bounded o n -> n < 2 ^ pw ->
  read_loop fuel o i acc aw need = Ok r -> need <= aw \/ i * hes o + (need - aw) <= n * hes o.
Proof.
  induction fuel as [|fuel IH]; intros o n i acc aw need r B NP H; cbn [read_loop] in H;
    destruct (N.leb_spec need aw); auto; [discriminate|].
  destruct (can_read o i) eqn:CR; [|discriminate]. pose proof (can_read_bounded _ _ _ B CR) as L.
  rewrite inc_small in H by lia. destruct (IH _ _ _ _ _ _ _ B NP H); right; nia.
Qed.
Lemma read_in_range : forall o n i off size rev v, bounded o n -> n < 2 ^ pw ->
  hread o i off size rev = Ok v -> i * hes o + off + size * 8 <= n * hes o.
Proof.
  intros o n i off size rev v B NP H. unfold hread in H. destruct (N.eqb_spec size 0); [discriminate|].
  apply bindr_ok in H as [[x w] [R _]]. destruct (read_loop_range _ _ _ _ _ _ _ _ B NP R); lia.
Qed.
Lemma hset_bounded : forall o n i v, bounded o n -> i < n -> bounded (hset o i v) n.
Proof.
  intros o n i v [B1 B2] L. split; [|exact B2]. intros j. cbn [hset hel]. destruct (N.eqb_spec j i) as [->|]; [|auto].
  cbn [snd]. symmetry. apply N.ltb_lt. auto.
Qed.
Lemma write_loop_range : forall fuel o n i off rest rw rev o', bounded o n -> n < 2 ^ pw -> hfr o <> None ->
  write_loop fuel o i off rest rw rev = Ok o' ->
  bounded o' n /\ hfr o' = hfr o /\ hes o' = hes o /\ (rw = 0 \/ i * hes o + off + rw <= n * hes o).
Proof.
  induction fuel as [|fuel IH]; intros o n i off rest rw rev o' B NP F H; cbn [write_loop] in H;
    destruct (N.eqb_spec rw 0); try (injection H as <-; auto; fail); [discriminate|].
  destruct (can_write o i) eqn:CW; [|discriminate]. cbn [negb] in H.
  destruct ((hes o =? 0) || (hes o <=? off)) eqn:OB; [discriminate|]. apply orb_false_iff in OB as [OB1 OB2].
  apply N.eqb_neq in OB1. apply N.leb_gt in OB2. pose proof (can_write_bounded _ _ _ F B CW) as L.
  apply bindr_ok in H as [cur [_ H]]. apply bindr_ok in H as [e [_ H]]. rewrite inc_small in H by lia.
  apply (IH _ n) in H as [H1 [H2 [H3 H4]]]; auto using hset_bounded. cbn [hset hes] in *.
  split; [auto|]. split; [auto|]. split; [auto|]. right.
  destruct (chunk_size_le (hes o) off rw) as [C1 [C2 [C3 C4]]]; try lia. destruct H4 as [H4|H4]; nia.
Qed.
Lemma write_in_range : forall o n i off v w rev o', bounded o n -> n < 2 ^ pw -> hfr o <> None -> w <> 0 ->
  hwrite o i off v w rev = Ok o' -> i * hes o + off + w <= n * hes o /\ bounded o' n.
Proof.
  intros o n i off v w rev o' B NP F W H. unfold hwrite in H. destruct (write_loop_range _ _ _ _ _ _ _ _ _ B NP F H) as [H1 [_ [_ [H2|H2]]]]; [contradiction|auto].
Qed.
End Heap.

(** Memory as one long row of bits: bit [p] is in element [p / hes o]. *)
Definition bit_at (o : hobj) (p : N) : bool := N.testbit (fst (hel o (p / hes o))) (p mod hes o).

Lemma write_bits : forall pw o i off v w o', sized_el o -> i * hes o + off + w <= 2 ^ pw * hes o -> hes o <> 0 ->
  hwrite pw o i off v w false = Ok o' ->
  let start := i * hes o + off in
  forall p, bit_at o' p = if (start <=? p) && (p <? start + w) then N.testbit v (p - start) else bit_at o p.
Proof.
  intros pw o i off v w o' SE NW ES H start p. unfold hwrite in H.
  destruct (write_loop_bits _ _ _ _ _ _ _ _ SE NW H) as [H1 [_ [_ [H4 _]]]].
  unfold bit_at. rewrite H1. pose proof (N.div_mod' p (hes o)) as D. pose proof (N.mod_lt p (hes o) ES) as M.
  specialize (H4 (p / hes o) (p mod hes o) M). replace (p / hes o * hes o + p mod hes o) with p in H4 by lia. exact H4.
Qed.
Lemma read_bits : forall pw o i off size v, sized_el o -> i * hes o + off + size * 8 <= 2 ^ pw * hes o -> hes o <> 0 ->
  hread pw o i off size false = Ok v ->
  v < 2 ^ (size * 8) /\ forall b, b < size * 8 -> N.testbit v b = bit_at o (i * hes o + off + b).
Proof.
  intros pw o i off size v SE NW ES H. destruct (hread_bits _ _ _ _ _ _ SE ltac:(lia) NW H) as [H1 [H2 _]]. split; [auto|].
  intros b B. unfold bit_at. set (p := i * hes o + off + b). pose proof (N.div_mod' p (hes o)) as D. pose proof (N.mod_lt p (hes o) ES) as M.
  specialize (H2 (p / hes o) (p mod hes o) M). replace (p / hes o * hes o + p mod hes o) with p in H2 by lia.
  rewrite <- H2 by (unfold p; lia). f_equal. unfold p. lia.
Qed.
(** A big-endian store of a whole element reverses its bytes. *)
Lemma write_whole_reversed : forall pw o i v w o', w <> 0 -> v < 2 ^ w -> hes o = w ->
  hwrite pw o i 0 v w true = Ok o' -> fst (hel o' i) = rev8 (N.to_nat (w / 8)) v /\ w mod 8 = 0.
Proof.
  intros pw o i v w o' W V ES H. unfold hwrite in H. assert (X : exists m, N.to_nat w = S m) by (exists (pred (N.to_nat w)); lia).
  destruct X as [m X]. rewrite X in H. cbn [write_loop] in H. destruct (N.eqb_spec w 0); [contradiction|].
  destruct (can_write o i); [|discriminate]. cbn [negb] in H. destruct ((hes o =? 0) || (hes o <=? 0)); [discriminate|].
  apply bindr_ok in H as [cur [H1 H]]. apply bindr_ok in H as [e [H2 H]].
  assert (C : chunk_size (hes o) 0 w = w) by (unfold chunk_size; cbn [N.eqb]; lia). rewrite C in *.
  assert (F : fill (hes o) 0 w (low w v) cur = v) by (unfold fill; rewrite ES, N.eqb_refl; apply low_small; auto). rewrite F in H2.
  rewrite N.sub_diag, N.eqb_refl in H. injection H as <-. cbn [hset hel]. rewrite N.eqb_refl. cbn [fst].
  apply reversed_ok in H2 as [H3 [H4 _]]. rewrite ES in *. auto.
Qed.
