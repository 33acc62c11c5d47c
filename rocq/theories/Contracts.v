(** * Symbolic contracts of the data structures (tool/klint/externals)

    The constraints each contract adds, as expressions over the values of its arguments
    and results and the answers of the ghost maps. An answer of a ghost map is a symbol
    whose value is what the real map says (C17-C20). Fresh symbols are existential. *)

From Coq Require Import NArith List Bool Lia Arith.
From Verif Require Import Expr Solver IndexPool.
Import ListNotations.
Open Scope N_scope.

(** ** Index pool (externals/structs/index_pool.py) *)

Definition TIME : bv := BVS 64 1.
Definition EXP : bv := BVS 64 2.
Definition SIZE : bv := BVS 64 3.
Definition LEN : bv := BVS 64 4.      (* maps.length(items) *)
Definition INDEX : bv := BVS 64 5.
Definition RESULT : bv := BVS 8 6.
Definition USED : bv := BVS 8 7.
Definition GOT : bv := BVS 64 8.      (* maps.get(items, index)[0] *)
Definition VAL : bv := BVS 64 9.      (* the value in predicates *)
Definition HAS : bexp := BoolS 1.     (* maps.get(items, index)[1] *)
Definition ALL_YOUNG : bexp := BoolS 2. (* maps.forall(items, young) *)
Definition no8 : bv := BVV 8 0.

(** index_pool.py 76, 93, 151 *)
Definition young_e (v : bv) : bexp := BOr (BUlt TIME EXP) (BUle (BvSub TIME EXP) v).
(** index_pool.py 62-64 *)
Definition borrow_requires : bexp := BNe TIME (BVV 64 (2 ^ 64 - 1)).
(** index_pool.py 73-84 *)
Definition borrow_adds : bexp :=
  BIteB (BEq LEN SIZE)
        (BIteB ALL_YOUNG (BEq RESULT no8) (BAnd (BNe RESULT no8) (BNe USED no8)))
        (BNe RESULT no8).
(** index_pool.py 103: the guard of the fork *)
Definition borrow_guard : bexp := BNe RESULT no8.
(** index_pool.py 87-94 *)
Definition borrow_true_adds : list bexp :=
  [BUlt INDEX SIZE; BIteB (BNe USED no8) (BAnd HAS (BNot (young_e GOT))) (BNot HAS)].
(** index_pool.py 120-123 *)
Definition refresh_requires : bexp := BAnd (BNe TIME (BVV 64 (2 ^ 64 - 1))) (BUlt INDEX SIZE).
(** index_pool.py 145-159: forks on presence, then on youth *)
Definition used_result : bv := BvIte HAS (BvIte (young_e GOT) (BVV 8 1) (BVV 8 0)) (BVV 8 0).
(** index_pool.py 175-177 *)
Definition return_requires : bexp := BUlt INDEX SIZE.

(** [r] gives the symbols the values of a call on a pool of contents [m]. *)
Definition counts (m : pmap) (n : N) : Prop :=
  exists l, NoDup l /\ (forall k, In k l <-> m k <> None) /\ N.of_nat (length l) = n.
Definition with_val (r : env) (v : N) : env := mkEnv (fun x => if x =? 9 then v else ebv r x) (ebool r).
Definition describes (r : env) (size : nat) (exp : N) (m : pmap) (time : N) : Prop :=
  ev r TIME = time /\ ev r EXP = exp /\ ev r SIZE = N.of_nat size /\ counts m (ev r LEN) /\
  (eb r ALL_YOUNG = true <-> forall k v, m k = Some v -> eb (with_val r v) (young_e VAL) = true).
Definition describes_get (r : env) (m : pmap) (i : nat) : Prop :=
  ev r INDEX = N.of_nat i /\ eb r HAS = (if m i then true else false) /\ (forall v, m i = Some v -> ev r GOT = v).

(** The contract lets a call on contents [m] end with outcome [out] and contents [m']:
    its precondition is true, and some values of the fresh symbols satisfy what it adds
    on the branch that returns this outcome. *)
Definition pool_admits (size : nat) (exp : N) (m : pmap) (o : pop) (out : pout) (m' : pmap) : Prop :=
  match o, out with
  | OBorrow t, RBorrow None => exists r, describes r size exp m t /\
      eb r borrow_requires = true /\ eb r borrow_adds = true /\ eb r borrow_guard = false /\ (forall j, m' j = m j)
  | OBorrow t, RBorrow (Some (i, used)) => exists r, describes r size exp m t /\ describes_get r m i /\
      eb r borrow_requires = true /\ eb r borrow_adds = true /\ eb r borrow_guard = true /\
      ev r USED = (if used then 1 else 0) /\ holds r borrow_true_adds /\ (forall j, m' j = pupd m i (Some t) j)
  | ORefresh t i, RUnit => exists r, describes r size exp m t /\ describes_get r m i /\
      eb r refresh_requires = true /\ (forall j, m' j = pupd m i (Some t) j)
  | OUsed t i, RUsed b => exists r, describes r size exp m t /\ describes_get r m i /\
      ev r used_result = (if b then 1 else 0) /\ (forall j, m' j = m j)
  | OReturn i, RUnit => exists r, ev r SIZE = N.of_nat size /\ describes_get r m i /\
      eb r return_requires = true /\ (forall j, m' j = pupd m i None j)
  | _, _ => False
  end.
Inductive admits_run (size : nat) (exp : N) : pmap -> list pop -> list pout -> pmap -> Prop :=
| admits_nil : forall m m', (forall j, m' j = m j) -> admits_run size exp m [] [] m'
| admits_cons : forall m o out m1 ops outs m2,
    pool_admits size exp m o out m1 -> admits_run size exp m1 ops outs m2 ->
    admits_run size exp m (o :: ops) (out :: outs) m2.

(** *** Proofs *)

Definition youngb (t e v : N) : bool := (t <? e) || (t - e <=? v).
Lemma youngb_young : forall t e v, youngb t e v = true <-> young t e v.
Proof. intros. unfold youngb, young. rewrite orb_true_iff, N.ltb_lt, N.leb_le. tauto. Qed.

Lemma young_e_eval : forall r v t e, ev r TIME = t -> ev r EXP = e -> t < 2 ^ 64 -> e < 2 ^ 64 ->
  eb r (young_e v) = youngb t e (ev r v).
Proof.
  intros r v t e T E Tb Eb. unfold young_e, youngb. cbn [evalb]. rewrite T, E. destruct (N.ltb_spec t e); [reflexivity|]. cbn [orb].
  f_equal. cbn [evalv]. change (width TIME) with 64. rewrite T, E. unfold wrap. rewrite (N.mod_small e) by auto.
  replace (t + (2 ^ 64 - e)) with (t - e + 1 * 2 ^ 64) by lia. rewrite N.mod_add by discriminate. apply N.mod_small. lia.
Qed.

(** Contents of a real pool. *)
Definition pm_ok (size : nat) (m : pmap) : Prop :=
  (forall j, (size <= j)%nat -> m j = None) /\ (forall j v, m j = Some v -> v < 2 ^ 64).
Definition present (m : pmap) (k : nat) : bool := if m k then true else false.
Definition plist (size : nat) (m : pmap) : list nat := filter (present m) (seq 0 size).
Lemma plist_in : forall size m k, pm_ok size m -> In k (plist size m) <-> m k <> None.
Proof.
  intros size m k [D _]. unfold plist. rewrite filter_In, in_seq. unfold present. destruct (m k) eqn:E.
  - split; [discriminate|]. intros _. split; [|auto]. destruct (Nat.le_gt_cases size k); [rewrite D in E by auto; discriminate|lia].
  - split; [intros [_ ?]; discriminate|congruence].
Qed.
Lemma plist_counts : forall size m, pm_ok size m -> counts m (N.of_nat (length (plist size m))).
Proof.
  intros size m OK. exists (plist size m). split; [apply NoDup_filter, seq_NoDup|]. split; [|reflexivity]. intros k. apply plist_in. auto.
Qed.
Lemma plist_le : forall size m, (length (plist size m) <= size)%nat.
Proof.
  intros size m. unfold plist. rewrite <- (seq_length size 0) at 2. generalize (seq 0 size). induction l as [|x l IH]; cbn [filter length]; [lia|].
  destruct (present m x); cbn [length]; lia.
Qed.
Lemma plist_full : forall size m i, length (plist size m) = size -> (i < size)%nat -> m i <> None.
Proof.
  intros size m i L I E. assert (IN : In i (plist size m)).
  { apply (NoDup_length_incl (l := plist size m) (l' := seq 0 size)).
    - apply NoDup_filter, seq_NoDup.
    - rewrite seq_length. lia.
    - unfold plist. intros x X. apply filter_In in X. tauto.
    - apply in_seq. lia. }
  unfold plist in IN. apply filter_In in IN as [_ P]. unfold present in P. rewrite E in P. discriminate.
Qed.
Lemma plist_all : forall size m, (forall i, (i < size)%nat -> m i <> None) -> length (plist size m) = size.
Proof.
  intros size m H. unfold plist. assert (F : filter (present m) (seq 0 size) = seq 0 size).
  { assert (G : forall l, (forall i, In i l -> (i < size)%nat) -> filter (present m) l = l).
    { induction l as [|x l IH]; intros G; [reflexivity|]. cbn [filter].
      assert (P : present m x = true) by (unfold present; specialize (H x (G x (or_introl eq_refl))); destruct (m x); [auto|contradiction]).
      rewrite P, IH; [auto|]. intros i I. apply G. right. auto. }
    apply G. intros i I. apply in_seq in I. lia. }
  rewrite F, seq_length. reflexivity.
Qed.

(** Values for the symbols of a call. *)
Definition all_youngb (size : nat) (m : pmap) (t e : N) : bool :=
  forallb (fun k => match m k with Some v => youngb t e v | None => true end) (plist size m).
Definition call_env (size : nat) (exp : N) (m : pmap) (t : N) (i : nat) (result used : N) : env :=
  mkEnv (fun x => if x =? 1 then t else if x =? 2 then exp else if x =? 3 then N.of_nat size else
                  if x =? 4 then N.of_nat (length (plist size m)) else if x =? 5 then N.of_nat i else
                  if x =? 6 then result else if x =? 7 then used else
                  match m i with Some v => v | None => 0 end)
        (fun x => if x =? 1 then (if m i then true else false) else all_youngb size m t exp).

Lemma call_env_ok : forall size exp m t i result used, pm_ok size m -> N.of_nat size < 2 ^ 64 -> exp < 2 ^ 64 -> t < 2 ^ 64 ->
  let r := call_env size exp m t i result used in
  describes r size exp m t /\ ((i < size)%nat -> describes_get r m i) /\ (N.of_nat i < 2 ^ 64 -> describes_get r m i) /\
  (result < 256 -> ev r RESULT = result) /\ (used < 256 -> ev r USED = used) /\
  (m i = None -> eb r HAS = false) /\ (forall v, m i = Some v -> eb r HAS = true /\ ev r GOT = v).
Proof.
  intros size exp m t i result used OK SZ EX TM r.
  assert (W : forall v, v < 2 ^ 64 -> wrap 64 v = v) by (intros; unfold wrap; apply N.mod_small; auto).
  assert (D : describes r size exp m t).
  { unfold describes, r, TIME, EXP, SIZE, LEN. cbn [evalv call_env ebv N.eqb Pos.eqb]. rewrite !W; auto.
    2:{ pose proof (plist_le size m). lia. }
    split; [auto|]. split; [auto|]. split; [auto|]. split; [apply plist_counts; auto|].
    cbn [evalb ALL_YOUNG call_env ebool N.eqb Pos.eqb]. unfold all_youngb. rewrite forallb_forall. split.
    - intros H k v E.
      erewrite young_e_eval; [|cbn [evalv with_val ebv TIME call_env N.eqb Pos.eqb]; apply W; auto|cbn [evalv with_val ebv EXP call_env N.eqb Pos.eqb]; apply W; auto|auto|auto].
      cbn [evalv VAL with_val ebv N.eqb Pos.eqb]. rewrite W by (apply (proj2 OK k); auto).
      specialize (H k). rewrite plist_in in H by auto. rewrite E in H. apply H. discriminate.
    - intros H k IN. destruct (m k) as [v|] eqn:E; [|auto]. specialize (H k v E).
      erewrite young_e_eval in H; [|cbn [evalv with_val ebv TIME call_env N.eqb Pos.eqb]; apply W; auto|cbn [evalv with_val ebv EXP call_env N.eqb Pos.eqb]; apply W; auto|auto|auto].
      cbn [evalv VAL with_val ebv N.eqb Pos.eqb] in H. rewrite W in H by (apply (proj2 OK k); auto). exact H. }
  assert (G : N.of_nat i < 2 ^ 64 -> describes_get r m i).
  { intros I. unfold describes_get, r, INDEX, HAS, GOT. cbn [evalv evalb call_env ebv ebool N.eqb Pos.eqb]. rewrite W by auto.
    split; [auto|]. split; [auto|]. intros v E. rewrite E. apply W. apply (proj2 OK i). auto. }
  split; [exact D|]. split; [intros; apply G; lia|]. split; [exact G|].
  split; [intros; unfold r, RESULT; cbn [evalv call_env ebv N.eqb Pos.eqb]; apply N.mod_small; auto|].
  split; [intros; unfold r, USED; cbn [evalv call_env ebv N.eqb Pos.eqb]; apply N.mod_small; auto|].
  split.
  - intros E. unfold r, HAS. cbn [evalb call_env ebool N.eqb Pos.eqb]. rewrite E. reflexivity.
  - intros v E. unfold r, HAS, GOT. cbn [evalv evalb call_env ebool ebv N.eqb Pos.eqb]. rewrite E. split; [auto|]. apply W. apply (proj2 OK i). auto.
Qed.

Lemma spec_admits : forall size exp m o out m', pm_ok size m -> N.of_nat size < 2 ^ 64 -> exp < 2 ^ 64 ->
  pop_ok size o = true -> (forall t i, o = OUsed t i -> t < 2 ^ 64 /\ N.of_nat i < 2 ^ 64) ->
  spec_step size exp m o out m' -> pool_admits size exp m o out m' /\ pm_ok size m'.
Proof.
  intros size exp m o out m' OK SZ EX PO UO S.
  assert (TM : forall t, (t <? TIME_MAX) = true -> t < 2 ^ 64 /\ t <> 2 ^ 64 - 1).
  { intros t H. apply N.ltb_lt in H. change TIME_MAX with (2 ^ 64 - 1) in H. lia. }
  assert (REQ : forall r t, ev r TIME = t -> t <> 2 ^ 64 - 1 -> eb r borrow_requires = true).
  { intros r t E NE. unfold borrow_requires, BNe. cbn [evalb]. rewrite E. change (ev r (BVV 64 (2 ^ 64 - 1))) with (2 ^ 64 - 1).
    destruct (N.eqb_spec t (2 ^ 64 - 1)); [contradiction|auto]. }
  assert (UPD : forall i t, (i < size)%nat -> t < 2 ^ 64 -> (forall j, m' j = pupd m i (Some t) j) -> pm_ok size m').
  { intros i t I T E. split.
    - intros j J. rewrite E. unfold pupd. destruct (Nat.eqb_spec j i); [lia|apply (proj1 OK); auto].
    - intros j v. rewrite E. unfold pupd. destruct (Nat.eqb_spec j i); [intros Q; injection Q as <-; auto|apply (proj2 OK)]. }
  assert (SAME : (forall j, m' j = m j) -> pm_ok size m').
  { intros E. split; intros j; rewrite E; apply OK. }
  destruct o as [t|t i|t i|i]; destruct out as [[[i' u]|]| |b]; cbn [spec_step] in S; try contradiction; cbn [pop_ok] in PO.
  - destruct (TM t PO) as [T1 T2]. destruct S as [I [E U]].
    destruct (call_env_ok size exp m t i' 1 (if u then 1 else 0) OK SZ EX T1) as [D [G [_ [R [US [H1 H2]]]]]].
    specialize (G I). specialize (R eq_refl). specialize (US ltac:(destruct u; reflexivity)).
    set (r := call_env size exp m t i' 1 (if u then 1 else 0)) in *.
    split; [|apply (UPD i' t); auto]. cbn [pool_admits]. exists r. split; [auto|]. split; [auto|].
    destruct D as [D1 [D2 [D3 [D4 D5]]]]. split; [apply (REQ r t); auto|].
    assert (GU : eb r borrow_guard = true) by (unfold borrow_guard, BNe; cbn [evalb]; rewrite R; reflexivity).
    assert (LS : u = false -> ev r LEN <> ev r SIZE).
    { intros ->. rewrite D3. unfold r, LEN. cbn [evalv call_env ebv N.eqb Pos.eqb]. unfold wrap. pose proof (plist_le size m).
      rewrite N.mod_small by lia. intros Q. apply Nat2N.inj in Q. apply (plist_full size m i') in Q; auto. }
    split.
    { unfold borrow_adds. cbn [evalb]. destruct (N.eqb_spec (ev r LEN) (ev r SIZE)) as [L|L]; [|exact GU].
      destruct u; [|exfalso; apply LS; auto].
      destruct (eb r ALL_YOUNG) eqn:AY.
      - exfalso. destruct U as [old [MO NY]]. apply NY. apply youngb_young.
        pose proof (proj1 D5 eq_refl i' old MO) as AY'. clear AY. rename AY' into AY.
        rewrite (young_e_eval _ _ t exp) in AY; auto.
        cbn [evalv VAL with_val ebv N.eqb Pos.eqb] in AY. unfold wrap in AY. rewrite N.mod_small in AY by (apply (proj2 OK i'); auto). exact AY.
      - unfold BNe. cbn [evalb]. rewrite R, US. reflexivity. }
    split; [auto|]. split; [auto|]. split; [|auto].
    intros c [<-|[<-|[]]]; cbn [evalb BNe].
    + destruct G as [G1 _]. rewrite G1, D3. apply N.ltb_lt. lia.
    + rewrite US. destruct u; cbn [negb evalv no8].
      * destruct U as [old [MO NY]]. destruct (H2 _ MO) as [P Q]. change (negb (1 =? wrap 8 0)) with true. cbn iota. rewrite P. cbn [andb].
        rewrite (young_e_eval _ _ t exp) by auto. rewrite Q. destruct (youngb t exp old) eqn:Y; [|auto]. exfalso. apply NY, youngb_young. auto.
      * change (negb (0 =? wrap 8 0)) with false. cbn iota. specialize (H1 U). rewrite H1. reflexivity.
  - destruct (TM t PO) as [T1 T2]. destruct S as [A E].
    destruct (call_env_ok size exp m t 0%nat 0 0 OK SZ EX T1) as [D [_ [_ [R _]]]]. specialize (R eq_refl).
    set (r := call_env size exp m t 0%nat 0 0) in *. split; [|auto]. exists r. split; [auto|].
    destruct D as [D1 [D2 [D3 [D4 D5]]]]. split; [apply (REQ r t); auto|].
    assert (LS : ev r LEN = ev r SIZE).
    { rewrite D3. unfold r, LEN. cbn [evalv call_env ebv N.eqb Pos.eqb]. unfold wrap. rewrite plist_all.
      - apply N.mod_small. auto.
      - intros i I. destruct (A i I) as [v [-> _]]. discriminate. }
    split; [|split; [unfold borrow_guard, BNe; cbn [evalb]; rewrite R; reflexivity|auto]].
    unfold borrow_adds. cbn [evalb]. rewrite LS, N.eqb_refl. assert (AY : eb r ALL_YOUNG = true).
    { apply D5. intros k v MK. rewrite (young_e_eval _ _ t exp) by auto. apply youngb_young.
      cbn [evalv VAL with_val ebv N.eqb Pos.eqb]. unfold wrap. rewrite N.mod_small by (apply (proj2 OK k); auto).
      assert (KL : (k < size)%nat) by (destruct (Nat.le_gt_cases size k); [rewrite (proj1 OK) in MK by auto; discriminate|auto]).
      destruct (A k KL) as [v' [MK' Y]]. congruence. }
    rewrite AY. rewrite R. reflexivity.
  - apply andb_prop in PO as [P1 P2]. apply Nat.ltb_lt in P2. destruct (TM t P1) as [T1 T2].
    destruct (call_env_ok size exp m t i 0 0 OK SZ EX T1) as [D [G _]]. specialize (G P2).
    set (r := call_env size exp m t i 0 0) in *. split; [|eapply UPD; eauto]. exists r. split; [auto|]. split; [auto|]. split; [|auto].
    destruct D as [D1 [D2 [D3 _]]]. destruct G as [G1 _]. unfold refresh_requires. cbn [evalb]. fold borrow_requires.
    change (negb (ev r TIME =? ev r (BVV 64 (2 ^ 64 - 1)))) with (eb r borrow_requires). rewrite (REQ r t) by auto. rewrite G1, D3. apply N.ltb_lt. lia.
  - destruct (UO t i eq_refl) as [T1 I1].
    destruct (call_env_ok size exp m t i 0 0 OK SZ EX T1) as [D [_ [G [_ [_ [H1 H2]]]]]]. specialize (G I1).
    set (r := call_env size exp m t i 0 0) in *. destruct S as [SB E]. split; [|auto]. exists r. split; [auto|]. split; [auto|]. split; [|auto].
    destruct D as [D1 [D2 _]]. unfold used_result. cbn [evalv width]. destruct (m i) as [v|] eqn:MI.
    + destruct (H2 v eq_refl) as [P Q]. rewrite P. rewrite (young_e_eval _ _ t exp) by auto. rewrite Q.
      destruct (youngb t exp v) eqn:Y.
      * assert (b = true) as ->; [|reflexivity]. apply SB. exists v. split; [auto|]. apply youngb_young. auto.
      * assert (b = false) as ->; [|reflexivity]. destruct b; [|auto]. destruct (proj1 SB eq_refl) as [v' [MV YV]]. injection MV as <-.
        apply youngb_young in YV. congruence.
    + rewrite (H1 eq_refl). assert (b = false) as ->; [|reflexivity]. destruct b; [|auto]. destruct (proj1 SB eq_refl) as [v' [MV _]]. discriminate.
  - apply Nat.ltb_lt in PO. destruct (call_env_ok size exp m 0 i 0 0 OK SZ EX eq_refl) as [D [G _]]. specialize (G PO).
    set (r := call_env size exp m 0 i 0 0) in *. destruct D as [D1 [D2 [D3 _]]]. split.
    + exists r. split; [auto|]. split; [auto|]. split; [|auto]. destruct G as [G1 _]. unfold return_requires. cbn [evalb]. rewrite G1, D3. apply N.ltb_lt. lia.
    + split.
      * intros j J. rewrite S. unfold pupd. destruct (Nat.eqb_spec j i); [auto|apply (proj1 OK); auto].
      * intros j v. rewrite S. unfold pupd. destruct (Nat.eqb_spec j i); [discriminate|apply (proj2 OK)].
Qed.
Lemma spec_run_admits : forall size exp ops m outs m', pm_ok size m -> N.of_nat size < 2 ^ 64 -> exp < 2 ^ 64 ->
  forallb (pop_ok size) ops = true -> (forall t i, In (OUsed t i) ops -> t < 2 ^ 64 /\ N.of_nat i < 2 ^ 64) ->
  spec_run size exp m ops outs m' -> admits_run size exp m ops outs m'.
Proof.
  intros size exp ops m outs m' OK SZ EX PO UO S. induction S as [m m' E|m o out m1 ops outs m2 S1 S2 IH]; [constructor; auto|].
  cbn [forallb] in PO. apply andb_prop in PO as [P1 P2].
  destruct (spec_admits size exp m o out m1) as [A OK1]; auto; [intros t i ->; apply (UO t i); left; auto|].
  econstructor; [exact A|]. apply IH; auto. intros t i I. apply (UO t i). right. auto.
Qed.
(** Every history of the C pool is a history of the contract. *)
Lemma pool_refines_contract : forall size exp ops p outs, N.of_nat size < 2 ^ 64 -> exp < 2 ^ 64 ->
  forallb (pop_ok size) ops = true -> (forall t i, In (OUsed t i) ops -> t < 2 ^ 64 /\ N.of_nat i < 2 ^ 64) ->
  pool_run (pool_alloc size exp) ops = (p, outs) -> admits_run size exp (fun _ => None) ops outs (pool_abs p).
Proof.
  intros size exp ops p outs SZ EX PO UO H. apply spec_run_admits; auto.
  - split; [auto|discriminate].
  - apply pool_history; auto.
Qed.
