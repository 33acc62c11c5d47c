(** * The contracts written in the headers of the C structures, and the lemmas their proofs use

    env/include/structs/map.h and index_pool.h state contracts for VeriFast, in terms of env/include/proof/ghost_map.gh. *)

From Coq Require Import NArith ZArith List Bool Lia Arith FinFun.
From Verif Require Import IndexPool HashMap.
Import ListNotations.

(** ** env/include/proof/ghost_map.gh *)

Section GhostMap.
Local Open Scope nat_scope.
Context {K V : Type}.
(** VeriFast's == on keys is equality. *)
Variable keq : forall a b : K, {a = b} + {a <> b}.

(** 5-15. *)
Fixpoint ghostmap_get (m : list (K * V)) (key : K) : option V :=
  match m with [] => None | (hk, hv) :: t => if keq hk key then Some hv else ghostmap_get t key end.
(** 17-27. *)
Fixpoint ghostmap_set (m : list (K * V)) (key : K) (value : V) : list (K * V) :=
  match m with [] => [(key, value)] | (hk, hv) :: t => if keq hk key then ghostmap_set t key value else (hk, hv) :: ghostmap_set t key value end.
(** 29-39. *)
Fixpoint ghostmap_remove (m : list (K * V)) (key : K) : list (K * V) :=
  match m with [] => [] | (hk, hv) :: t => if keq hk key then ghostmap_remove t key else (hk, hv) :: ghostmap_remove t key end.
(** 41-51. *)
Fixpoint ghostmap_forall (m : list (K * V)) (pred : K -> V -> bool) : bool :=
  match m with [] => true | (hk, hv) :: t => pred hk hv && ghostmap_forall t pred end.
(** 56-58. *)
Definition ghostmap_distinct (m : list (K * V)) : Prop := NoDup (map fst m).
(** 60-62. *)
Definition ghostmap_has (m : list (K * V)) (key : K) : bool := match ghostmap_get m key with Some _ => true | None => false end.

Ltac byind m := induction m as [|[hk hv] t IH]; cbn [ghostmap_get ghostmap_set ghostmap_remove ghostmap_forall map fst snd length In] in *.
Ltac cases := repeat match goal with |- context [keq ?a ?b] => destruct (keq a b); subst | H : context [keq ?a ?b] |- _ => destruct (keq a b); subst end.

Lemma get_mem : forall m key, ghostmap_get m key <> None <-> In key (map fst m).
Proof.
  intros m key. byind m; [tauto|]. cases; [split; [auto|discriminate]|]. rewrite IH. split; [auto|]. intros [?|?]; [contradiction|auto].
Qed.
Lemma value_notmem : forall m key value, ~ In value (map snd m) -> ghostmap_get m key <> Some value.
Proof. intros m key value H. byind m; [discriminate|]. cases; [intros E; injection E as ->; tauto|]. apply IH. tauto. Qed.
Lemma set_length : forall m key value, ghostmap_get m key = None -> length (ghostmap_set m key value) = S (length m).
Proof. intros m key value H. byind m; [reflexivity|]. cases; [discriminate|]. cbn. rewrite IH; auto. Qed.
Lemma set_get : forall m key value, ghostmap_get (ghostmap_set m key value) key = Some value.
Proof. intros m key value. byind m; [cases; [reflexivity|contradiction]|]. cases; [exact IH|]. cbn. cases; [contradiction|exact IH]. Qed.
Lemma set_other : forall m key value other, other <> key -> ghostmap_get (ghostmap_set m key value) other = ghostmap_get m other.
Proof. intros m key value other H. byind m; [cases; [contradiction|reflexivity]|]. destruct (keq hk key) as [->|]; [destruct (keq key other); [congruence|exact IH]|]. cbn. cases; [reflexivity|exact IH]. Qed.
Lemma set_notmem : forall m key value other, ~ In other (map fst m) -> other <> key -> ~ In other (map fst (ghostmap_set m key value)).
Proof. intros m key value other H N. rewrite <- get_mem in *. rewrite set_other; auto. Qed.
Lemma set_distinct : forall m key value, ghostmap_distinct m -> ghostmap_distinct (ghostmap_set m key value).
Proof.
  unfold ghostmap_distinct. intros m key value H. byind m; [constructor; [intros []|constructor]|]. inversion_clear H. cases; [auto|]. cbn. constructor; [|auto].
  apply set_notmem; auto.
Qed.
Lemma remove_get : forall m key, ghostmap_get (ghostmap_remove m key) key = None.
Proof. intros m key. byind m; [reflexivity|]. cases; [exact IH|]. cbn. cases; [contradiction|exact IH]. Qed.
Lemma set_remove : forall m key value other, key <> other -> ghostmap_set (ghostmap_remove m other) key value = ghostmap_remove (ghostmap_set m key value) other.
Proof.
  intros m key value other H. byind m; [destruct (keq key other); [contradiction|reflexivity]|].
  destruct (keq hk other) as [A|A]; destruct (keq hk key) as [B|B]; cbn; try congruence.
  - destruct (keq hk other); [exact IH|contradiction].
  - destruct (keq hk key); [exact IH|contradiction].
  - destruct (keq hk other); [contradiction|]. destruct (keq hk key); [contradiction|]. f_equal. exact IH.
Qed.
Lemma remove_other : forall m key other, other <> key -> ghostmap_get (ghostmap_remove m key) other = ghostmap_get m other.
Proof. intros m key other H. byind m; [reflexivity|]. destruct (keq hk key) as [->|]; [destruct (keq key other); [congruence|exact IH]|]. cbn. cases; [reflexivity|exact IH]. Qed.
Lemma remove_distinct : forall m key, ghostmap_distinct m -> ghostmap_distinct (ghostmap_remove m key).
Proof.
  unfold ghostmap_distinct. intros m key H. byind m; [constructor|]. inversion_clear H. cases; [auto|]. cbn. constructor; [|auto].
  rewrite <- get_mem in *. rewrite remove_other; auto.
Qed.
Lemma remove_missing : forall m key, ghostmap_get m key = None -> ghostmap_remove m key = m.
Proof. intros m key H. byind m; [reflexivity|]. cases; [discriminate|]. f_equal. auto. Qed.
Lemma remove_length_le : forall m key, length (ghostmap_remove m key) <= length m.
Proof. intros m key. byind m; [auto|]. cases; cbn; lia. Qed.
Lemma remove_length_lt : forall m key, ghostmap_get m key <> None -> length (ghostmap_remove m key) < length m.
Proof. intros m key H. byind m; [contradiction|]. cases; [pose proof (remove_length_le t key); lia|]. cbn. specialize (IH H). lia. Qed.
Lemma remove_length : forall m key, ghostmap_distinct m -> ghostmap_get m key <> None -> length (ghostmap_remove m key) = length m - 1.
Proof.
  unfold ghostmap_distinct. intros m key D H. byind m; [contradiction|]. inversion_clear D as [|? ? N1 N2]. cases.
  - rewrite remove_missing; [lia|]. rewrite <- get_mem in N1. destruct (ghostmap_get t key); [exfalso; apply N1; discriminate|reflexivity].
  - cbn. rewrite IH by auto. destruct t; [contradiction|cbn; lia].
Qed.
Lemma remove_swap : forall m a b, ghostmap_remove (ghostmap_remove m a) b = ghostmap_remove (ghostmap_remove m b) a.
Proof. intros m a b. byind m; [reflexivity|]. destruct (keq hk a), (keq hk b); cbn; cases; try contradiction; try congruence. Qed.
Lemma remove_set : forall m key value, ghostmap_get m key = None -> ghostmap_remove (ghostmap_set m key value) key = m.
Proof. intros m key value H. byind m; [cases; [reflexivity|contradiction]|]. cases; [discriminate|]. cbn. cases; [contradiction|]. f_equal. auto. Qed.
Lemma remove_notmem : forall m key value, ~ In value (map snd m) -> ~ In value (map snd (ghostmap_remove m key)).
Proof. intros m key value H. byind m; [exact H|]. cases; [tauto|]. cbn. tauto. Qed.
Lemma remove_forall : forall m pred key, ghostmap_forall m pred = true -> ghostmap_forall (ghostmap_remove m key) pred = true.
Proof. intros m pred key H. byind m; [reflexivity|]. apply andb_true_iff in H as [A B]. cases; [auto|]. cbn. rewrite A. auto. Qed.
Lemma forall_pred : forall m pred key value, ghostmap_forall m pred = true -> ghostmap_get m key = Some value -> pred key value = true.
Proof. intros m pred key value H G. byind m; [discriminate|]. apply andb_true_iff in H as [A B]. cases; [injection G as ->; exact A|auto]. Qed.
Lemma notpred_notforall : forall m pred key value, ghostmap_get m key = Some value -> pred key value = false -> ghostmap_forall m pred = false.
Proof. intros m pred key value G P. destruct (ghostmap_forall m pred) eqn:E; [|reflexivity]. rewrite (forall_pred m pred key value E G) in P. discriminate. Qed.
Lemma extra_forall : forall m pred key value, ghostmap_forall (ghostmap_remove m key) pred = true -> ghostmap_get m key = Some value ->
  length (ghostmap_remove m key) = length m - 1 -> pred key value = true -> ghostmap_forall m pred = true.
Proof.
  intros m pred key value F G L P. byind m; [discriminate|]. cases.
  - injection G as ->. rewrite P. cbn. destruct (ghostmap_get t key) eqn:E.
    + assert (X : ghostmap_get t key <> None) by congruence. apply remove_length_lt in X. lia.
    + rewrite remove_missing in F; auto.
  - cbn in F. apply andb_true_iff in F as [F1 F2]. rewrite F1. cbn. apply IH; auto. cbn in L. destruct t; [discriminate|cbn in *; lia].
Qed.
Lemma has_nothing : forall m, (forall key, ghostmap_has m key = false) -> m = [].
Proof. intros [|[hk hv] t] H; [reflexivity|]. specialize (H hk). unfold ghostmap_has in H. cbn in H. destruct (keq hk hk); [discriminate|contradiction]. Qed.
Lemma forall_all : forall m pred, ghostmap_distinct m -> (forall key value, ghostmap_get m key = Some value -> pred key value = true) -> ghostmap_forall m pred = true.
Proof.
  unfold ghostmap_distinct. intros m pred D H. byind m; [reflexivity|]. inversion_clear D as [|? ? N1 N2]. apply andb_true_iff. split.
  - apply H. destruct (keq hk hk); [reflexivity|contradiction].
  - apply IH; [exact N2|]. intros key value G. apply H. destruct (keq hk key) as [->|]; [|exact G]. exfalso. apply N1. apply get_mem. congruence.
Qed.
Lemma get_in : forall m key value, ghostmap_get m key = Some value -> In (key, value) m.
Proof. intros m key value G. byind m; [discriminate|]. cases; [injection G as ->; auto|auto]. Qed.
End GhostMap.
Arguments ghostmap_distinct {K V}. Arguments ghostmap_forall {K V}.

(** 385-408: the sizes of maps with bounded keys. *)
Section ArraySize.
Context {V : Type}.
Local Open Scope Z_scope.
(** 410. *)
Definition bounds_check (a n b : Z) : bool := (a <=? n) && (n <? b).
Lemma array_size_hack : forall (m : list (Z * V)) size i i2, (forall n, bounds_check i2 n size = ghostmap_has Z.eq_dec m n \/ n = i) -> i2 = i + 1 ->
  forall n, bounds_check i2 n size = ghostmap_has Z.eq_dec (ghostmap_remove Z.eq_dec m i) n \/ n = i.
Proof. intros m size i i2 H E n. destruct (Z.eq_dec n i) as [->|NE]; [auto|]. destruct (H n) as [X|X]; [|auto]. left. rewrite X. unfold ghostmap_has. rewrite remove_other by auto. reflexivity. Qed.
Lemma array_keys : forall (m : list (Z * V)) k, 0 <= k -> (forall n, bounds_check 0 n k = ghostmap_has Z.eq_dec m n) -> ghostmap_distinct m -> Z.of_nat (length m) = k.
Proof.
  intros m k K H D. rewrite <- (map_length fst). unfold ghostmap_distinct in D.
  assert (P : forall n, In n (map fst m) <-> 0 <= n < k).
  { intros n. rewrite <- (get_mem Z.eq_dec). specialize (H n). unfold ghostmap_has, bounds_check in H. destruct (ghostmap_get Z.eq_dec m n).
    - apply andb_true_iff in H as [A B]. apply Z.leb_le in A. apply Z.ltb_lt in B. split; [lia|discriminate].
    - split; [congruence|]. intros X. apply andb_false_iff in H as [A|A]; [apply Z.leb_gt in A|apply Z.ltb_ge in A]; lia. }
  assert (L : length (map fst m) = length (map Z.of_nat (seq 0 (Z.to_nat k)))).
  { apply Nat.le_antisymm; apply NoDup_incl_length.
    - exact D.
    - intros n I. apply P in I. apply in_map_iff. exists (Z.to_nat n). split; [lia|]. apply in_seq. lia.
    - apply FinFun.Injective_map_NoDup; [intros a b E; lia|apply seq_NoDup].
    - intros n I. apply in_map_iff in I as (j & <- & I). apply in_seq in I. apply P. lia. }
  rewrite L, map_length, seq_length. lia.
Qed.
Lemma array_max : forall (m : list (Z * V)) size missing, (forall n, ghostmap_has Z.eq_dec m n = true -> bounds_check 0 n size = true) -> ghostmap_distinct m ->
  ghostmap_get Z.eq_dec m missing = None -> 0 <= missing < size -> Z.of_nat (length m) < size.
Proof.
  intros m size missing H D G B. rewrite <- (map_length fst). unfold ghostmap_distinct in D.
  assert (L : (length (missing :: map fst m) <= length (map Z.of_nat (seq 0 (Z.to_nat size))))%nat).
  { apply NoDup_incl_length.
    - constructor; [|exact D]. intros I. apply (get_mem Z.eq_dec) in I. contradiction.
    - intros n [<-|I]; apply in_map_iff; [exists (Z.to_nat missing); split; [lia|apply in_seq; lia]|].
      apply (get_mem Z.eq_dec) in I. specialize (H n). unfold ghostmap_has in H. destruct (ghostmap_get Z.eq_dec m n); [|contradiction]. specialize (H eq_refl).
      unfold bounds_check in H. apply andb_true_iff in H as [A C]. apply Z.leb_le in A. apply Z.ltb_lt in C. exists (Z.to_nat n). split; [lia|]. apply in_seq. lia. }
  cbn [length] in L. rewrite !map_length, seq_length in *. lia.
Qed.
End ArraySize.

(** ** env/include/proof/modulo.gh, mod-pow2.gh: C's division rounds to zero *)
Section Modulo.
Local Open Scope Z_scope.
(** modulo.gh 18-20. *)
Definition loop_fp (k capacity : Z) : Z := Z.rem (Z.rem k capacity + capacity) capacity.
(** mod-pow2.gh 8-17. *)
Definition pow2 (m : nat) : Z := 2 ^ Z.of_nat m.
Fixpoint is_pow2 (x : Z) (m : nat) : option nat :=
  match m with O => if x =? pow2 O then Some O else None | S m' => if x =? pow2 m then Some m else is_pow2 x m' end.

Lemma loop_mod : forall k c, 0 < c -> loop_fp k c = k mod c.
Proof.
  intros k c C. unfold loop_fp. pose proof (Z.rem_bound_abs k c ltac:(lia)) as B. rewrite Z.rem_mod_nonneg by lia.
  rewrite <- (Z.mul_1_l c) at 2. rewrite Z.mod_add by lia. rewrite (Z.quot_rem' k c) at 2. rewrite Z.mul_comm, Z.add_comm, Z.mod_add by lia. reflexivity.
Qed.
Lemma is_pow2_sound : forall x m r, is_pow2 x m = Some r -> x = pow2 r /\ (r <= m)%nat.
Proof.
  intros x m r. induction m as [|m IH]; cbn [is_pow2]; intros E.
  - destruct (Z.eqb_spec x (pow2 0)); [injection E as <-; auto|discriminate].
  - destruct (Z.eqb_spec x (pow2 (S m))); [injection E as <-; auto|]. destruct (IH E). auto.
Qed.
Lemma pow2_inj : forall a b, pow2 a = pow2 b -> a = b.
Proof. intros a b E. unfold pow2 in E. apply Z.pow_inj_r in E; lia. Qed.
Lemma is_pow2_complete : forall n m, (n <= m)%nat -> is_pow2 (pow2 n) m = Some n.
Proof.
  intros n m. induction m as [|m IH]; intros L; cbn [is_pow2].
  - replace n with O by lia. rewrite Z.eqb_refl. reflexivity.
  - destruct (Z.eqb_spec (pow2 n) (pow2 (S m))) as [E|NE]; [apply pow2_inj in E as ->; reflexivity|]. apply IH. assert (n <> S m) by congruence. lia.
Qed.
Lemma mask : forall k m, 0 <= k -> Z.land k (pow2 m - 1) = k mod pow2 m.
Proof. intros k m K. unfold pow2. rewrite <- Z.land_ones by lia. f_equal. rewrite Z.ones_equiv. lia. Qed.
Lemma pow2_check : forall x, 0 < x < pow2 64 -> Z.land x (x - 1) = 0 -> exists n, (n <= 63)%nat /\ x = pow2 n.
Proof.
  intros x [P B] L. exists (Z.to_nat (Z.log2 x)). pose proof (Z.log2_nonneg x) as N. pose proof (Z.log2_spec x P) as [S1 S2].
  assert (U : Z.log2 x < 64) by (apply Z.log2_lt_pow2; [exact P|exact B]). split; [lia|]. unfold pow2. rewrite Z2Nat.id by exact N.
  destruct (Z.eq_dec x (2 ^ Z.log2 x)) as [E|NE]; [exact E|]. exfalso.
  assert (T : Z.testbit (Z.land x (x - 1)) (Z.log2 x) = true).
  { rewrite Z.land_spec, Z.bit_log2 by exact P. cbn. replace (Z.log2 x) with (Z.log2 (x - 1)); [apply Z.bit_log2; pose proof (Z.pow_pos_nonneg 2 (Z.log2 x)); lia|].
    apply Z.log2_unique; lia. }
  rewrite L, Z.bits_0 in T. discriminate.
Qed.
End Modulo.

(** ** env/include/structs/index_pool.h *)
Section Pool.
Local Open Scope N_scope.
Definition items := list (nat * N).
Notation get := (ghostmap_get Nat.eq_dec).
Notation gset := (ghostmap_set Nat.eq_dec).
Notation gremove := (ghostmap_remove Nat.eq_dec).
(** 13. *)
Definition pool_young (time exp : N) (k : nat) (v : N) : bool := (time <? exp) || (time - exp <=? v).
(** 22-71: the ensures clauses. *)
Definition pool_ensures (size : nat) (exp : N) (l : items) (o : pop) (out : pout) (l' : items) : Prop :=
  match o, out with
  | OBorrow time, RBorrow r =>
      (if Nat.eqb (length l) size then if ghostmap_forall l (pool_young time exp) then r = None else exists i, r = Some (i, true) else r <> None) /\
      match r with
      | Some (index, used) => l' = gset l index time /\ (index < size)%nat /\
          (if used then exists old, get l index = Some old /\ pool_young time exp index old = false else get l index = None)
      | None => l' = l
      end
  | ORefresh time index, RUnit => l' = gset l index time
  | OUsed time index, RUsed b => l' = l /\ match get l index with None => b = false | Some t => b = pool_young time exp O t end
  | OReturn index, RUnit => l' = gremove l index
  | _, _ => False
  end.
Inductive pool_header (size : nat) (exp : N) : items -> list pop -> list pout -> items -> Prop :=
| ph_nil : forall l, pool_header size exp l [] [] l
| ph_cons : forall l o out l1 ops outs l2, pool_ensures size exp l o out l1 -> pool_header size exp l1 ops outs l2 -> pool_header size exp l (o :: ops) (out :: outs) l2.

(** What the predicate poolp says of the pool in memory (index_pool.c 22-44). *)
Definition poolp (size : nat) (p : pool) (l : items) : Prop := pool_wf size p /\ ghostmap_distinct l /\ forall i, get l i = pool_abs p i.

Lemma young_iff : forall time exp k v, pool_young time exp k v = true <-> young time exp v.
Proof. intros. unfold pool_young, young. rewrite orb_true_iff, N.ltb_lt, N.leb_le. reflexivity. Qed.
Lemma abs_bound : forall size p i, pool_wf size p -> pool_abs p i <> None -> (i < size)%nat.
Proof. intros size p i [L _] H. unfold pool_abs in H. rewrite L in H. destruct (Nat.ltb_spec i size); [assumption|contradiction]. Qed.
(** All indices are used if and only if the map has the size of the pool. *)
Lemma full_iff : forall size p l, poolp size p l -> (length l = size <-> forall i, (i < size)%nat -> pool_abs p i <> None).
Proof.
  intros size p l (W & D & G). unfold ghostmap_distinct in D. rewrite <- (map_length fst l).
  assert (I1 : incl (map fst l) (seq 0 size)).
  { intros i I. apply (get_mem Nat.eq_dec) in I. rewrite G in I. apply in_seq. pose proof (abs_bound _ _ _ W I). lia. }
  split.
  - intros L i Hi. rewrite <- G. apply get_mem. assert (X : incl (seq 0 size) (map fst l)) by (apply NoDup_length_incl; [exact D|rewrite seq_length; lia|exact I1]). apply X, in_seq. lia.
  - intros H. apply Nat.le_antisymm.
    + etransitivity; [apply (NoDup_incl_length D I1)|rewrite seq_length; auto].
    + etransitivity; [|apply (@NoDup_incl_length _ (seq 0 size)); [apply seq_NoDup|]]; [rewrite seq_length; auto|]. intros i Hi. apply in_seq in Hi. apply (get_mem Nat.eq_dec). rewrite G. apply H. lia.
Qed.
Lemma get_set : forall l i v j, get (gset l i v) j = pupd (fun x => get l x) i (Some v) j.
Proof. intros l i v j. unfold pupd. destruct (Nat.eqb_spec j i) as [->|NE]; [apply set_get|apply set_other; exact NE]. Qed.
Lemma get_remove : forall l i j, get (gremove l i) j = pupd (fun x => get l x) i None j.
Proof. intros l i j. unfold pupd. destruct (Nat.eqb_spec j i) as [->|NE]; [apply remove_get|apply remove_other; exact NE]. Qed.
Lemma pool_header_step : forall size p l o, poolp size p l -> pop_ok size o = true ->
  exists l', pool_ensures size (expiry p) l o (snd (pool_step p o)) l' /\ poolp size (fst (pool_step p o)) l' /\ expiry (fst (pool_step p o)) = expiry p.
Proof.
  intros size p l o R OK. pose proof R as (W & D & G). pose proof (pool_step_spec size p o W OK) as S. destruct (pool_step p o) as [p' out]. destruct S as (W' & E & S). cbn [fst snd].
  assert (ST : forall l', ghostmap_distinct l' -> (forall i, get l' i = pool_abs p' i) -> poolp size p' l') by (intros l' D' G'; split; [exact W'|split; assumption]).
  destruct o as [t|t i|t i|i]; destruct out as [[[i' u]|]| |b]; cbn [spec_step] in S; try contradiction; cbn [pool_ensures].
  - destruct S as (Hi & Hm & Hu). exists (gset l i' t). split; [|split; [apply ST; [apply set_distinct; exact D|]|exact E]].
    2:{ intros j. rewrite get_set, Hm. unfold pupd. destruct (Nat.eqb j i'); [reflexivity|apply G]. }
    split.
    + destruct (Nat.eqb_spec (length l) size) as [L|L]; [|discriminate]. pose proof (proj1 (full_iff size p l R) L i' Hi) as X.
      destruct u; [|congruence]. destruct Hu as (old & O1 & O2). rewrite (notpred_notforall Nat.eq_dec l _ i' old); [eauto|rewrite G; exact O1|].
      destruct (pool_young t (expiry p) i' old) eqn:Y; [apply young_iff in Y; contradiction|reflexivity].
    + split; [reflexivity|]. split; [exact Hi|]. destruct u; [|rewrite G; exact Hu]. destruct Hu as (old & O1 & O2). exists old. split; [rewrite G; exact O1|].
      destruct (pool_young t (expiry p) i' old) eqn:Y; [apply young_iff in Y; contradiction|reflexivity].
  - destruct S as (Ha & Hm). exists l. split; [|split; [apply ST; [exact D|intros j; rewrite Hm; apply G]|exact E]]. split; [|reflexivity].
    assert (L : length l = size) by (apply (full_iff size p l R); intros i Hi; destruct (Ha i Hi) as (v & X & _); congruence).
    rewrite L, Nat.eqb_refl. rewrite forall_all with (keq := Nat.eq_dec); [reflexivity|exact D|]. intros key value X. rewrite G in X.
    assert (Hk : (key < size)%nat) by (eapply abs_bound; [exact W|congruence]). destruct (Ha key Hk) as (v & X1 & X2). rewrite X in X1. injection X1 as <-. apply young_iff. exact X2.
  - exists (gset l i t). split; [reflexivity|]. split; [apply ST; [apply set_distinct; exact D|]|exact E]. intros j. rewrite get_set, S. unfold pupd. destruct (Nat.eqb j i); [reflexivity|apply G].
  - destruct S as (Hb & Hm). exists l. split; [|split; [apply ST; [exact D|intros j; rewrite Hm; apply G]|exact E]]. split; [reflexivity|]. rewrite G.
    destruct (pool_abs p i) as [v|].
    + destruct b, (pool_young t (expiry p) O v) eqn:Y; try reflexivity.
      * destruct (proj1 Hb eq_refl) as (v' & V1 & V2). injection V1 as <-. apply (young_iff t (expiry p) O v) in V2. congruence.
      * apply Hb. exists v. split; [reflexivity|]. apply (young_iff _ _ O). exact Y.
    + destruct b; [|reflexivity]. destruct (proj1 Hb eq_refl) as (v' & V1 & _). discriminate.
  - exists (gremove l i). split; [reflexivity|]. split; [apply ST; [apply remove_distinct; exact D|]|exact E]. intros j. rewrite get_remove, S. unfold pupd. destruct (Nat.eqb j i); [reflexivity|apply G].
Qed.
Lemma pool_header_run : forall size ops p l, poolp size p l -> forallb (pop_ok size) ops = true -> exists l', pool_header size (expiry p) l ops (snd (pool_run p ops)) l' /\ poolp size (fst (pool_run p ops)) l'.
Proof.
  intros size ops. induction ops as [|o ops IH]; intros p l R OK; cbn [pool_run forallb] in *; [exists l; split; [apply ph_nil|exact R]|].
  apply andb_true_iff in OK as [O1 O2]. destruct (pool_header_step size p l o R O1) as (l1 & E & R1 & EX). destruct (pool_step p o) as [p1 out]. cbn [fst snd] in *.
  destruct (IH p1 l1 R1 O2) as (l2 & H & R2). destruct (pool_run p1 ops) as [p2 outs]. cbn [fst snd] in *. exists l2. split; [|exact R2]. eapply ph_cons; [exact E|]. rewrite <- EX. exact H.
Qed.
End Pool.

(** ** env/include/structs/map.h *)
Section MapHeader.
Local Open Scope N_scope.
Definition beq := list_eq_dec N.eq_dec.
Notation get := (ghostmap_get beq).
(** 19-72: one call from a map that holds [values] and [addrs], as the requires and ensures clauses say; the map's share of the keys (0.25 of
    each) keeps their bytes. *)
Inductive map_call (ksize : nat) (capacity : N) : list (bytes * N) -> list (bytes * N) -> (N -> bytes) * mop -> mout -> list (bytes * N) -> list (bytes * N) -> Prop :=
| mc_get : forall values addrs mem k, (forall key a, In (key, a) addrs -> mem a = key) ->
    k <> 0 -> length (mem k) = ksize ->
    map_call ksize capacity values addrs (mem, MGet k) (MVal (get values (mem k))) values addrs
| mc_set : forall values addrs mem k v, (forall key a, In (key, a) addrs -> mem a = key) ->
    k <> 0 -> length (mem k) = ksize -> N.of_nat (length values) < capacity -> get values (mem k) = None -> get addrs (mem k) = None ->
    map_call ksize capacity values addrs (mem, MSet k v) (MDone true) (ghostmap_set beq values (mem k) v) (ghostmap_set beq addrs (mem k) k)
| mc_remove : forall values addrs mem k, (forall key a, In (key, a) addrs -> mem a = key) ->
    k <> 0 -> length (mem k) = ksize -> get values (mem k) <> None -> get addrs (mem k) = Some k ->
    map_call ksize capacity values addrs (mem, MRemove k) (MDone true) (ghostmap_remove beq values (mem k)) (ghostmap_remove beq addrs (mem k)).
Inductive map_header (ksize : nat) (capacity : N) : list (bytes * N) -> list (bytes * N) -> list ((N -> bytes) * mop) -> list mout -> Prop :=
| mh_nil : forall values addrs, map_header ksize capacity values addrs [] []
| mh_cons : forall values addrs o out values' addrs' ops outs, map_call ksize capacity values addrs o out values' addrs' -> map_header ksize capacity values' addrs' ops outs ->
    map_header ksize capacity values addrs (o :: ops) (out :: outs).

Record same (s : fmap) (values addrs : list (bytes * N)) : Prop := mkSame {
  sm_v : forall k, get values k = option_map snd (flookup s k);
  sm_a : forall k, get addrs k = option_map fst (flookup s k);
  sm_l : length s = length values;
  sm_d : NoDup (map fst s);
  sm_dv : ghostmap_distinct values }.
Lemma beqb_true : forall a b, beqb a b = true <-> a = b.
Proof. intros a b. unfold beqb. destruct (list_eq_dec N.eq_dec a b); split; auto; discriminate. Qed.
Lemma flookup_cons : forall k av s k', flookup ((k, av) :: s) k' = if beq k k' then Some av else flookup s k'.
Proof. intros k av s k'. unfold flookup. cbn [find fst]. destruct (beqb k k') eqn:E; destruct (beq k k') as [X|X]; try reflexivity; [apply beqb_true in E; contradiction|apply beqb_true in X; congruence]. Qed.
Lemma flookup_filter : forall s k k', flookup (filter (fun p => negb (beqb (fst p) k)) s) k' = if beq k k' then None else flookup s k'.
Proof.
  induction s as [|[q av] s IH]; intros k k'; cbn [filter fst]; [destruct (beq k k'); reflexivity|]. destruct (beqb q k) eqn:E; cbn [negb].
  - apply beqb_true in E as ->. rewrite IH, flookup_cons. destruct (beq k k'); reflexivity.
  - rewrite !flookup_cons, IH. destruct (beq k k') as [<-|NE]; [|reflexivity]. destruct (beq q k) as [->|]; [|reflexivity]. rewrite (proj2 (beqb_true k k) eq_refl) in E. discriminate.
Qed.
Lemma flookup_nodup : forall s k av, NoDup (map fst s) -> In (k, av) s -> flookup s k = Some av.
Proof.
  induction s as [|[q bv] s IH]; intros k av D I; [destruct I|]. inversion_clear D as [|? ? N1 N2]. rewrite flookup_cons. destruct I as [E|I].
  - injection E as -> ->. destruct (beq k k); [reflexivity|contradiction].
  - destruct (beq q k) as [->|]; [|auto]. exfalso. apply N1. change k with (fst (k, av)). apply in_map. exact I.
Qed.
Lemma filter_keys : forall (s : fmap) f, NoDup (map fst s) -> NoDup (map fst (filter f s)).
Proof.
  induction s as [|x s IH]; intros f D; [constructor|]. inversion_clear D as [|? ? N1 N2]. cbn [filter]. destruct (f x); [|auto]. cbn [map]. constructor; [|auto].
  intros I. apply N1. apply in_map_iff in I as (y & E & I). apply filter_In in I as [I _]. rewrite <- E. apply in_map. exact I.
Qed.
Lemma filter_keys_len : forall (s : fmap) k av, NoDup (map fst s) -> flookup s k = Some av -> length (filter (fun p => negb (beqb (fst p) k)) s) = (length s - 1)%nat.
Proof.
  induction s as [|[q bv] s IH]; intros k av D L; [discriminate|]. inversion_clear D as [|? ? N1 N2]. rewrite flookup_cons in L. cbn [filter fst length]. destruct (beq q k) as [->|NE].
  - rewrite (proj2 (beqb_true k k) eq_refl). cbn [negb]. assert (A : filter (fun p => negb (beqb (fst p) k)) s = s).
    { clear -N1. induction s as [|[q bv] s IH]; [reflexivity|]. cbn [filter fst map] in *. destruct (beqb q k) eqn:E; [apply beqb_true in E as ->; exfalso; apply N1; left; reflexivity|].
      cbn [negb]. f_equal. apply IH. intros I. apply N1. right. exact I. }
    rewrite A. lia.
  - destruct (beqb q k) eqn:E; [apply beqb_true in E; contradiction|]. cbn [negb length]. rewrite (IH k av N2 L). destruct s; [discriminate|cbn; lia].
Qed.
Lemma map_call_fstep : forall ksize capacity s values addrs o out values' addrs', same s values addrs -> map_call ksize capacity values addrs o out values' addrs' ->
  exists s', fstep ksize capacity s o = Some (s', out) /\ same s' values' addrs'.
Proof.
  intros ksize capacity s values addrs o out values' addrs' SM C.
  assert (KEYS : forall mem, (forall key a, In (key, a) addrs -> mem a = key) -> forallb (fun p => beqb (mem (fst (snd p))) (fst p)) s = true).
  { intros mem M. apply forallb_forall. intros [k [a v]] I. cbn [fst snd]. apply beqb_true. apply M. apply (get_in beq). rewrite (sm_a _ _ _ SM).
    rewrite (flookup_nodup s k (a, v) (sm_d _ _ _ SM) I). reflexivity. }
  destruct C as [values addrs mem k M NZ L|values addrs mem k v M NZ L R GV GA|values addrs mem k M NZ L GV GA]; unfold fstep; cbn [fst snd]; rewrite (KEYS mem M); rewrite (proj2 (N.eqb_neq k 0) NZ), L, Nat.eqb_refl; cbn [orb negb].
  - exists s. split; [|exact SM]. rewrite (sm_v _ _ _ SM). reflexivity.
  - match goal with |- context [if negb ?b then _ else _] => assert (RB : b = true); [apply N.ltb_lt; eapply N.le_lt_trans; [|exact R]; apply N.eq_le_incl; exact (f_equal N.of_nat (sm_l _ _ _ SM))|rewrite RB; clear RB] end. cbn [negb]. rewrite (sm_v _ _ _ SM) in GV. destruct (flookup s (mem k)) as [x|] eqn:F; [discriminate|].
    eexists. split; [reflexivity|]. constructor.
    + intros k'. rewrite flookup_cons. destruct (beq (mem k) k') as [<-|NE]; [apply set_get|]. rewrite set_other by congruence. apply SM.
    + intros k'. rewrite flookup_cons. destruct (beq (mem k) k') as [<-|NE]; [apply set_get|]. rewrite set_other by congruence. apply SM.
    + cbn [length]. rewrite set_length; [f_equal; apply SM|]. rewrite (sm_v _ _ _ SM), F. reflexivity.
    + cbn [map fst]. constructor; [|apply SM]. intros I. apply in_map_iff in I as ([q av] & E & I). cbn in E. subst q. rewrite (flookup_nodup s (mem k) av (sm_d _ _ _ SM) I) in F. discriminate.
    + apply set_distinct. apply SM.
  - pose proof GV as GV0. rewrite (sm_v _ _ _ SM) in GV. rewrite (sm_a _ _ _ SM) in GA. destruct (flookup s (mem k)) as [[a v]|] eqn:F; [|contradiction]. cbn in GA. injection GA as ->. rewrite N.eqb_refl.
    eexists. split; [reflexivity|]. constructor.
    + intros k'. rewrite flookup_filter. destruct (beq (mem k) k') as [<-|NE]; [apply remove_get|]. rewrite remove_other by congruence. apply SM.
    + intros k'. rewrite flookup_filter. destruct (beq (mem k) k') as [<-|NE]; [apply remove_get|]. rewrite remove_other by congruence. apply SM.
    + rewrite (filter_keys_len s (mem k) (k, v) (sm_d _ _ _ SM) F). rewrite remove_length; [rewrite (sm_l _ _ _ SM); reflexivity|apply SM|exact GV0].
    + apply filter_keys. apply SM.
    + apply remove_distinct. apply SM.
Qed.
Lemma map_header_frun : forall ksize capacity ops s values addrs outs, same s values addrs -> map_header ksize capacity values addrs ops outs -> frun ksize capacity s ops = Some outs.
Proof.
  intros ksize capacity. induction ops as [|o ops IH]; intros s values addrs outs SM H; inversion_clear H as [|? ? ? out v1 a1 ? outs1 C H1]; [reflexivity|]. cbn [frun].
  destruct (map_call_fstep _ _ _ _ _ _ _ _ _ SM C) as (s' & -> & SM'). rewrite (IH _ _ _ _ SM' H1). reflexivity.
Qed.
Lemma same_nil : same [] [] [].
Proof. constructor; try reflexivity; constructor. Qed.
End MapHeader.
