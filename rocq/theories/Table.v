(** * The flow table idiom of the network functions

    The firewall, the NAT, the policer and the bridge keep an array of keys, a hash map
    from keys to array indices whose keys live in the array, and an index pool.
    [tlearn] is the code they share, over the C structures of HashMap.v and IndexPool.v,
    with the hash map's keys in memory. *)

From Coq Require Import NArith List Bool Lia Arith Permutation.
From Verif Require Import IndexPool HashMap.
Import ListNotations.
Open Scope nat_scope.

Record table := mkTab { keys : list bytes; tmap : hmap; tpool : pool }.

Section Table.
Variable hash : bytes -> N.
Variable ksize : nat.
(** Where the key array and the key being looked up are in memory. *)
Variables base loc : N.

Definition kaddr (i : nat) : N := (base + N.of_nat ksize * N.of_nat i)%N.

(** Contents of memory, by address of an object: the key being looked up (on the stack
    or in the packet) and the array. *)
Definition memory (ks : list bytes) (local : bytes) (a : N) : bytes :=
  if (a =? loc)%N then local
  else match find (fun i => kaddr i =? a)%N (seq 0 (length ks)) with
       | Some i => nth i ks []
       | None => []
       end.

(** nf/firewall/flow_table.h 28-35, nf/nat/flow_table.h 31-40, and the allocations of
    nf/policer/policer.c 37-40 and nf/bridge/bridge.c 33-36; arrays are zero-filled. *)
Definition talloc (max_flows : nat) (expiration_time : N) : table :=
  mkTab (repeat (repeat 0%N ksize) max_flows) (map_alloc ksize (N.of_nat max_flows))
        (pool_alloc max_flows expiration_time).

(** map_get(flow_indexes, flow, &index). *)
Definition tfind (tb : table) (k : bytes) : option nat :=
  option_map N.to_nat (map_get hash (memory (keys tb) k) (tmap tb) loc).

(** nf/firewall/flow_table.h 37-51 and nf/nat/flow_table.h 42-62; the same statements are
    in nf/bridge/bridge.c 55-68. *)
Definition tlearn (tb : table) (time : N) (k : bytes) : option nat * table :=
  match tfind tb k with
  | Some index => (Some index, mkTab (keys tb) (tmap tb) (pool_refresh (tpool tb) time index))
  | None =>
      match pool_borrow (tpool tb) time with
      | (None, p) => (None, mkTab (keys tb) (tmap tb) p)
      | (Some (index, was_used), p) =>
          let m1 := if was_used then fst (map_remove hash (memory (keys tb) k) (tmap tb) (kaddr index))
                    else tmap tb in
          let ks := set_nth (keys tb) index k in
          let m2 := fst (map_set hash (memory ks k) m1 (kaddr index) (N.of_nat index)) in
          (Some index, mkTab ks m2 p)
      end
  end.

(** nf/maglev/balancer.h 60-61: map_remove(flow_heap[index]); index_pool_return(index). *)
Definition tdrop (tb : table) (local : bytes) (index : nat) : table :=
  mkTab (keys tb) (fst (map_remove hash (memory (keys tb) local) (tmap tb) (kaddr index)))
        (pool_return (tpool tb) index).

(** ** What a table stands for *)
Definition view (tb : table) (i : nat) : option (bytes * N) :=
  match pool_abs (tpool tb) i with
  | Some t => Some (nth i (keys tb) [], t)
  | None => None
  end.

Record table_ok (cap : nat) (exp : N) (tb : table) : Prop := mkTOk {
  ok_keys : length (keys tb) = cap;
  ok_pool : pool_wf cap (tpool tb);
  ok_exp : expiry (tpool tb) = exp;
  ok_ksize : key_size (tmap tb) = ksize;
  ok_sizes : forall i, i < cap -> length (nth i (keys tb) []) = ksize;
  ok_map : cap = 0 /\ items (tmap tb) = [] \/
    exists s, rel hash (memory (keys tb) []) ksize s (items (tmap tb)) /\
      cap <= length (items (tmap tb)) /\
      forall k a v, In (k, (a, v)) s <-> exists i t, view tb i = Some (k, t) /\ a = kaddr i /\ v = N.of_nat i }.

(** The key looked up is outside the array, and no address is NULL. *)
Definition layout_ok (cap : nat) : Prop :=
  0 < ksize /\ (base <> 0)%N /\ (loc <> 0)%N /\
  (loc < base \/ base + N.of_nat ksize * N.of_nat cap <= loc)%N.

Section Facts.
Variable cap : nat.
Variable exp : N.
Hypothesis L : layout_ok cap.

Lemma kaddr_inj : forall i j, kaddr i = kaddr j -> i = j.
Proof.
  destruct L as (K & _). unfold kaddr. intros i j E.
  assert (N.of_nat ksize * N.of_nat i = N.of_nat ksize * N.of_nat j)%N by lia.
  apply N.mul_cancel_l in H; lia.
Qed.

Lemma kaddr_loc : forall i, i < cap -> kaddr i <> loc.
Proof.
  destruct L as (K & _ & _ & [H|H]); unfold kaddr; intros i Hi; [lia|].
  assert (N.of_nat ksize * N.of_nat i < N.of_nat ksize * N.of_nat cap)%N by (apply N.mul_lt_mono_pos_l; lia).
  lia.
Qed.
Lemma kaddr_0 : forall i, kaddr i <> 0%N.
Proof. destruct L as (_ & B & _). unfold kaddr. lia. Qed.

Lemma memory_loc : forall ks k, memory ks k loc = k.
Proof. intros. unfold memory. rewrite N.eqb_refl. reflexivity. Qed.

Lemma memory_key : forall ks k i, length ks = cap -> i < cap -> memory ks k (kaddr i) = nth i ks [].
Proof.
  intros ks k i Hl Hi. unfold memory.
  destruct (N.eqb_spec (kaddr i) loc) as [E|_]; [exfalso; exact (kaddr_loc i Hi E)|].
  destruct (find _ _) as [j|] eqn:F.
  - apply find_some in F as [_ F]. apply N.eqb_eq in F. apply kaddr_inj in F. subst. reflexivity.
  - exfalso. pose proof (find_none _ _ F i) as Q. cbn beta in Q. rewrite N.eqb_refl in Q.
    assert (true = false) by (apply Q; apply in_seq; lia). discriminate.
Qed.

Lemma view_lt : forall tb i kt, table_ok cap exp tb -> view tb i = Some kt -> i < cap.
Proof.
  intros tb i kt H E. unfold view, pool_abs in E.
  destruct (Nat.ltb_spec i (length (stamps (tpool tb)))); [|discriminate].
  rewrite (proj1 (ok_pool _ _ _ H)) in *. assumption.
Qed.
Lemma view_key : forall tb i k t, view tb i = Some (k, t) -> k = nth i (keys tb) [].
Proof. intros tb i k t E. unfold view in E. destruct (pool_abs _ _); [congruence|discriminate]. Qed.
Lemma view_size : forall tb i k t, table_ok cap exp tb -> view tb i = Some (k, t) -> length k = ksize.
Proof.
  intros tb i k t H E. rewrite (view_key _ _ _ _ E). apply (ok_sizes _ _ _ H). eapply view_lt; eauto.
Qed.

(** Rebasing the hash map's relation on another memory that has the same array. *)
Lemma rel_at : forall tb s ks k, length ks = cap ->
  rel hash (memory (keys tb) []) ksize s (items (tmap tb)) ->
  (forall k' a v, In (k', (a, v)) s -> exists i, i < cap /\ a = kaddr i /\ nth i ks [] = k') ->
  rel hash (memory ks k) ksize s (items (tmap tb)).
Proof.
  intros tb s ks k Hl R Hs. eapply rel_mem; [exact R|]. apply forallb_forall. intros [k' [a v]] Hin. cbn.
  destruct (Hs _ _ _ Hin) as (i & Hi & -> & E). apply beqb_eq. rewrite memory_key by assumption. exact E.
Qed.

Lemma find_spec : forall tb k, table_ok cap exp tb -> length k = ksize ->
  forall i, tfind tb k = Some i <-> exists t, view tb i = Some (k, t).
Proof.
  intros tb k H HK i. unfold tfind. destruct (ok_map _ _ _ H) as [[C E]|(s & R & Hc & Hs)].
  - unfold map_get. rewrite E. cbn. split; [discriminate|]. intros [t Ht].
    pose proof (view_lt _ _ _ H Ht). lia.
  - assert (Hs' : forall k' a v, In (k', (a, v)) s -> exists i, i < cap /\ a = kaddr i /\ nth i (keys tb) [] = k').
    { intros k' a v Hin. apply Hs in Hin as (j & t & Hv & Ha & _). exists j.
      split; [eapply view_lt; eauto|]. split; [exact Ha|]. symmetry. eapply view_key; eauto. }
    pose proof (rel_at tb s (keys tb) k (ok_keys _ _ _ H) R Hs') as Rk.
    pose proof (rel_get hash (memory (keys tb) k) ksize s _ loc Rk) as G. rewrite memory_loc in G. specialize (G HK).
    replace (tmap tb) with (mkMap (items (tmap tb)) ksize)
      by (pose proof (ok_ksize _ _ _ H); destruct (tmap tb); cbn in *; congruence).
    rewrite G. destruct (flookup s k) as [[a v]|] eqn:F; cbn.
    + apply flookup_in in F. apply Hs in F as (j & t & Hv & -> & ->). rewrite Nat2N.id. split.
      * intros [= <-]. exists t. exact Hv.
      * intros [t' Hv']. f_equal.
        assert (In (k, (kaddr i, N.of_nat i)) s) by (apply Hs; exists i, t'; auto).
        assert (In (k, (kaddr j, N.of_nat j)) s) by (apply Hs; exists j, t; auto).
        pose proof (NoDup_fst_unique _ _ s k _ _ (rel_nodup _ _ _ _ _ R) H0 H1) as Q.
        injection Q as Q _. apply kaddr_inj in Q. auto.
    + split; [discriminate|]. intros [t Hv]. exfalso. apply (flookup_none _ _ F (kaddr i, N.of_nat i)).
      apply Hs. exists i, t. auto.
Qed.

(** No key is twice in the table. *)
Lemma view_inj : forall tb i j k t t', table_ok cap exp tb ->
  view tb i = Some (k, t) -> view tb j = Some (k, t') -> i = j.
Proof.
  intros tb i j k t t' H Hi Hj. pose proof (view_size _ _ _ _ H Hi) as HK.
  assert (tfind tb k = Some i) by (apply find_spec; eauto).
  assert (tfind tb k = Some j) by (apply find_spec; eauto). congruence.
Qed.

Lemma talloc_ok : (N.of_nat cap <= 2 ^ 63)%N -> table_ok cap exp (talloc cap exp).
Proof.
  intros HC. constructor; cbn.
  - apply repeat_length.
  - apply pool_alloc_wf.
  - reflexivity.
  - reflexivity.
  - intros i Hi. rewrite (nth_indep _ [] (repeat 0%N ksize)) by (rewrite repeat_length; exact Hi).
    rewrite nth_repeat_same. apply repeat_length.
  - destruct (Nat.eq_dec cap 0) as [->|Hp]; [left; split; reflexivity|]. right.
    destruct (map_alloc_rel hash (memory (repeat (repeat 0%N ksize) cap) []) ksize (N.of_nat cap)) as [R HL]; [lia|exact HC|].
    exists []. split; [exact R|]. split; [cbn in HL; lia|]. intros k a v. split; [intros []|].
    intros (i & t & Hv & _). unfold view in Hv. cbn in Hv. rewrite pool_alloc_abs in Hv. discriminate.
Qed.
Lemma talloc_view : forall i, view (talloc cap exp) i = None.
Proof. intros. unfold view. cbn. rewrite pool_alloc_abs. reflexivity. Qed.

(** Refreshing an index of the table. *)
Lemma refresh_ok : forall tb i time, table_ok cap exp tb -> (time < TIME_MAX)%N ->
  (exists kt, view tb i = Some kt) ->
  let tb' := mkTab (keys tb) (tmap tb) (pool_refresh (tpool tb) time i) in
  table_ok cap exp tb' /\
  forall j, view tb' j = if Nat.eqb j i then Some (nth i (keys tb) [], time) else view tb j.
Proof.
  intros tb i time H Ht [kt Hv] tb'. pose proof (view_lt _ _ _ H Hv) as Hi.
  pose proof (pool_step_spec cap (tpool tb) (ORefresh time i) (ok_pool _ _ _ H)) as S. cbn [pop_ok pool_step spec_step] in S.
  rewrite (proj2 (N.ltb_lt _ _) Ht), (proj2 (Nat.ltb_lt _ _) Hi) in S. destruct (S eq_refl) as (Hwf & He & Hm). clear S.
  assert (V : forall j, view tb' j = if Nat.eqb j i then Some (nth i (keys tb) [], time) else view tb j).
  { intros j. unfold view, tb'. cbn. rewrite Hm. unfold pupd. destruct (Nat.eqb_spec j i) as [->|]; reflexivity. }
  split; [|exact V]. destruct H as [H1 H2 H3 H4 H5 H6]. constructor; cbn; auto.
  destruct H6 as [H6|(s & R & Hc & Hs)]; [left; exact H6|]. right. exists s. split; [exact R|]. split; [exact Hc|].
  intros k a v. rewrite Hs. split; intros (j & t & Hj & Ha & Hvv).
  - destruct (Nat.eqb_spec j i) as [->|Hne].
    + exists i, time. rewrite V, Nat.eqb_refl. rewrite (view_key _ _ _ _ Hj). auto.
    + exists j, t. rewrite V. rewrite (proj2 (Nat.eqb_neq j i)) by assumption. auto.
  - rewrite V in Hj. destruct (Nat.eqb_spec j i) as [->|Hne].
    + injection Hj as <- <-. destruct kt as [k0 t0]. rewrite <- (view_key _ _ _ _ Hv). eauto.
    + eauto.
Qed.

(** Taking an index out of the hash map (the pool's entry is about to change). *)
Lemma remove_at : forall tb s i k0 t0 local, table_ok cap exp tb -> view tb i = Some (k0, t0) ->
  rel hash (memory (keys tb) []) ksize s (items (tmap tb)) ->
  (forall k a v, In (k, (a, v)) s <-> exists i t, view tb i = Some (k, t) /\ a = kaddr i /\ v = N.of_nat i) ->
  exists its', fst (map_remove hash (memory (keys tb) local) (tmap tb) (kaddr i)) = mkMap its' ksize /\
    length its' = length (items (tmap tb)) /\
    rel hash (memory (keys tb) local) ksize (filter (fun p => negb (beqb (fst p) k0)) s) its' /\
    forall k a v, In (k, (a, v)) (filter (fun p => negb (beqb (fst p) k0)) s) <->
      exists j t, j <> i /\ view tb j = Some (k, t) /\ a = kaddr j /\ v = N.of_nat j.
Proof.
  intros tb s i k0 t0 local H Hv R Hs. pose proof (view_lt _ _ _ H Hv) as Hi.
  assert (Hs' : forall k' a v, In (k', (a, v)) s -> exists i, i < cap /\ a = kaddr i /\ nth i (keys tb) [] = k').
  { intros k' a v Hin. apply Hs in Hin as (j & t & Hj & Ha & _). exists j.
    split; [eapply view_lt; eauto|]. split; [exact Ha|]. symmetry. eapply view_key; eauto. }
  pose proof (rel_at tb s (keys tb) local (ok_keys _ _ _ H) R Hs') as Rk.
  assert (Em : memory (keys tb) local (kaddr i) = k0).
  { rewrite memory_key; [symmetry; eapply view_key; eauto|apply (ok_keys _ _ _ H)|exact Hi]. }
  assert (Hin : In (k0, (kaddr i, N.of_nat i)) s) by (apply Hs; eauto).
  assert (F : flookup s k0 = Some (kaddr i, N.of_nat i)).
  { destruct (flookup s k0) as [[a v]|] eqn:F; [|exfalso; exact (flookup_none _ _ F _ Hin)].
    apply flookup_in in F. pose proof (NoDup_fst_unique _ _ s k0 _ _ (rel_nodup _ _ _ _ _ R) F Hin). congruence. }
  destruct (rel_remove hash (memory (keys tb) local) ksize s (items (tmap tb)) (kaddr i) (N.of_nat i) Rk) as (its' & E & HL & R').
  { apply kaddr_0. } { rewrite Em. eapply view_size; eauto. } { rewrite Em. exact F. }
  exists its'. replace (tmap tb) with (mkMap (items (tmap tb)) ksize) at 1
    by (pose proof (ok_ksize _ _ _ H); destruct (tmap tb); cbn in *; congruence).
  rewrite E. split; [reflexivity|]. split; [exact HL|]. rewrite Em in R'. split; [exact R'|].
  intros k a v. rewrite filter_In, Hs. cbn. split.
  - intros [(j & t & Hj & Ha & Hvv) Hb]. exists j, t. split; [|auto]. intros ->. rewrite Hv in Hj. injection Hj as -> _.
    apply negb_true_iff in Hb. rewrite (proj2 (beqb_eq k k) eq_refl) in Hb. discriminate.
  - intros (j & t & Hne & Hj & Ha & Hvv). split; [eauto|]. apply negb_true_iff.
    destruct (beqb k k0) eqn:B; [|reflexivity]. apply beqb_eq in B. subst k. exfalso. apply Hne. eapply view_inj; eauto.
Qed.

Lemma rel_length : forall (s : fmap) (P : nat -> bytes -> Prop) (R : NoDup (map fst s)) n,
  (forall k a v, In (k, (a, v)) s -> exists j, j < n /\ P j k) ->
  (forall j k k', P j k -> P j k' -> k = k') -> length s <= n.
Proof.
  intros s P ND n Hs HP.
  assert (exists f : bytes -> nat, forall k, In k (map fst s) -> f k < n /\ P (f k) k).
  { clear ND HP. induction s as [|[k [a v]] s IH]; [exists (fun _ => 0); intros ? []|].
    destruct IH as [f Hf]; [intros; eapply Hs; right; eauto|].
    destruct (Hs k a v (or_introl eq_refl)) as (j & Hj & Pj).
    exists (fun k' => if beqb k' k then j else f k'). intros k' [<-|Hin]; cbn.
    - rewrite (proj2 (beqb_eq k k) eq_refl). auto.
    - destruct (beqb k' k) eqn:B; [apply beqb_eq in B; subst; auto|auto]. }
  destruct H as [f Hf].
  assert (ND' : NoDup (map f (map fst s))).
  { remember (map fst s) as l eqn:El. clear El Hs s. induction l as [|k l IH]; [constructor|].
    inversion ND; subst. cbn. constructor.
    - intros Hin. apply in_map_iff in Hin as (k' & E & Hin). apply H1.
      destruct (Hf k (or_introl eq_refl)) as [_ P1]. destruct (Hf k' (or_intror Hin)) as [_ P2].
      rewrite E in P2. rewrite (HP _ _ _ P1 P2). exact Hin.
    - apply IH; auto. intros; apply Hf; right; auto. }
  assert (Hle : length (map f (map fst s)) <= length (seq 0 n)).
  { apply NoDup_incl_length; [exact ND'|]. intros j Hin. apply in_map_iff in Hin as (k & <- & Hin).
    apply in_seq. destruct (Hf k Hin). lia. }
  rewrite !map_length, seq_length in Hle. exact Hle.
Qed.

(** Putting a key in an index that is not in the map. *)
Lemma put_ok : forall m1 s ks k i, length ks = cap -> i < cap -> length k = ksize ->
  rel hash (memory ks k) ksize s (items m1) -> key_size m1 = ksize -> cap <= length (items m1) ->
  nth i ks [] = k -> flookup s k = None -> length s < cap ->
  exists its', fst (map_set hash (memory ks k) m1 (kaddr i) (N.of_nat i)) = mkMap its' ksize /\
    length its' = length (items m1) /\
    rel hash (memory ks k) ksize ((k, (kaddr i, N.of_nat i)) :: s) its'.
Proof.
  intros m1 s ks k i Hl Hi HK R Hk Hc Hn F Hs.
  assert (Em : memory ks k (kaddr i) = k) by (rewrite memory_key; auto).
  destruct (rel_set hash (memory ks k) ksize s (items m1) (kaddr i) (N.of_nat i) R) as (its' & E & HL & R').
  { apply kaddr_0. } { rewrite Em. exact HK. } { rewrite Em. exact F. } { lia. }
  exists its'. replace m1 with (mkMap (items m1) ksize) at 1 by (destruct m1; cbn in *; congruence).
  rewrite E. rewrite Em in R'. auto.
Qed.

Lemma learn_spec : forall tb time k, table_ok cap exp tb -> length k = ksize -> (time < TIME_MAX)%N ->
  let (r, tb') := tlearn tb time k in
  table_ok cap exp tb' /\
  match r with
  | Some i => i < cap /\
      ((exists t, view tb i = Some (k, t)) \/
       (forall j t, view tb j <> Some (k, t)) /\
       (view tb i = None \/ exists k0 t0, view tb i = Some (k0, t0) /\ ~ young time exp t0)) /\
      (forall j, view tb' j = if Nat.eqb j i then Some (k, time) else view tb j)
  | None => (forall i, i < cap -> exists k' t, view tb i = Some (k', t) /\ young time exp t) /\
      (forall j t, view tb j <> Some (k, t)) /\ (forall j, view tb' j = view tb j)
  end.
Proof.
  intros tb time k H HK Ht. unfold tlearn. destruct (tfind tb k) as [i|] eqn:F.
  - apply (find_spec tb k H HK) in F as [t Hv].
    destruct (refresh_ok tb i time H Ht (ex_intro _ _ Hv)) as [Ho V]. split; [exact Ho|].
    split; [exact (view_lt _ _ _ H Hv)|]. split; [left; eauto|].
    rewrite <- (view_key _ _ _ _ Hv) in V. exact V.
  - assert (NF : forall j t, view tb j <> Some (k, t)).
    { intros j t E. assert (tfind tb k = Some j) by (apply find_spec; eauto). congruence. }
    pose proof (pool_step_spec cap (tpool tb) (OBorrow time) (ok_pool _ _ _ H)) as S. cbn [pop_ok pool_step] in S.
    specialize (S (proj2 (N.ltb_lt _ _) Ht)).
    destruct (pool_borrow (tpool tb) time) as [[[i u]|] p] eqn:B; cbn [spec_step] in S;
      destruct S as (Hwf & He & S); rewrite (ok_exp _ _ _ H) in *.
    + destruct S as (Hi & Hm & Hu).
      set (ks := set_nth (keys tb) i k).
      assert (Hlk : length ks = cap) by (unfold ks; rewrite set_nth_length; apply (ok_keys _ _ _ H)).
      assert (Hn : forall j, nth j ks [] = if Nat.eqb j i then k else nth j (keys tb) []).
      { intros j. unfold ks. apply set_nth_nth. rewrite (ok_keys _ _ _ H). exact Hi. }
      assert (Hv : if u then exists k0 t0, view tb i = Some (k0, t0) /\ ~ young time exp t0 else view tb i = None).
      { unfold view. destruct u; [destruct Hu as (old & -> & Hy); eauto|rewrite Hu; reflexivity]. }
      (* the hash map without index i *)
      assert (M1 : exists s its1, (if u then fst (map_remove hash (memory (keys tb) k) (tmap tb) (kaddr i)) else tmap tb) = mkMap its1 ksize /\
        cap <= length its1 /\ rel hash (memory (keys tb) []) ksize s its1 /\
        forall k' a v, In (k', (a, v)) s <-> exists j t, j <> i /\ view tb j = Some (k', t) /\ a = kaddr j /\ v = N.of_nat j).
      { destruct (ok_map _ _ _ H) as [[C _]|(s & R & Hc & Hs)]; [lia|]. destruct u.
        - destruct Hv as (k0 & t0 & Hv & _).
          destruct (remove_at tb s i k0 t0 k H Hv R Hs) as (its' & E & HL & R' & Hs').
          exists (filter (fun p => negb (beqb (fst p) k0)) s), its'. split; [exact E|]. split; [lia|]. split; [|exact Hs'].
          eapply rel_mem; [exact R'|]. apply forallb_forall. intros [k' [a v]] Hin. cbn. apply beqb_eq.
          apply Hs' in Hin as (j & t & _ & Hj & -> & _). rewrite memory_key; [symmetry; eapply view_key; eauto|apply (ok_keys _ _ _ H)|eapply view_lt; eauto].
        - exists s, (items (tmap tb)). split; [pose proof (ok_ksize _ _ _ H); destruct (tmap tb); cbn in *; congruence|].
          split; [exact Hc|]. split; [exact R|]. intros k' a v. rewrite Hs. split; intros (j & t & Q); [|exists j, t; tauto].
          exists j, t. split; [|exact Q]. intros ->. destruct Q as [Q _]. congruence. }
      destruct M1 as (s & its1 & -> & Hc1 & R1 & Hs1). set (m1 := mkMap its1 ksize).
      assert (R2 : rel hash (memory ks k) ksize s (items m1)).
      { eapply rel_mem; [exact R1|]. apply forallb_forall. intros [k' [a v]] Hin. cbn. apply beqb_eq.
        apply Hs1 in Hin as (j & t & Hne & Hj & -> & _). rewrite memory_key; [|exact Hlk|eapply view_lt; eauto].
        rewrite Hn, (proj2 (Nat.eqb_neq j i)) by assumption. symmetry. eapply view_key; eauto. }
      assert (F1 : flookup s k = None).
      { destruct (flookup s k) as [[a v]|] eqn:Q; [|reflexivity]. apply flookup_in in Q.
        apply Hs1 in Q as (j & t & _ & Hj & _). exfalso. exact (NF j t Hj). }
      assert (Hlen : length s < cap).
      { (* the keys of s are at the cap - 1 other indices *)
        assert (length s <= pred cap); [|lia].
        apply (rel_length s (fun j k' => nth (if j <? i then j else S j) (keys tb) [] = k') (rel_nodup _ _ _ _ _ R1)).
        - intros k' a v Hin. apply Hs1 in Hin as (j & t & Hne & Hj & _). pose proof (view_lt _ _ _ H Hj).
          destruct (Nat.lt_ge_cases j i).
          + exists j. split; [lia|]. rewrite (proj2 (Nat.ltb_lt j i)) by lia. symmetry. eapply view_key; eauto.
          + exists (pred j). split; [lia|]. rewrite (proj2 (Nat.ltb_ge (pred j) i)) by lia.
            replace (S (pred j)) with j by lia. symmetry. eapply view_key; eauto.
        - intros j k1 k2 <- <-. reflexivity. }
      assert (Hnk : nth i ks [] = k) by (rewrite Hn, Nat.eqb_refl; reflexivity).
      destruct (put_ok m1 s ks k i Hlk Hi HK R2 eq_refl Hc1 Hnk F1 Hlen) as (its2 & E2 & HL2 & R3).
      rewrite E2.
      assert (V : forall j, view (mkTab ks (mkMap its2 ksize) p) j = if Nat.eqb j i then Some (k, time) else view tb j).
      { intros j. unfold view. cbn. rewrite Hm. unfold pupd. rewrite Hn. destruct (Nat.eqb j i); reflexivity. }
      split.
      * constructor; cbn; auto.
        -- intros j Hj. rewrite Hn. destruct (Nat.eqb j i); [exact HK|apply (ok_sizes _ _ _ H j Hj)].
        -- right. exists ((k, (kaddr i, N.of_nat i)) :: s). split; [|split; [cbn in HL2; lia|]].
           ++ eapply rel_mem; [exact R3|]. apply forallb_forall. intros [k' [a v]] [Hin|Hin]; cbn; apply beqb_eq.
              ** injection Hin as <- <- <-. rewrite memory_key by assumption. exact Hnk.
              ** apply Hs1 in Hin as (j & t & Hne & Hj & -> & _). rewrite memory_key; [|exact Hlk|eapply view_lt; eauto].
                 rewrite Hn, (proj2 (Nat.eqb_neq j i)) by assumption. symmetry. eapply view_key; eauto.
           ++ intros k' a v. cbn [In]. rewrite Hs1. split.
              ** intros [Q|(j & t & Hne & Hj & Ha & Hvv)].
                 --- injection Q as <- <- <-. exists i, time. rewrite V, Nat.eqb_refl. auto.
                 --- exists j, t. rewrite V, (proj2 (Nat.eqb_neq j i)) by assumption. auto.
              ** intros (j & t & Hj & Ha & Hvv). rewrite V in Hj. destruct (Nat.eqb_spec j i) as [->|Hne].
                 --- left. injection Hj as <- _. rewrite Ha, Hvv. reflexivity.
                 --- right. exists j, t. auto.
      * split; [exact Hi|]. split; [right; split; [exact NF|]|exact V].
        destruct u; [right; exact Hv|left; exact Hv].
    + destruct S as [Hall Hm]. split.
      * destruct H as [H1 H2 H3 H4 H5 H6]. constructor; cbn; auto.
        destruct H6 as [H6|(s & R & Hc & Hs)]; [left; exact H6|]. right. exists s. split; [exact R|]. split; [exact Hc|].
        intros k' a v. rewrite Hs. unfold view. cbn. split; intros (j & t & Q); exists j, t;
          [rewrite Hm|rewrite Hm in Q]; exact Q.
      * split; [|split; [exact NF|]].
        -- intros i Hi. destruct (Hall i Hi) as (v & E & Y). unfold view. rewrite E. eauto.
        -- intros j. unfold view. cbn. rewrite Hm. reflexivity.
Qed.

(** index_pool_used. *)
Lemma used_spec : forall tb time i, table_ok cap exp tb ->
  (pool_used (tpool tb) time i = true <-> exists k t, view tb i = Some (k, t) /\ young time exp t).
Proof.
  intros tb time i H.
  pose proof (pool_step_spec cap (tpool tb) (OUsed time i) (ok_pool _ _ _ H) eq_refl) as S. cbn in S.
  destruct S as (_ & _ & S & _). rewrite (ok_exp _ _ _ H) in S. rewrite S. unfold view. split.
  - intros (v & -> & Y). eauto.
  - intros (k & t & E & Y). destruct (pool_abs (tpool tb) i) as [v|]; [|discriminate]. injection E as _ <-. eauto.
Qed.

Lemma drop_spec : forall tb local i k0 t0, table_ok cap exp tb -> view tb i = Some (k0, t0) ->
  table_ok cap exp (tdrop tb local i) /\
  forall j, view (tdrop tb local i) j = if Nat.eqb j i then None else view tb j.
Proof.
  intros tb local i k0 t0 H Hv. pose proof (view_lt _ _ _ H Hv) as Hi.
  pose proof (pool_step_spec cap (tpool tb) (OReturn i) (ok_pool _ _ _ H)) as S. cbn [pop_ok pool_step spec_step] in S.
  rewrite (proj2 (Nat.ltb_lt _ _) Hi) in S. destruct (S eq_refl) as (Hwf & He & Hm). clear S.
  destruct (ok_map _ _ _ H) as [[C _]|(s & R & Hc & Hs)]; [lia|].
  destruct (remove_at tb s i k0 t0 local H Hv R Hs) as (its' & E & HL & R' & Hs').
  unfold tdrop. rewrite E.
  assert (V : forall j, view (mkTab (keys tb) (mkMap its' ksize) (pool_return (tpool tb) i)) j = if Nat.eqb j i then None else view tb j).
  { intros j. unfold view. cbn. rewrite Hm. unfold pupd. destruct (Nat.eqb j i); reflexivity. }
  split; [|exact V]. destruct H as [H1 H2 H3 H4 H5 H6] eqn:HE. constructor; cbn; auto.
  right. exists (filter (fun p => negb (beqb (fst p) k0)) s). split; [|split; [lia|]].
  - eapply rel_mem; [exact R'|]. apply forallb_forall. intros [k' [a v]] Hin. cbn. apply beqb_eq.
    apply Hs' in Hin as (j & t & _ & Hj & -> & _). rewrite memory_key; [symmetry; eapply view_key; eauto|exact H1|eapply view_lt; eauto].
  - intros k a v. rewrite Hs'. split; intros (j & t & Q); exists j, t.
    + destruct Q as (Hne & Hj & Q). rewrite V, (proj2 (Nat.eqb_neq j i)) by assumption. auto.
    + rewrite V in Q. destruct (Nat.eqb_spec j i); [destruct Q; discriminate|]. auto.
Qed.
End Facts.
End Table.
