(** * Expiring sets in specifications (tool/klint/verif/spec_utils.py 7-51) and the
    firewall's specification (nf/firewall/spec.py) *)

From Coq Require Import NArith List Bool Lia Arith Permutation.
From Verif Require Import Solver IndexPool HashMap Table Firewall.
Import ListNotations.
Open Scope nat_scope.

(** The three maps the set is read from (lines 13-15), as association lists; keys are
    the bytes of the elements. *)
Record eset := mkES {
  es_exp : N; es_cap : nat; es_time : N;
  e2i : list (bytes * nat); i2e : list (nat * bytes); i2t : list (nat * N) }.

Definition assoc {A B} (eqb : A -> A -> bool) (l : list (A * B)) (a : A) : option B :=
  option_map snd (find (fun p => eqb a (fst p)) l).

(** spec_prefix.py 137-141: looking up an absent key raises. *)
Definition at_key {A B} (eqb : A -> A -> bool) (l : list (A * B)) (a : A) : res B :=
  match assoc eqb l a with Some b => Ok b | None => Err end.

(** Lines 22-25. *)
Definition es_full (e : eset) : bool :=
  (length (e2i e) =? es_cap e) &&
  forallb (fun kv => (es_time e <? es_exp e)%N || (es_time e - es_exp e <=? snd kv)%N) (i2t e).

(** Lines 27-30. *)
Definition es_did_refresh (e : eset) (item : bytes) : res bool :=
  match assoc beqb (e2i e) item with
  | None => Ok false
  | Some i => do t <- at_key Nat.eqb (i2t e) i; Ok (t =? es_time e)%N
  end.

(** Lines 32-41; failed assertions are errors. *)
Definition es_get_by_index (e : eset) (index : nat) : res (option bytes) :=
  match assoc Nat.eqb (i2t e) index with
  | None => Ok None
  | Some t =>
      if (es_exp e <=? es_time e)%N && (t <? es_time e - es_exp e)%N then Ok None
      else match assoc Nat.eqb (i2e e) index with
           | None => Ok None
           | Some item =>
               match assoc beqb (e2i e) item with
               | None => Err
               | Some i => if i =? index then Ok (Some item) else Err
               end
           end
  end.

(** Lines 43-46. *)
Definition es_get_index (e : eset) (item : bytes) : option nat := assoc beqb (e2i e) item.

(** Lines 48-51. *)
Definition es_contains (e : eset) (item : bytes) : res bool :=
  match assoc beqb (e2i e) item with
  | None => Ok false
  | Some i => do t <- at_key Nat.eqb (i2t e) i;
              Ok ((es_time e <? es_exp e)%N || (es_time e - es_exp e <=? t)%N)
  end.

(** ** The set a specification sees in a table: the hash map's items, the array, the pool *)
Section Observe.
Variable ksize : nat.
Variables base loc : N.

Definition map_entries (tb : table) : list (bytes * nat) :=
  map (fun it => (memory ksize base loc (keys tb) [] (key_addr it), N.to_nat (ivalue it)))
      (filter occ (items (tmap tb))).
Definition pool_entries (tb : table) : list (nat * N) :=
  flat_map (fun i => match pool_abs (tpool tb) i with Some t => [(i, t)] | None => [] end)
           (seq 0 (length (stamps (tpool tb)))).
Definition observe (exp : N) (cap : nat) (time : N) (tb : table) : eset :=
  mkES exp cap time (map_entries tb) (combine (seq 0 (length (keys tb))) (keys tb)) (pool_entries tb).

Variable hash : bytes -> N.
Variable cap : nat.
Variable exp : N.
Hypothesis L : layout_ok ksize base loc cap.

Lemma in_map_entries : forall tb k i, table_ok hash ksize base loc cap exp tb ->
  (In (k, i) (map_entries tb) <-> exists t, view tb i = Some (k, t)).
Proof.
  intros tb k i H. unfold map_entries. rewrite in_map_iff. destruct (ok_map _ _ _ _ _ _ _ H) as [[C E]|(s & R & Hc & Hs)].
  - rewrite E. cbn. split; [intros (? & _ & [])|]. intros [t Ht]. pose proof (view_lt _ _ _ _ _ _ _ _ _ H Ht). lia.
  - split.
    + intros (it & E & Hin). apply filter_In in Hin as [Hin Ho]. apply (In_nth _ _ item0) in Hin as (j & Hj & Ej).
      pose proof (rel_to _ _ _ _ _ R j Hj) as T. unfold item_at in T. rewrite Ej in T. specialize (T Ho).
      apply Hs in T as (i' & t & Hv & Ha & Hvv). injection E as E1 E2. rewrite Hvv, Nat2N.id in E2. subst i'.
      exists t. rewrite E1 in Hv. exact Hv.
    + intros [t Hv]. destruct (rel_from _ _ _ _ _ R k (kaddr ksize base i) (N.of_nat i)) as (j & Hj & Ho & Ea & Ev & Em).
      { apply Hs. exists i, t. auto. }
      exists (item_at (items (tmap tb)) j). rewrite Ev, Ea, Em, Nat2N.id. split; [reflexivity|].
      apply filter_In. split; [apply nth_In; exact Hj|exact Ho].
Qed.

Lemma in_pool_entries : forall tb i t, table_ok hash ksize base loc cap exp tb ->
  (In (i, t) (pool_entries tb) <-> exists k, view tb i = Some (k, t)).
Proof.
  intros tb i t H. unfold pool_entries. rewrite in_flat_map. split.
  - intros (j & _ & Hin). destruct (pool_abs (tpool tb) j) as [u|] eqn:E; [|destruct Hin].
    destruct Hin as [Q|[]]. injection Q as <- <-. unfold view. rewrite E. eauto.
  - intros [k Hv]. exists i. pose proof (view_lt _ _ _ _ _ _ _ _ _ H Hv) as Hi.
    split; [apply in_seq; rewrite (proj1 (ok_pool _ _ _ _ _ _ _ H)); lia|].
    unfold view in Hv. destruct (pool_abs (tpool tb) i); [|discriminate]. injection Hv as _ <-. left. reflexivity.
Qed.

Lemma assoc_in : forall A B eqb (l : list (A * B)) a b, (forall x y, eqb x y = true <-> x = y) ->
  assoc eqb l a = Some b -> In (a, b) l.
Proof.
  intros A B eqb l a b He H. unfold assoc in H. destruct (find _ l) as [[x y]|] eqn:F; [|discriminate]. cbn in H.
  apply find_some in F as [Hin E]. apply He in E. cbn in E. subst x. congruence.
Qed.
Lemma assoc_none : forall A B eqb (l : list (A * B)) a b, (forall x y, eqb x y = true <-> x = y) ->
  assoc eqb l a = None -> ~ In (a, b) l.
Proof.
  intros A B eqb l a b He H Hin. unfold assoc in H. destruct (find _ l) eqn:F; [discriminate|].
  pose proof (find_none _ _ F _ Hin) as Q. cbn in Q. rewrite (proj2 (He a a) eq_refl) in Q. discriminate.
Qed.

Lemma e2i_view : forall tb k i, table_ok hash ksize base loc cap exp tb ->
  (assoc beqb (map_entries tb) k = Some i <-> exists t, view tb i = Some (k, t)).
Proof.
  intros tb k i H. split.
  - intros E. apply assoc_in in E; [|exact beqb_eq]. apply in_map_entries; assumption.
  - intros [t Hv]. destruct (assoc beqb (map_entries tb) k) as [j|] eqn:E.
    + apply assoc_in in E; [|exact beqb_eq]. apply in_map_entries in E as [u Hu]; [|exact H].
      f_equal. eapply view_inj; eauto.
    + exfalso. apply (assoc_none _ _ _ _ _ i beqb_eq E). apply in_map_entries; eauto.
Qed.
Lemma i2t_view : forall tb i t, table_ok hash ksize base loc cap exp tb ->
  (assoc Nat.eqb (pool_entries tb) i = Some t <-> exists k, view tb i = Some (k, t)).
Proof.
  intros tb i t H. split.
  - intros E. apply assoc_in in E; [|exact Nat.eqb_eq]. apply in_pool_entries; assumption.
  - intros [k Hv]. destruct (assoc Nat.eqb (pool_entries tb) i) as [u|] eqn:E.
    + apply assoc_in in E; [|exact Nat.eqb_eq]. apply in_pool_entries in E as [k' Hu]; [|exact H]. congruence.
    + exfalso. apply (assoc_none _ _ _ _ _ t Nat.eqb_eq E). apply in_pool_entries; eauto.
Qed.

Lemma assoc_combine : forall (ks : list bytes) s i, s <= i < s + length ks ->
  assoc Nat.eqb (combine (seq s (length ks)) ks) i = Some (nth (i - s) ks []).
Proof.
  induction ks as [|k ks IH]; intros s i Hi; cbn [length] in Hi; [lia|].
  cbn [length seq combine]. unfold assoc. cbn [find fst]. destruct (Nat.eqb_spec i s) as [->|Hne].
  - rewrite Nat.sub_diag. reflexivity.
  - change (assoc Nat.eqb (combine (seq (S s) (length ks)) ks) i = Some (nth (i - s) (k :: ks) [])).
    rewrite IH by lia. replace (i - s) with (S (i - S s)) by lia. reflexivity.
Qed.

Lemma contains_spec : forall tb time k, table_ok hash ksize base loc cap exp tb ->
  exists b, es_contains (observe exp cap time tb) k = Ok b /\
    (b = true <-> exists i t, view tb i = Some (k, t) /\ young time exp t).
Proof.
  intros tb time k H. unfold es_contains. cbn [observe e2i i2t es_time es_exp].
  destruct (assoc beqb (map_entries tb) k) as [i|] eqn:E.
  - apply (e2i_view tb k i H) in E as [t Hv]. unfold at_key.
    rewrite (proj2 (i2t_view tb i t H) (ex_intro _ k Hv)). cbn [bindr].
    eexists. split; [reflexivity|]. rewrite orb_true_iff, N.ltb_lt, N.leb_le. split.
    + intros Y. exists i, t. split; [exact Hv|exact Y].
    + intros (j & u & Hu & Y). assert (j = i) by (eapply view_inj; eauto). subst j. rewrite Hv in Hu. injection Hu as <-. exact Y.
  - exists false. split; [reflexivity|]. split; [discriminate|]. intros (i & t & Hv & _).
    rewrite (proj2 (e2i_view tb k i H) (ex_intro _ t Hv)) in E. discriminate.
Qed.

Lemma did_refresh_spec : forall tb time k, table_ok hash ksize base loc cap exp tb ->
  exists b, es_did_refresh (observe exp cap time tb) k = Ok b /\
    (b = true <-> exists i, view tb i = Some (k, time)).
Proof.
  intros tb time k H. unfold es_did_refresh. cbn [observe e2i i2t es_time es_exp].
  destruct (assoc beqb (map_entries tb) k) as [i|] eqn:E.
  - apply (e2i_view tb k i H) in E as [t Hv]. unfold at_key.
    rewrite (proj2 (i2t_view tb i t H) (ex_intro _ k Hv)). cbn [bindr].
    eexists. split; [reflexivity|]. rewrite N.eqb_eq. split.
    + intros ->. exists i. exact Hv.
    + intros (j & Hu). assert (j = i) by (eapply view_inj; eauto). subst j. congruence.
  - exists false. split; [reflexivity|]. split; [discriminate|]. intros (i & Hv).
    rewrite (proj2 (e2i_view tb k i H) (ex_intro _ time Hv)) in E. discriminate.
Qed.

Lemma get_by_index_spec : forall tb time i, table_ok hash ksize base loc cap exp tb ->
  exists r, es_get_by_index (observe exp cap time tb) i = Ok r /\
    forall k, r = Some k <-> exists t, view tb i = Some (k, t) /\ young time exp t.
Proof.
  intros tb time i H. unfold es_get_by_index. cbn [observe e2i i2t i2e es_time es_exp].
  destruct (assoc Nat.eqb (pool_entries tb) i) as [t|] eqn:E.
  - apply (i2t_view tb i t H) in E as [k Hv].
    destruct ((exp <=? time)%N && (t <? time - exp)%N) eqn:Y.
    + exists None. split; [reflexivity|]. intros k'. split; [discriminate|]. intros (u & Hu & Hy).
      rewrite Hv in Hu. injection Hu as _ <-. apply andb_true_iff in Y as [Y1 Y2].
      apply N.leb_le in Y1. apply N.ltb_lt in Y2. unfold young in Hy. lia.
    + assert (Hy : young time exp t).
      { unfold young. apply andb_false_iff in Y as [Y|Y]; [apply N.leb_gt in Y|apply N.ltb_ge in Y]; lia. }
      pose proof (view_lt _ _ _ _ _ _ _ _ _ H Hv) as Hi.
      rewrite assoc_combine by (rewrite (ok_keys _ _ _ _ _ _ _ H); lia).
      rewrite Nat.sub_0_r, <- (view_key _ _ _ _ Hv).
      rewrite (proj2 (e2i_view tb k i H) (ex_intro _ t Hv)), Nat.eqb_refl.
      exists (Some k). split; [reflexivity|]. intros k'. split.
      * intros [= <-]. eauto.
      * intros (u & Hu & _). congruence.
  - exists None. split; [reflexivity|]. intros k. split; [discriminate|]. intros (t & Hv & _).
    rewrite (proj2 (i2t_view tb i t H) (ex_intro _ k Hv)) in E. discriminate.
Qed.

Lemma map_entries_length : forall tb, table_ok hash ksize base loc cap exp tb ->
  length (map_entries tb) = length (filter (fun i => match view tb i with Some _ => true | None => false end) (seq 0 cap)).
Proof.
  intros tb H. set (occ_i := filter (fun i => match view tb i with Some _ => true | None => false end) (seq 0 cap)).
  assert (P : Permutation (map snd (map_entries tb)) occ_i).
  { apply NoDup_Permutation.
    - (* distinct keys are at distinct indices *)
      destruct (ok_map _ _ _ _ _ _ _ H) as [[C E]|(s & R & Hc & Hs)].
      { unfold map_entries. rewrite E. constructor. }
      unfold map_entries. rewrite map_map. cbn [snd].
      assert (NDs : NoDup (filter (fun j => occ (item_at (items (tmap tb)) j)) (seq 0 (length (items (tmap tb)))))) by (apply NoDup_filter, seq_NoDup).
      assert (Q : map (fun it => N.to_nat (ivalue it)) (filter occ (items (tmap tb))) =
                  map (fun j => N.to_nat (ivalue (item_at (items (tmap tb)) j))) (filter (fun j => occ (item_at (items (tmap tb)) j)) (seq 0 (length (items (tmap tb)))))).
      { clear. set (its := items (tmap tb)).
        assert (G : forall l n, (forall j, j < length l -> nth j l item0 = item_at its (n + j)) ->
          map (fun it => N.to_nat (ivalue it)) (filter occ l) =
          map (fun j => N.to_nat (ivalue (item_at its j))) (filter (fun j => occ (item_at its j)) (seq n (length l)))).
        { induction l as [|it l IH]; intros n Hn; [reflexivity|]. cbn [filter seq length].
          pose proof (Hn 0 ltac:(cbn; lia)) as H0. cbn [nth] in H0. rewrite Nat.add_0_r in H0. rewrite <- H0.
          assert (IH' := IH (S n)). destruct (occ it); cbn [map]; rewrite ?IH'; try (rewrite <- H0; reflexivity); try reflexivity;
          intros j Hj; pose proof (Hn (S j) ltac:(cbn; lia)) as Hj'; cbn [nth] in Hj'; rewrite Hj'; f_equal; lia. }
        apply (G its 0). intros j Hj. reflexivity. }
      rewrite Q. clear Q.
      assert (Inj : forall j, In j (filter (fun j => occ (item_at (items (tmap tb)) j)) (seq 0 (length (items (tmap tb))))) ->
        exists i k t, view tb i = Some (k, t) /\ N.to_nat (ivalue (item_at (items (tmap tb)) j)) = i /\
          memory ksize base loc (keys tb) [] (key_addr (item_at (items (tmap tb)) j)) = k).
      { intros j Hj. apply filter_In in Hj as [Hj Ho]. apply in_seq in Hj.
        pose proof (rel_to _ _ _ _ _ R j ltac:(lia) Ho) as T. apply Hs in T as (i & t & Hv & Ha & Hvv).
        exists i. do 2 eexists. split; [exact Hv|]. rewrite Hvv, Nat2N.id. auto. }
      assert (Dist : forall j j', In j (filter (fun j => occ (item_at (items (tmap tb)) j)) (seq 0 (length (items (tmap tb))))) ->
        In j' (filter (fun j => occ (item_at (items (tmap tb)) j)) (seq 0 (length (items (tmap tb))))) ->
        N.to_nat (ivalue (item_at (items (tmap tb)) j)) = N.to_nat (ivalue (item_at (items (tmap tb)) j')) -> j = j').
      { intros j j' Hj Hj' E. destruct (Inj j Hj) as (i & k & t & Hv & Hi & Hk). destruct (Inj j' Hj') as (i' & k' & t' & Hv' & Hi' & Hk').
        assert (Ei : i = i') by congruence. assert (Ek : k = k') by congruence.
        apply filter_In in Hj as [Hj Ho]. apply filter_In in Hj' as [Hj' Ho']. apply in_seq in Hj, Hj'.
        apply (inv_dist _ _ _ (rel_inv _ _ _ _ _ R)); try lia; try assumption. congruence. }
      remember (filter (fun j => occ (item_at (items (tmap tb)) j)) (seq 0 (length (items (tmap tb))))) as l eqn:El. clear El Inj.
      induction l as [|j l IH]; [constructor|]. inversion NDs; subst. cbn [map]. constructor.
      + intros Hin. apply in_map_iff in Hin as (j' & E & Hin). apply H2. rewrite <- (Dist j' j); [exact Hin|right; exact Hin|left; reflexivity|exact E].
      + apply IH; [assumption|]. intros a b Ha Hb. apply Dist; right; assumption.
    - apply NoDup_filter, seq_NoDup.
    - intros i. unfold occ_i. rewrite in_map_iff, filter_In, in_seq. split.
      + intros ([k j] & <- & Hin). apply (in_map_entries tb k j H) in Hin as [t Hv]. cbn [snd]. rewrite Hv.
        split; [pose proof (view_lt _ _ _ _ _ _ _ _ _ H Hv); lia|reflexivity].
      + intros [_ Hv]. destruct (view tb i) as [[k t]|] eqn:E; [|discriminate]. exists (k, i). split; [reflexivity|].
        apply in_map_entries; eauto. }
  apply Permutation_length in P. rewrite map_length in P. exact P.
Qed.

Lemma filter_all_length : forall A (f : A -> bool) l, length (filter f l) = length l <-> forall x, In x l -> f x = true.
Proof.
  induction l as [|a l IH]; cbn; [split; [intros _ x []|reflexivity]|].
  destruct (f a) eqn:E; cbn.
  - split; [intros Q x [<-|Hx]; [exact E|apply IH; [lia|exact Hx]]|]. intros Q. f_equal. apply IH. auto.
  - split; [|intros Q; rewrite (Q a (or_introl eq_refl)) in E; discriminate].
    intros Q. pose proof (filter_length_le_seq _ f l). lia.
Qed.

Lemma full_spec : forall tb time, table_ok hash ksize base loc cap exp tb ->
  (es_full (observe exp cap time tb) = true <->
   forall i, i < cap -> exists k t, view tb i = Some (k, t) /\ young time exp t).
Proof.
  intros tb time H. unfold es_full. cbn [observe e2i i2t es_time es_exp es_cap].
  rewrite andb_true_iff, Nat.eqb_eq, map_entries_length, forallb_forall by exact H.
  replace cap with (length (seq 0 cap)) at 2 by apply seq_length. rewrite filter_all_length. split.
  - intros [A B] i Hi. specialize (A i). rewrite in_seq in A. destruct (view tb i) as [[k t]|] eqn:E.
    + exists k, t. split; [reflexivity|]. specialize (B (i, t)). rewrite in_pool_entries in B by exact H. specialize (B (ex_intro _ k E)).
      cbn in B. rewrite orb_true_iff, N.ltb_lt, N.leb_le in B. exact B.
    + assert (false = true) by (apply A; lia). discriminate.
  - intros Q. split.
    + intros i Hi. apply in_seq in Hi. destruct (Q i) as (k & t & -> & _); [lia|reflexivity].
    + intros [i t] Hin. apply in_pool_entries in Hin as [k Hv]; [|exact H].
      destruct (Q i) as (k' & t' & Hv' & Y). { pose proof (view_lt _ _ _ _ _ _ _ _ _ H Hv). lia. }
      rewrite Hv in Hv'. injection Hv' as _ <-. cbn. rewrite orb_true_iff, N.ltb_lt, N.leb_le. exact Y.
Qed.
End Observe.

(** ** The firewall's specification, nf/firewall/spec.py 11-48

    [old] and [new] are the set before and after the packet. [Ok true]: all assertions
    hold. The assertion on the packet's data (line 47) is not modelled: no code of the
    firewall writes to the packet. *)
Definition fw_spec_py (external : N) (old new : eset) (p : pkt) (sent : option N) : res bool :=
  let sent_ok := match sent with Some d => (d =? 1 - p_device p)%N | None => false end in
  let none := match sent with Some _ => false | None => true end in
  if negb (is_ipv4 p && is_tcpudp p) then Ok none
  else if (p_device p =? external)%N then
    let f := flow_bytes (pkt_rev_flow p) in
    do known <- es_contains old f;
    if negb known then Ok none
    else do r <- es_did_refresh new f; Ok (r && sent_ok)
  else
    let f := flow_bytes (pkt_flow p) in
    do known <- es_contains new f;
    if negb known then Ok (es_full old && sent_ok) else Ok sent_ok.

Section FwSpec.
Variable hash : bytes -> N.
Variables base loc external exp : N.
Variable cap : nat.
Hypothesis L : layout_ok FLOW_SIZE base loc cap.
Hypothesis HC : (N.of_nat cap <= 2 ^ 63)%N.

Theorem fw_meets_spec : forall h tb p o tb', fw_hist hash base loc external cap exp h tb -> pkt_ok p ->
  fw_handle hash base loc external tb p = (o, tb') ->
  fw_spec_py external (observe FLOW_SIZE base loc exp cap (p_time p) tb)
                      (observe FLOW_SIZE base loc exp cap (p_time p) tb') p o = Ok true.
Proof.
  intros h tb p o tb' Hh Hp E. destruct (fw_hist_inv hash base loc external cap exp L HC h tb Hh) as [Hok _].
  assert (Ht : (p_time p < TIME_MAX)%N) by (unfold pkt_ok in Hp; tauto).
  unfold fw_handle in E. unfold fw_spec_py.
  destruct (negb (is_ipv4 p && is_tcpudp p)); [injection E as <- <-; reflexivity|].
  destruct (p_device p =? external)%N.
  - unfold has_external in E. set (k := flow_bytes (pkt_rev_flow p)) in *.
    pose proof (find_spec hash FLOW_SIZE base loc cap exp L tb k Hok (flow_bytes_length _)) as FS.
    destruct (contains_spec FLOW_SIZE base loc hash cap exp L tb (p_time p) k Hok) as (b & -> & Hb). cbn [bindr].
    destruct (tfind hash FLOW_SIZE base loc tb k) as [i|] eqn:F.
    + destruct (proj1 (FS i) eq_refl) as [t Hv].
      pose proof (used_spec hash FLOW_SIZE base loc cap exp tb (p_time p) i Hok) as US.
      destruct (pool_used (tpool tb) (p_time p) i); injection E as <- <-.
      * assert (b = true) as ->.
        { apply Hb. destruct (proj1 US eq_refl) as (k' & t' & Hv' & Hy). assert (k' = k) by congruence. subst k'. exists i, t'. auto. }
        destruct (refresh_ok hash FLOW_SIZE base loc cap exp tb i (p_time p) Hok Ht (ex_intro _ _ Hv)) as [Ho' V].
        destruct (did_refresh_spec FLOW_SIZE base loc hash cap exp L _ (p_time p) k Ho') as (b2 & -> & Hb2). cbn [bindr negb].
        assert (b2 = true) as ->.
        { apply Hb2. exists i. rewrite V, Nat.eqb_refl. rewrite <- (view_key _ _ _ _ Hv). reflexivity. }
        rewrite N.eqb_refl. reflexivity.
      * assert (b = false) as ->; [|reflexivity]. destruct b; [|reflexivity]. exfalso.
        destruct (proj1 Hb eq_refl) as (j & t' & Hj & Hy). assert (j = i) by (eapply view_inj; eauto). subst j.
        assert (false = true); [|discriminate]. apply US. eauto.
    + injection E as <- <-. assert (b = false) as ->; [|reflexivity]. destruct b; [|reflexivity]. exfalso.
      destruct (proj1 Hb eq_refl) as (j & t' & Hj & Hy). assert (None = Some j) by (apply FS; eauto). discriminate.
  - set (k := flow_bytes (pkt_flow p)) in *.
    pose proof (learn_spec hash FLOW_SIZE base loc cap exp L tb (p_time p) k Hok (flow_bytes_length _) Ht) as LS.
    destruct (tlearn hash FLOW_SIZE base loc tb (p_time p) k) as [r tb1]. injection E as <- <-. destruct LS as [Ho' LS].
    destruct (contains_spec FLOW_SIZE base loc hash cap exp L tb1 (p_time p) k Ho') as (b & -> & Hb). cbn [bindr].
    rewrite N.eqb_refl. destruct r as [i|].
    + destruct LS as (_ & _ & V). assert (b = true) as ->; [|reflexivity]. apply Hb. exists i, (p_time p).
      rewrite V, Nat.eqb_refl. split; [reflexivity|]. unfold young. lia.
    + destruct LS as (Hall & _). destruct b; [reflexivity|]. cbn [negb]. f_equal. rewrite andb_true_r.
      apply (full_spec FLOW_SIZE base loc hash cap exp tb (p_time p) Hok). exact Hall.
Qed.

(** What the specification's set reports, against the timed set of Firewall.v. *)
Theorem expiring_set_exact : forall ps tb S, Forall pkt_ok ps ->
  ordered 0 ps -> tb = snd (fw_run hash base loc external (talloc FLOW_SIZE cap exp) ps) ->
  S = snd (fw_spec_run external exp cap [] ps) ->
  forall t, Forall (fun p => (p_time p <= t)%N) ps ->
  let e := observe FLOW_SIZE base loc exp cap t tb in
  let live := filter (alive exp t) S in
  (forall f, flow_ok f -> es_contains e (flow_bytes f) = Ok (has f live)) /\
  es_full e = (length live =? cap).
Proof.
  intros ps tb S Hp Hor -> -> t Hle.
  assert (G : forall ps T tb S, fw_rel hash base loc cap exp T tb S -> Forall pkt_ok ps -> ordered T ps -> (T <= t)%N ->
    Forall (fun p => (p_time p <= t)%N) ps ->
    fw_rel hash base loc cap exp t (snd (fw_run hash base loc external tb ps)) (snd (fw_spec_run external exp cap S ps))).
  { clear -L. induction ps as [|p ps IH]; intros T tb S R Hp Hor HT Hle.
    - cbn. eapply fr_later; eauto.
    - inversion Hp; inversion Hle; subst. destruct Hor as [H0 Hor]. cbn [fw_run fw_spec_run].
      pose proof (fw_step_refines hash base loc external cap exp L T tb S p R H1 H0) as ST.
      destruct (fw_handle hash base loc external tb p) as [o tb1]. destruct (fw_spec external exp cap S p) as [o' S1]. destruct ST as [_ R1].
      specialize (IH (p_time p) tb1 S1 R1 H2 Hor H5 H6).
      destruct (fw_run hash base loc external tb1 ps). destruct (fw_spec_run external exp cap S1 ps). exact IH. }
  specialize (G ps 0%N _ [] (fw_init_rel hash base loc cap exp L HC) Hp Hor ltac:(lia) Hle).
  set (tb := snd (fw_run hash base loc external (talloc FLOW_SIZE cap exp) ps)) in *.
  set (S := snd (fw_spec_run external exp cap [] ps)) in *. clearbody tb S. cbn zeta.
  pose proof (fr_live _ _ _ _ _ _ _ _ G) as GL. pose proof (fr_ok _ _ _ _ _ _ _ _ GL) as Hok.
  assert (HS : forall e, In e (filter (alive exp t) S) -> alive exp t e = true) by (intros e He; apply filter_In in He; tauto).
  split.
  - intros f Hf. destruct (contains_spec FLOW_SIZE base loc hash cap exp L tb t (flow_bytes f) Hok) as (b & -> & Hb). f_equal.
    apply eq_true_iff_eq. rewrite Hb, has_In. split.
    + intros (i & u & Hv & Y). exists u. apply (fr_same _ _ _ _ _ _ _ _ GL f u Hf); [unfold young in Y; lia|eauto].
    + intros [u Hin]. pose proof (HS _ Hin) as Y. apply N.leb_le in Y. cbn in Y.
      apply (fr_same _ _ _ _ _ _ _ _ GL f u Hf Y) in Hin as [i Hv]. exists i, u. split; [exact Hv|unfold young; lia].
  - apply eq_true_iff_eq. rewrite (full_spec FLOW_SIZE base loc hash cap exp tb t Hok), Nat.eqb_eq.
    rewrite (youngs_count hash base loc cap exp L t tb _ GL HS).
    assert (SL : forall n, n = cap <-> n = length (seq 0 cap)) by (intros n; rewrite seq_length; tauto).
    rewrite SL, filter_all_length. split.
    + intros Q i Hi. apply in_seq in Hi. destruct (Q i) as (k & u & Hv & Y); [lia|]. unfold young_at. rewrite Hv.
      apply N.leb_le. unfold young in Y. lia.
    + intros Q i Hi. specialize (Q i). rewrite in_seq in Q. assert (Y : young_at exp t tb i = true) by (apply Q; lia).
      unfold young_at in Y. destruct (view tb i) as [[k u]|]; [|discriminate]. apply N.leb_le in Y. exists k, u.
      split; [reflexivity|unfold young; lia].
Qed.
End FwSpec.
