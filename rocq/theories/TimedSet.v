(** * The flow table idiom as a timed set

    For any kind of key: a table of Table.v behaves as a set of keys with the time they
    were last used, of which at most [cap] are alive. *)

From Coq Require Import NArith List Bool Lia Arith Permutation.
From Verif Require Import IndexPool HashMap Table Firewall.
Import ListNotations.
Open Scope nat_scope.

(** ** Specification *)
Definition kalive (exp t : N) (e : bytes * N) : bool := (t <=? snd e + exp)%N.
Definition khas (k : bytes) (S : list (bytes * N)) : bool := existsb (fun e => beqb k (fst e)) S.
Definition ktouch (k : bytes) (t : N) (S : list (bytes * N)) : list (bytes * N) :=
  (k, t) :: filter (fun e => negb (beqb k (fst e))) S.
(** Use [k] at time [t], if it is there or there is room; the dead are forgotten. *)
Definition kuse (exp : N) (cap : nat) (k : bytes) (t : N) (S : list (bytes * N)) : list (bytes * N) :=
  let live := filter (kalive exp t) S in
  if khas k live || (length live <? cap) then ktouch k t live else live.

Lemma kalive_young : forall exp t e, kalive exp t e = true <-> young t exp (snd e).
Proof. intros exp t [k v]. unfold kalive, young. cbn. rewrite N.leb_le. lia. Qed.
Lemma khas_In : forall k S, khas k S = true <-> exists t, In (k, t) S.
Proof.
  intros. unfold khas. rewrite existsb_exists. split.
  - intros ([g t] & Hin & E). apply beqb_eq in E. cbn in E. subst. eauto.
  - intros [t Hin]. exists (k, t). split; [exact Hin|]. apply beqb_eq. reflexivity.
Qed.

Section TimedSet.
Variable hash : bytes -> N.
Variable ksize : nat.
Variables base loc : N.
Variable cap : nat.
Variable exp : N.
Hypothesis L : layout_ok ksize base loc cap.
Notation tlearn' := (tlearn hash ksize base loc).
Notation tfind' := (tfind hash ksize base loc).

Record ts_rel (T : N) (tb : table) (S : list (bytes * N)) : Prop := mkTS {
  ts_ok : table_ok hash ksize base loc cap exp tb;
  ts_nodup : NoDup (map fst S);
  ts_same : forall k t, (T <= t + exp)%N -> (In (k, t) S <-> exists i, view tb i = Some (k, t)) }.

Lemma ts_later : forall T T' tb S, (T <= T')%N -> ts_rel T tb S -> ts_rel T' tb S.
Proof. intros T T' tb S H [A D E]. constructor; auto. intros f t Ht. apply E. lia. Qed.

Lemma ts_live : forall T tb S, ts_rel T tb S -> ts_rel T tb (filter (kalive exp T) S).
Proof.
  intros T tb S [A D E]. constructor; auto.
  - apply NoDup_map_filter. exact D.
  - intros f t Ht. rewrite filter_In, E by assumption. split; [tauto|]. intros H. split; [exact H|].
    apply kalive_young. unfold young. cbn. lia.
Qed.

Lemma ts_count : forall T tb S, ts_rel T tb S -> (forall e, In e S -> kalive exp T e = true) ->
  length S = length (filter (young_at exp T tb) (seq 0 cap)).
Proof.
  intros T tb S R HS.
  assert (P : Permutation (map Some S) (map (view tb) (filter (young_at exp T tb) (seq 0 cap)))).
  { apply NoDup_Permutation.
    - pose proof (ts_nodup _ _ _ R) as D. clear R HS.
      induction S as [|[f t] S IH]; cbn; [constructor|]. cbn in D. inversion D; subst. constructor; [|auto].
      intros Hin. apply in_map_iff in Hin as ([g u] & E & Hin). injection E as -> ->.
      apply H1. apply in_map_iff. exists (f, t). auto.
    - assert (ND : NoDup (filter (young_at exp T tb) (seq 0 cap))) by (apply NoDup_filter, seq_NoDup).
      assert (Y : forall i, In i (filter (young_at exp T tb) (seq 0 cap)) -> exists k t, view tb i = Some (k, t)).
      { intros i Hi. apply filter_In in Hi as [_ Hi]. unfold young_at in Hi. destruct (view tb i) as [[k t]|]; [eauto|discriminate]. }
      induction (filter (young_at exp T tb) (seq 0 cap)) as [|i l IH]; cbn; [constructor|]. inversion ND; subst. constructor.
      + intros Hin. apply in_map_iff in Hin as (j & E & Hin). destruct (Y i (or_introl eq_refl)) as (k & t & Hv).
        assert (j = i); [|subst; auto]. eapply view_inj with (t := t) (t' := t); [exact L|apply (ts_ok _ _ _ R)| |exact Hv]. congruence.
      + apply IH; [assumption|]. intros; apply Y; right; assumption.
    - intros o. split; intros Hin; apply in_map_iff in Hin as (x & <- & Hin); apply in_map_iff.
      + destruct x as [f t]. pose proof (HS _ Hin) as Ha. apply N.leb_le in Ha. cbn in Ha.
        apply (ts_same _ _ _ R f t Ha) in Hin as [i Hi].
        exists i. split; [exact Hi|]. apply filter_In. split; [apply in_seq|].
        * pose proof (view_lt hash ksize base loc cap exp _ _ _ (ts_ok _ _ _ R) Hi). lia.
        * unfold young_at. rewrite Hi. apply N.leb_le. exact Ha.
      + apply filter_In in Hin as [_ Hy]. unfold young_at in Hy. destruct (view tb x) as [[k t]|] eqn:Hv; [|discriminate].
        apply N.leb_le in Hy. exists (k, t). split; [reflexivity|]. apply (ts_same _ _ _ R k t Hy). eauto. }
  apply Permutation_length in P. rewrite !map_length in P. exact P.
Qed.

Lemma ts_touch : forall T tb tb' S f i, ts_rel T tb S -> (forall e, In e S -> kalive exp T e = true) ->
  table_ok hash ksize base loc cap exp tb' ->
  ((exists t, view tb i = Some (f, t)) \/
   (forall j t, view tb j <> Some (f, t)) /\
   (view tb i = None \/ exists k0 t0, view tb i = Some (k0, t0) /\ ~ young T exp t0)) ->
  (forall j, view tb' j = if Nat.eqb j i then Some (f, T) else view tb j) ->
  ts_rel T tb' (ktouch f T S).
Proof.
  intros T tb tb' S f i [A D E] HS Ho Hi V. constructor.
  - exact Ho.
  - cbn. constructor; [|apply NoDup_map_filter; exact D].
    intros Hin. apply in_map_iff in Hin as ([g t] & Q & Hin). cbn in Q. subst g. apply filter_In in Hin as [_ Hin]. cbn in Hin.
    rewrite (proj2 (beqb_eq f f) eq_refl) in Hin. discriminate.
  - intros g t Ht. cbn [ktouch In]. rewrite filter_In. cbn. split.
    + intros [Q|[Hin Hne]].
      * injection Q as <- <-. exists i. rewrite V, Nat.eqb_refl. reflexivity.
      * apply E in Hin as [j Hj]; [|exact Ht]. exists j. rewrite V.
        destruct (Nat.eqb_spec j i) as [->|]; [|exact Hj]. exfalso.
        assert (g <> f) by (intros ->; rewrite (proj2 (beqb_eq f f) eq_refl) in Hne; discriminate).
        destruct Hi as [[t' Hi]|[_ [Hi|(k0 & t0 & Hi & Hy)]]]; rewrite Hi in Hj; [congruence|discriminate|].
        apply some_pair in Hj as [_ ->]. apply Hy. unfold young. lia.
    + intros [j Hj]. rewrite V in Hj. destruct (Nat.eqb_spec j i) as [Ej|Hne].
      * apply some_pair in Hj as [Q <-]. subst g. left. reflexivity.
      * right. split; [apply E; eauto|]. apply negb_true_iff. destruct (beqb f g) eqn:Q; [|reflexivity].
        apply beqb_eq in Q. subst g. exfalso. destruct Hi as [[t' Hi]|[Hn _]]; [|exact (Hn j t Hj)].
        apply Hne. eapply view_inj; [exact L|exact A|exact Hj|exact Hi].
Qed.

(** Using a key is using it in the set. *)
Lemma ts_learn : forall T tb S time k, ts_rel T tb S -> (T <= time)%N -> (time < TIME_MAX)%N -> length k = ksize ->
  let (r, tb') := tlearn' tb time k in
  ts_rel time tb' (kuse exp cap k time S) /\
  match r with Some _ => khas k (kuse exp cap k time S) = true | None => khas k (kuse exp cap k time S) = false end.
Proof.
  intros T tb S time f R HT Ht HL. apply (ts_later _ _ _ _ HT) in R. unfold kuse.
  pose proof (ts_live _ _ _ R) as RL. set (live := filter (kalive exp time) S) in *.
  assert (HS : forall e, In e live -> kalive exp time e = true) by (intros e He; apply filter_In in He; tauto).
  pose proof (ts_ok _ _ _ RL) as Ho.
  pose proof (learn_spec hash ksize base loc cap exp L tb time f Ho HL Ht) as LS.
  destruct (tlearn' tb time f) as [r tb'] eqn:E. destruct LS as [Ho' LS].
  pose proof (ts_count _ _ _ RL HS) as HC.
  assert (FH : khas f live = true -> exists i t, view tb i = Some (f, t) /\ young time exp t).
  { intros Hh. apply khas_In in Hh as [u Hin]. pose proof (HS _ Hin) as Ha. apply N.leb_le in Ha. cbn in Ha.
    apply (ts_same _ _ _ RL f u Ha) in Hin as [j Hj]. exists j, u. split; [exact Hj|unfold young; lia]. }
  destruct r as [i|].
  - destruct LS as (Hi & Hd & V).
    assert (Hlearn : khas f live || (length live <? cap) = true).
    { destruct (khas f live) eqn:Hh; [reflexivity|]. cbn. apply Nat.ltb_lt. rewrite HC.
      rewrite <- (seq_length cap 0) at 2.
      assert (Hy : young_at exp time tb i = false).
      { unfold young_at. destruct Hd as [[t Hv]|[Hn [Hv|(k0 & t0 & Hv & Hy)]]]; rewrite Hv; [|reflexivity|].
        - destruct (N.leb_spec time (t + exp)); [|reflexivity]. exfalso.
          assert (khas f live = true); [|congruence]. apply khas_In. exists t. apply (ts_same _ _ _ RL f t); eauto.
        - apply N.leb_gt. unfold young in Hy. lia. }
      assert (Hin : In i (seq 0 cap)) by (apply in_seq; lia).
      clear -Hy Hin. induction (seq 0 cap) as [|j l IH]; [destruct Hin|]. cbn. destruct Hin as [->|Hin].
      - rewrite Hy. pose proof (filter_length_le_seq _ (young_at exp time tb) l). lia.
      - destruct (young_at exp time tb j); cbn; specialize (IH Hin); lia. }
    rewrite Hlearn. split; [eapply ts_touch; eauto|]. apply khas_In. exists time. left. reflexivity.
  - destruct LS as (Hall & Hn & V).
    assert (Hh : khas f live = false).
    { destruct (khas f live) eqn:Hh; [|reflexivity]. exfalso. destruct (FH eq_refl) as (i & t & Hv & _). exact (Hn i t Hv). }
    assert (Hlearn : khas f live || (length live <? cap) = false).
    { apply orb_false_iff. split; [exact Hh|].
      apply Nat.ltb_ge. rewrite HC. rewrite <- (seq_length cap 0) at 1.
      assert (Q : filter (young_at exp time tb) (seq 0 cap) = seq 0 cap); [|rewrite Q; lia].
      assert (A : forall i, In i (seq 0 cap) -> young_at exp time tb i = true).
      { intros i Hi. apply in_seq in Hi. destruct (Hall i) as (k & t & Hv & Hy); [lia|]. unfold young_at. rewrite Hv.
        apply N.leb_le. unfold young in Hy. lia. }
      clear -A. induction (seq 0 cap) as [|j l IH]; [reflexivity|]. cbn. rewrite A by (left; reflexivity).
      f_equal. apply IH. intros; apply A; right; assumption. }
    rewrite Hlearn. split; [|exact Hh]. destruct RL as [A D F]. constructor; auto.
    intros g t Ht'. rewrite F by assumption. split; intros [j Hj]; exists j; [rewrite V|rewrite V in Hj]; exact Hj.
Qed.

Lemma ts_init : (N.of_nat cap <= 2 ^ 63)%N -> ts_rel 0 (talloc ksize cap exp) [].
Proof.
  intros HC. constructor; [apply talloc_ok; assumption|constructor|]. intros k t _. split; [intros []|]. intros [i H].
  rewrite talloc_view in H. discriminate.
Qed.

(** A key alive in the set is found; one found is in the set or dead. *)
Lemma ts_found : forall T tb S k, ts_rel T tb S -> length k = ksize -> (forall e, In e S -> kalive exp T e = true) ->
  khas k S = true -> exists i t, tfind' tb k = Some i /\ view tb i = Some (k, t) /\ In (k, t) S.
Proof.
  intros T tb S k R HL HS Hh. apply khas_In in Hh as [t Hin]. pose proof (HS _ Hin) as Ha. apply N.leb_le in Ha. cbn in Ha.
  pose proof Hin as Hin'. apply (ts_same _ _ _ R k t Ha) in Hin as [i Hi]. exists i, t. split; [|auto].
  apply (find_spec hash ksize base loc cap exp L tb k (ts_ok _ _ _ R) HL). eauto.
Qed.
End TimedSet.
