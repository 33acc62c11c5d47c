(** * When the search over choices is complete

    tool/klint/verif/symbex.py 52-62: after an exception that is not one of Python's
    own, the next combination of choices is tried. *)

From Coq Require Import NArith List Bool Lia Arith.
From Verif Require Import Expr Solver Symbex SymbexFacts.
Import ListNotations.
Open Scope nat_scope.

(** The specification with its choices made in advance. *)
Fixpoint resolve (v : list N) (ci : nat) (sp : spec) : spec :=
  match sp with
  | SDone => SDone
  | SFail b => SFail b
  | SIf c t f => SIf c (resolve v ci t) (resolve v ci f)
  | SAssume c k => SAssume c (resolve v ci k)
  | SMust c k => SMust c (resolve v ci k)
  | SChoose _ k => resolve v (S ci) (k (nth ci v 0%N))
  end.

(** The [i]-th call to choose offers the [i]-th list, whatever the path. *)
Fixpoint offers (L : list (list N)) (ci : nat) (sp : spec) : Prop :=
  match sp with
  | SDone | SFail _ => True
  | SIf _ t f => offers L ci t /\ offers L ci f
  | SAssume _ k | SMust _ k => offers L ci k
  | SChoose cands k => nth_error L ci = Some cands /\ forall x, offers L (S ci) (k x)
  end.

(** No failure is one of Python's own exceptions. *)
Fixpoint soft (sp : spec) : Prop :=
  match sp with
  | SDone => True
  | SFail b => b = false
  | SIf _ t f => soft t /\ soft f
  | SAssume _ k => soft k
  | SMust _ _ => False
  | SChoose _ k => forall x, soft (k x)
  end.

(** No list ends with a candidate of an earlier list. *)
Definition safe (L : list (list N)) : Prop :=
  (forall l, In l L -> l <> []) /\
  (forall i j, i < j < length L -> ~ In (last (nth j L []) 0%N) (nth i L [])).

(** A combination of choices: one candidate of each list, all different. *)
Definition combination (L : list (list N)) (v : list N) : Prop :=
  length v = length L /\ NoDup v /\ forall i, i < length L -> In (nth i v 0%N) (nth i L []).

Section Search.
Variable s : solver.
Variable L : list (list N).
Hypothesis HL : safe L.

Definition suffix (a b : list N) : Prop := exists pre, b = pre ++ a.

(** The choices in use: non-empty ends of the offered lists, all but the last settled. *)
Definition inv (ch : choices) : Prop :=
  length ch <= length L /\
  (forall i, i < length ch -> nth i ch [] <> [] /\ suffix (nth i ch []) (nth i L [])) /\
  settled (pred (length ch)) ch.

Lemma suffix_in : forall a b x, suffix a b -> In x a -> In x b.
Proof. intros a b x [pre ->] H. apply in_or_app. auto. Qed.
Lemma suffix_last : forall a b, a <> [] -> suffix a b -> last a 0%N = last b 0%N.
Proof.
  intros a b Ha [pre ->]. induction pre as [|y pre IH]; [reflexivity|]. cbn [app].
  rewrite IH. destruct (pre ++ a) eqn:E; [|reflexivity].
  apply app_eq_nil in E as [_ ->]. congruence.
Qed.
Lemma suffix_tl : forall a b, suffix a b -> suffix (tl a) b.
Proof. intros [|x a] b [pre ->]; [exists (pre ++ []); rewrite !app_nil_r; reflexivity|]. exists (pre ++ [x]). rewrite <- app_assoc. reflexivity. Qed.
Lemma last_in : forall (a : list N), a <> [] -> In (last a 0%N) a.
Proof.
  induction a as [|x a IH]; intros H; [congruence|]. destruct a as [|y a]; [left; reflexivity|].
  right. apply IH. discriminate.
Qed.

Lemma undupe_some : forall used l, l <> [] -> ~ In (last l 0%N) used -> exists l', undupe used l = Some l'.
Proof.
  intros used. induction l as [|x l IH]; intros Hne Hl; [congruence|]. cbn [undupe].
  destruct (existsb (N.eqb x) used) eqn:E; [|eauto].
  destruct l as [|y l].
  - exfalso. apply Hl. cbn [last]. apply existsb_exists in E as (z & Hz & Ez). apply N.eqb_eq in Ez. subst. exact Hz.
  - apply IH; [discriminate|exact Hl].
Qed.

Lemma heads_in : forall ch i x, i <= length ch -> In x (heads (firstn i ch)) ->
  exists j, j < i /\ x = hd 0%N (nth j ch []).
Proof.
  intros ch i x Hi Hx. unfold heads in Hx. apply in_map_iff in Hx as (l & <- & Hl).
  apply In_nth with (d := []) in Hl as (j & Hj & <-). rewrite firstn_length in Hj.
  exists j. split; [lia|]. rewrite nth_firstn_lt by lia. reflexivity.
Qed.

(** In a list of choices that satisfies [inv], choose succeeds and keeps it. *)
Lemma choose_inv : forall ci cands ch, inv ch -> settled ci ch -> nth_error L ci = Some cands ->
  exists x ch1, choose ci cands ch = Some (x, ch1) /\ inv ch1.
Proof.
  intros ci cands ch (Hlen & Hsuf & Hset) Hs HLi.
  assert (HciL : ci < length L) by (apply nth_error_Some; congruence).
  assert (HnL : nth ci L [] = cands) by (apply nth_error_nth; exact HLi).
  assert (Hcn : cands <> []) by (apply HL; eapply nth_error_In; exact HLi).
  pose proof Hs as (Hci & _ & _).
  unfold choose. destruct cands as [|c0 cands']; [congruence|]. set (cands := c0 :: cands') in *.
  set (ch1 := if ci =? length ch then ch ++ [cands] else ch).
  assert (Hci1 : ci < length ch1 /\ length ch1 <= length L /\
     (forall i, i < length ch1 -> nth i ch1 [] <> [] /\ suffix (nth i ch1 []) (nth i L []))).
  { unfold ch1. destruct (Nat.eqb_spec ci (length ch)) as [E|E].
    - rewrite app_length. cbn [length]. split; [lia|]. split; [lia|]. intros i Hi.
      destruct (Nat.eq_dec i (length ch)) as [->|Hne].
      + rewrite app_nth2, Nat.sub_diag by lia. cbn [nth]. rewrite <- E, HnL. split; [discriminate|exists []; reflexivity].
      + rewrite app_nth1 by lia. apply Hsuf. lia.
    - split; [lia|]. split; [lia|]. exact Hsuf. }
  destruct Hci1 as (Hci1 & Hlen1 & Hsuf1).
  assert (Hs1 : settled ci ch1).
  { unfold ch1. destruct (Nat.eqb_spec ci (length ch)) as [E|E]; [|exact Hs].
    eapply same_settled; [|exact Hs]. unfold same. rewrite E, firstn_app, Nat.sub_diag, firstn_all, app_nil_r. reflexivity. }
  assert (Hset1 : settled (pred (length ch1)) ch1).
  { unfold ch1 in *. destruct (Nat.eqb_spec ci (length ch)) as [E|E]; [|exact Hset].
    rewrite app_length in *. cbn [length] in *. replace (pred (length ch + 1)) with ci by lia. exact Hs1. }
  destruct (Hsuf1 ci Hci1) as [Hne Hsf].
  destruct (undupe_some (heads (firstn ci ch1)) (nth ci ch1 [])) as [l Hl].
  { exact Hne. }
  { intros Hin. rewrite (suffix_last _ _ Hne Hsf) in Hin.
    apply heads_in in Hin as (j & Hj & Hx); [|lia].
    destruct HL as [_ HL2]. apply (HL2 j ci); [lia|]. rewrite Hx.
    destruct (Hsuf1 j ltac:(lia)) as [Hnej Hsfj]. eapply suffix_in; [exact Hsfj|].
    destruct (nth j ch1 []); [congruence|left; reflexivity]. }
  rewrite Hl. exists (hd 0%N l), (set_nth ci l ch1). split; [reflexivity|].
  pose proof Hl as Hl0. apply undupe_spec in Hl as (Hln & Hlf & pre & Hpre & _).
  unfold inv. rewrite set_nth_length. split; [exact Hlen1|]. split.
  - intros i Hi. destruct (Nat.eq_dec i ci) as [->|Hd].
    + rewrite set_nth_same by lia. split; [exact Hln|]. destruct Hsf as [q Hq]. exists (q ++ pre).
      rewrite <- app_assoc, <- Hpre. exact Hq.
    + rewrite set_nth_other by lia. apply Hsuf1. exact Hi.
  - destruct (Nat.eq_dec ci (pred (length ch1))) as [E|E].
    + rewrite <- E. eapply same_settled; [|exact Hs1]. unfold same. rewrite set_nth_firstn. reflexivity.
    + assert (Hb : settled (S ci) ch1) by (eapply settled_le; [|exact Hset1]; lia).
      apply settled_S in Hb as (_ & _ & _ & Hf).
      assert (l = nth ci ch1 []) as ->.
      { rewrite undupe_fresh in Hl0 by assumption. congruence. }
      rewrite set_nth_self by lia. exact Hset1.
Qed.

(** ** The combination that works is still ahead *)
Variable v : list N.
Hypothesis HV : combination L v.

Definition pending (ch : choices) : Prop :=
  exists j, j <= length ch /\ agrees j v ch /\
    (j = length ch \/ (j < length ch /\ In (nth j v 0%N) (tl (nth j ch [])))).

Lemma in_hd_tl : forall (x : N) l, In x l -> x = hd 0%N l \/ In x (tl l).
Proof. intros x [|y l] H; [destruct H|]. destruct H as [H|H]; cbn; auto. Qed.

Lemma v_fresh : forall ci ch, ci <= length ch -> ci < length L -> agrees ci v ch ->
  ~ In (nth ci v 0%N) (heads (firstn ci ch)).
Proof.
  intros ci ch Hl HciL Ha Hin. apply heads_in in Hin as (j & Hj & Hx); [|exact Hl].
  rewrite <- (Ha j Hj) in Hx. destruct HV as (Hlv & Hnd & _).
  assert (ci = j); [|lia]. eapply NoDup_nth; [exact Hnd| | |exact Hx]; lia.
Qed.

Lemma undupe_keeps : forall used l l' x, undupe used l = Some l' -> In x l -> ~ In x used -> In x l'.
Proof.
  intros used l l' x H Hx Hn. apply undupe_spec in H as (_ & _ & pre & -> & Hp).
  apply in_app_or in Hx as [Hx|Hx]; [destruct (Hn (Hp x Hx))|exact Hx].
Qed.

Lemma choose_pending : forall ci cands ch x ch1, inv ch -> settled ci ch -> nth_error L ci = Some cands ->
  choose ci cands ch = Some (x, ch1) -> pending ch -> pending ch1.
Proof.
  intros ci cands ch x ch1 (Hlen & Hsuf & Hset) Hs HLi H (j & Hj & Ha & Hor).
  assert (HciL : ci < length L) by (apply nth_error_Some; congruence).
  assert (HnL : nth ci L [] = cands) by (apply nth_error_nth; exact HLi).
  pose proof Hs as (Hci & _ & _).
  assert (HvL : In (nth ci v 0%N) cands) by (rewrite <- HnL; apply HV; exact HciL).
  destruct (le_lt_dec (length ch) ci) as [Hend|Hin].
  - assert (ci = length ch) as Ec by lia. unfold choose in H.
    destruct cands as [|c0 cands']; [discriminate|]. set (cands := c0 :: cands') in *.
    rewrite (proj2 (Nat.eqb_eq ci (length ch)) Ec) in H.
    destruct (undupe (heads (firstn ci (ch ++ [cands]))) (nth ci (ch ++ [cands]) [])) as [l|] eqn:El; [|discriminate].
    assert (ch1 = set_nth ci l (ch ++ [cands])) as -> by congruence. clear H.
    assert (Hsame : forall i, i < ci -> nth i (set_nth ci l (ch ++ [cands])) [] = nth i ch []).
    { intros i Hi. rewrite set_nth_other, app_nth1 by lia. reflexivity. }
    assert (Hat : nth ci (set_nth ci l (ch ++ [cands])) [] = l).
    { apply set_nth_same. rewrite app_length. cbn [length]. lia. }
    assert (Hln : length (set_nth ci l (ch ++ [cands])) = S ci) by (rewrite set_nth_length, app_length; cbn [length]; lia).
    destruct Hor as [Ej|[Hlt Hintl]].
    + assert (Hl : In (nth ci v 0%N) l).
      { eapply undupe_keeps; [exact El| |].
        - rewrite app_nth2 by lia. replace (ci - length ch) with 0 by lia. exact HvL.
        - apply v_fresh; [rewrite app_length; cbn [length]; lia|exact HciL|].
          intros i Hi. rewrite app_nth1 by lia. apply Ha. lia. }
      apply in_hd_tl in Hl as [Hh|Ht].
      * exists (S ci). rewrite Hln. split; [lia|]. split; [|left; reflexivity].
        intros i Hi. destruct (Nat.eq_dec i ci) as [->|]; [rewrite Hat; exact Hh|].
        rewrite Hsame by lia. apply Ha. lia.
      * exists ci. rewrite Hln. split; [lia|]. split.
        -- intros i Hi. rewrite Hsame by lia. apply Ha. lia.
        -- right. split; [lia|]. rewrite Hat. exact Ht.
    + exists j. rewrite Hln. split; [lia|]. split.
      * intros i Hi. rewrite Hsame by lia. apply Ha. lia.
      * right. split; [lia|]. rewrite Hsame by lia. exact Hintl.
  - assert (Hcn : cands <> []) by (intros ->; discriminate).
    destruct (Nat.eq_dec ci (pred (length ch))) as [El|El].
    + (* the last entry *)
      unfold choose in H. destruct cands as [|c0 cands']; [congruence|]. set (cands := c0 :: cands') in *.
      rewrite (proj2 (Nat.eqb_neq ci (length ch))) in H by lia.
      destruct (undupe (heads (firstn ci ch)) (nth ci ch [])) as [l|] eqn:Eu; [|discriminate].
      assert (ch1 = set_nth ci l ch) as -> by congruence. clear H.
      assert (Hsame : forall i, i < ci -> nth i (set_nth ci l ch) [] = nth i ch []) by (intros i Hi; apply set_nth_other; lia).
      assert (Hat : nth ci (set_nth ci l ch) [] = l) by (apply set_nth_same; lia).
      assert (Hln : length (set_nth ci l ch) = S ci) by (rewrite set_nth_length; lia).
      assert (Hfin : In (nth ci v 0%N) l -> agrees ci v ch -> pending (set_nth ci l ch)).
      { intros Hl Hag. apply in_hd_tl in Hl as [Hh|Ht].
        - exists (S ci). rewrite Hln. split; [lia|]. split; [|left; reflexivity].
          intros i Hi. destruct (Nat.eq_dec i ci) as [->|]; [rewrite Hat; exact Hh|].
          rewrite Hsame by lia. apply Hag. lia.
        - exists ci. rewrite Hln. split; [lia|]. split.
          + intros i Hi. rewrite Hsame by lia. apply Hag. lia.
          + right. split; [lia|]. rewrite Hat. exact Ht. }
      destruct (Nat.lt_trichotomy j ci) as [Hjc|[Hjc|Hjc]].
      * exists j. rewrite Hln. split; [lia|]. split.
        -- intros i Hi. rewrite Hsame by lia. apply Ha. lia.
        -- right. split; [lia|]. rewrite Hsame by lia. destruct Hor as [?|[_ ?]]; [lia|assumption].
      * subst j. destruct Hor as [?|[_ Ht]]; [lia|]. apply Hfin; [|exact Ha].
        eapply undupe_keeps; [exact Eu| |apply v_fresh; [lia|exact HciL|exact Ha]].
        destruct (nth ci ch []); [destruct Ht|right; exact Ht].
      * assert (Hag : agrees ci v ch) by (intros i Hi; apply Ha; lia).
        apply Hfin; [|exact Hag].
        eapply undupe_keeps; [exact Eu| |apply v_fresh; [lia|exact HciL|exact Hag]].
        rewrite (Ha ci) by lia. destruct (Hsuf ci Hin) as [Hne _].
        destruct (nth ci ch []); [congruence|left; reflexivity].
    + rewrite choose_settled in H; [|exact Hcn|eapply settled_le; [|exact Hset]; lia].
      assert (ch1 = ch) as -> by congruence. exists j. auto.
Qed.

(** ** How much of the search is left *)
Fixpoint prod (l : list (list N)) : nat := match l with [] => 1 | x :: l' => length x * prod l' end.
Fixpoint meas (l : list (list N)) (ch : choices) : nat :=
  match ch, l with
  | [], _ => prod l
  | x :: ch', _ :: l' => (length x - 1) * prod l' + meas l' ch'
  | _ :: _, [] => 0
  end.

Lemma meas_snoc : forall l ch c, nth_error l (length ch) = Some c -> c <> [] -> meas l (ch ++ [c]) = meas l ch.
Proof.
  induction l as [|x l IH]; intros ch c H Hne.
  - destruct (length ch); discriminate.
  - destruct ch as [|y ch]; cbn [app meas prod length nth_error] in *.
    + assert (x = c) as -> by congruence. destruct c; [congruence|]. cbn [length]. rewrite Nat.sub_succ, Nat.sub_0_r. destruct l; cbn [meas prod]; nia.
    + rewrite IH by assumption. reflexivity.
Qed.

Lemma meas_set : forall l ch i c, i < length ch -> length c <= length (nth i ch []) ->
  meas l (set_nth i c ch) <= meas l ch.
Proof.
  induction l as [|x l IH]; intros ch i c Hi Hc.
  - destruct ch as [|y ch]; [cbn in Hi; lia|]. destruct i; cbn [set_nth meas]; apply Nat.le_refl.
  - destruct ch as [|y ch]; [cbn in Hi; lia|]. destruct i as [|i]; cbn [set_nth meas nth length] in *.
    + assert ((length c - 1) * prod l <= (length y - 1) * prod l); [|lia]. apply Nat.mul_le_mono_r. lia.
    + assert (meas l (set_nth i c ch) <= meas l ch); [|lia]. apply IH; [lia|exact Hc].
Qed.

Lemma choose_meas : forall ci cands ch x ch1, ci <= length ch -> nth_error L ci = Some cands ->
  choose ci cands ch = Some (x, ch1) -> meas L ch1 <= meas L ch.
Proof.
  intros ci cands ch x ch1 Hci HLi H. unfold choose in H.
  destruct cands as [|c0 cands']; [discriminate|]. set (cands := c0 :: cands') in *.
  destruct (Nat.eqb_spec ci (length ch)) as [E|E].
  - destruct (undupe (heads (firstn ci (ch ++ [cands]))) (nth ci (ch ++ [cands]) [])) as [l|] eqn:El; [|discriminate].
    assert (ch1 = set_nth ci l (ch ++ [cands])) as -> by congruence.
    apply undupe_spec in El as (_ & _ & pre & Hpre & _).
    rewrite <- (meas_snoc L ch cands) by (try discriminate; rewrite <- E; exact HLi).
    apply meas_set; [rewrite app_length; cbn [length]; lia|]. rewrite Hpre, app_length. lia.
  - destruct (undupe (heads (firstn ci ch)) (nth ci ch [])) as [l|] eqn:El; [|discriminate].
    assert (ch1 = set_nth ci l ch) as -> by congruence.
    apply undupe_spec in El as (_ & _ & pre & Hpre & _).
    apply meas_set; [lia|]. rewrite Hpre, app_length. lia.
Qed.

(** ** What one exploration does to all of these *)
Definition good (ch : choices) : Prop := inv ch /\ pending ch.

Lemma dfs_good : forall sp cs pc ci ch, offers L ci sp -> soft sp -> settled ci ch -> good ch ->
  good (dch (dfs s sp cs pc ci ch)) /\ meas L (dch (dfs s sp cs pc ci ch)) <= meas L ch /\
  forall b ch', dfs s sp cs pc ci ch = DExc b ch' ->
    b = false /\ (agrees (length ch') v ch' -> forall d cx ps c2, dfs s (resolve v ci sp) cs pc d cx <> DOk ps c2).
Proof.
  induction sp as [|b|c t IHt f IHf|c k IH|c k IH|cands k IH]; intros cs pc ci ch Ho Hsf Hs Hg;
    cbn [offers soft] in Ho, Hsf; cbn [dfs resolve].
  - split; [exact Hg|]. split; [cbn [dch]; lia|]. intros; discriminate.
  - split; [exact Hg|]. split; [cbn [dch]; lia|]. intros b' ch' H. assert (b' = false) by congruence.
    split; [assumption|]. intros _ d cx ps c2. discriminate.
  - destruct Ho as [Ho1 Ho2], Hsf as [Hf1 Hf2].
    destruct (outcomes s cs pc c) as [|b|].
    + destruct (IHt (c :: cs) (c :: pc) ci ch Ho1 Hf1 Hs Hg) as (G1 & M1 & E1).
      pose proof (dfs_same s t (c :: cs) (c :: pc) ci ch Hs) as Hsm.
      destruct (dfs s t (c :: cs) (c :: pc) ci ch) as [ps ch'|b ch'] eqn:Et; cbn [dch] in *.
      * assert (Hs' : settled ci ch') by (eapply same_settled; eassumption).
        destruct (IHf (BNot c :: cs) (BNot c :: pc) ci ch' Ho2 Hf2 Hs' G1) as (G2 & M2 & E2).
        destruct (dfs s f (BNot c :: cs) (BNot c :: pc) ci ch') as [qs ch''|b ch''] eqn:Ef; cbn [dch] in *.
        -- split; [exact G2|]. split; [lia|]. intros; discriminate.
        -- split; [exact G2|]. split; [lia|]. intros b0 ch0 H0.
           assert (b0 = b) as -> by congruence. assert (ch0 = ch'') as -> by congruence.
           destruct (E2 b ch'' eq_refl) as [-> K]. split; [reflexivity|]. intros Ha.
           intros d cx ps0 c2.
           destruct (dfs s (resolve v ci t) (c :: cs) (c :: pc) d cx) as [ps1 cx1|b1 cx1]; [|discriminate].
           specialize (K Ha d cx1). destruct (dfs s (resolve v ci f) (BNot c :: cs) (BNot c :: pc) d cx1) as [ps2 cx2|b2 cx2]; [|discriminate].
           destruct (K ps2 cx2 eq_refl).
      * split; [exact G1|]. split; [exact M1|]. intros b0 ch0 H0.
        assert (b0 = b) as -> by congruence. assert (ch0 = ch') as -> by congruence.
        destruct (E1 b ch' eq_refl) as [-> K]. split; [reflexivity|]. intros Ha.
        intros d cx ps0 c2. specialize (K Ha d cx).
        destruct (dfs s (resolve v ci t) (c :: cs) (c :: pc) d cx) as [ps1 cx1|b1 cx1]; [|discriminate].
        destruct (K ps1 cx1 eq_refl).
    + destruct b; auto.
    + split; [exact Hg|]. split; [cbn [dch]; lia|]. intros b ch' H. assert (b = false) by congruence.
      split; [assumption|]. intros _ d cx ps c2. discriminate.
  - auto.
  - destruct Hsf.
  - destruct Ho as [HLi Ho].
    destruct (choose_inv ci cands ch (proj1 Hg) Hs HLi) as (x & ch1 & E & Hi1). rewrite E.
    pose proof (choose_pending ci cands ch x ch1 (proj1 Hg) Hs HLi E (proj2 Hg)) as Hp1.
    pose proof (choose_meas ci cands ch x ch1 (proj1 Hs) HLi E) as Hm1.
    apply choose_ok in E as (_ & Hs1 & _ & Hx & _); [|exact Hs].
    destruct (IH x cs pc (S ci) ch1 (Ho x) (Hsf x) Hs1 (conj Hi1 Hp1)) as (G & M & K).
    split; [exact G|]. split; [lia|]. intros b ch' H.
    pose proof (dfs_same s (k x) cs pc (S ci) ch1 Hs1) as Hsm. rewrite H in Hsm. cbn [dch] in Hsm.
    destruct (K b ch' H) as [-> K']. split; [reflexivity|]. intros Ha. specialize (K' Ha).
    assert (nth ci v 0%N = x) as ->; [|exact K'].
    assert (Hl : S ci <= length ch') by (eapply same_length; [exact Hsm|apply Hs1]).
    rewrite (Ha ci) by lia. rewrite Hx. rewrite (same_nth (S ci) ch1 ch' ci Hsm) by lia. reflexivity.
Qed.

(** ** Moving on to the next combination *)
Fixpoint nextf (ch : choices) : option choices :=
  match ch with
  | [] => None
  | l :: ch' =>
      match nextf ch' with
      | Some c => Some (l :: c)
      | None => match tl l with [] => None | t => Some [t] end
      end
  end.

Lemma drop_single_app : forall a b, (forall l, In l a -> l <> []) ->
  drop_single (a ++ b) = match drop_single a with [] => drop_single b | l => l ++ b end.
Proof.
  induction a as [|l a IH]; intros b H; [reflexivity|].
  destruct l as [|x [|y l]]; [destruct (H [] (or_introl eq_refl) eq_refl)| |reflexivity].
  cbn [app drop_single]. apply IH. intros l' Hl. apply H. right. exact Hl.
Qed.

Lemma next_nextf : forall ch, (forall l, In l ch -> l <> []) -> next_choices ch = nextf ch.
Proof.
  unfold next_choices. induction ch as [|l ch IH]; intros H; [reflexivity|].
  cbn [rev nextf]. rewrite drop_single_app by (intros l' Hl; apply H; right; apply in_rev; exact Hl).
  rewrite <- IH by (intros l' Hl; apply H; right; exact Hl).
  destruct (drop_single (rev ch)) as [|m ms] eqn:E.
  - destruct l as [|x [|y l]]; [destruct (H [] (or_introl eq_refl) eq_refl)|reflexivity|reflexivity].
  - cbn [app rev]. rewrite rev_app_distr. reflexivity.
Qed.

Lemma nextf_some : forall ch ch', nextf ch = Some ch' ->
  exists q, q < length ch /\ ch' = firstn q ch ++ [tl (nth q ch [])] /\ tl (nth q ch []) <> [] /\
    forall i, q < i < length ch -> tl (nth i ch []) = [].
Proof.
  assert (N : forall ch, nextf ch = None -> forall i, i < length ch -> tl (nth i ch []) = []).
  { induction ch as [|l ch IH]; intros H i Hi; [cbn in Hi; lia|]. cbn [nextf] in H.
    destruct (nextf ch); [discriminate|]. destruct (tl l) eqn:E; [|discriminate].
    destruct i; [exact E|]. cbn [nth]. apply IH; [reflexivity|]. cbn [length] in Hi. lia. }
  induction ch as [|l ch IH]; intros ch' H; cbn [nextf] in H; [discriminate|].
  destruct (nextf ch) as [c|] eqn:E.
  - injection H as <-. destruct (IH c eq_refl) as (q & Hq & -> & Hne & Hr).
    exists (S q). cbn [length nth firstn app]. split; [lia|]. split; [reflexivity|]. split; [exact Hne|].
    intros [|i] Hi; [lia|]. apply Hr. lia.
  - destruct (tl l) as [|y t] eqn:Et; [discriminate|]. injection H as <-. exists 0. cbn [length nth firstn app].
    rewrite Et. split; [lia|]. split; [reflexivity|]. split; [discriminate|].
    intros [|i] Hi; [lia|]. apply N; [exact E|]. lia.
Qed.

Lemma nextf_none : forall ch, nextf ch = None -> forall i, i < length ch -> tl (nth i ch []) = [].
Proof.
  induction ch as [|l ch IH]; intros H i Hi; [cbn in Hi; lia|]. cbn [nextf] in H.
  destruct (nextf ch); [discriminate|]. destruct (tl l) eqn:E; [|discriminate].
  destruct i; [exact E|]. cbn [nth]. apply IH; [reflexivity|]. cbn [length] in Hi. lia.
Qed.

Lemma prod_pos : forall l : list (list N), (forall x, In x l -> x <> []) -> 1 <= prod l.
Proof.
  induction l as [|x l IH]; intros H; cbn [prod]; [lia|].
  assert (1 <= prod l) by (apply IH; intros; apply H; right; assumption).
  assert (x <> []) by (apply H; left; reflexivity). destruct x; [congruence|]. cbn [length]. nia.
Qed.

Lemma meas_pos : forall l ch, (forall x, In x l -> x <> []) -> length ch <= length l -> 1 <= meas l ch.
Proof.
  induction l as [|x l IH]; intros ch H Hl.
  - destruct ch; [cbn; lia|cbn in Hl; lia].
  - destruct ch as [|y ch]; [apply prod_pos; exact H|]. cbn [meas].
    assert (1 <= meas l ch); [|generalize ((length y - 1) * prod l); lia]. apply IH; [intros; apply H; right; assumption|cbn in Hl; lia].
Qed.

Lemma nextf_meas : forall l ch ch', (forall x, In x l -> x <> []) -> length ch <= length l ->
  nextf ch = Some ch' -> meas l ch' < meas l ch.
Proof.
  induction l as [|x l IH]; intros ch ch' H Hl Hn.
  - destruct ch; [discriminate|cbn in Hl; lia].
  - destruct ch as [|y ch]; [discriminate|]. cbn [nextf] in Hn. cbn [length] in Hl.
    assert (H' : forall z, In z l -> z <> []) by (intros; apply H; right; assumption).
    destruct (nextf ch) as [c|] eqn:E.
    + injection Hn as <-. cbn [meas]. apply IH in E; [generalize ((length y - 1) * prod l); lia|exact H'|lia].
    + destruct (tl y) as [|z t] eqn:Et; [discriminate|]. injection Hn as <-. cbn [meas].
      destruct y as [|y0 y]; [discriminate|]. cbn [tl] in Et. subst y. cbn [length].
      assert (Hp : 1 <= meas l ch) by (apply meas_pos; [exact H'|lia]).
      rewrite !Nat.sub_succ, Nat.sub_0_r. replace (meas l []) with (prod l) by (destruct l; reflexivity). nia.
Qed.

Lemma next_good : forall ch, good ch -> ~ agrees (length ch) v ch ->
  exists ch', next_choices ch = Some ch' /\ good ch' /\ meas L ch' < meas L ch.
Proof.
  intros ch [(Hlen & Hsuf & Hset) (j & Hj & Ha & Hor)] Hna.
  destruct Hor as [->|[Hjl Hin]]; [contradiction|].
  assert (Hne : forall l, In l ch -> l <> []).
  { intros l Hl. apply In_nth with (d := []) in Hl as (i & Hi & <-). apply Hsuf. exact Hi. }
  rewrite next_nextf by exact Hne.
  destruct (nextf ch) as [ch'|] eqn:E.
  2:{ rewrite (nextf_none ch E j Hjl) in Hin. destruct Hin. }
  exists ch'. split; [reflexivity|].
  pose proof (nextf_meas L ch ch' (proj1 HL) Hlen E) as Hm. split; [|exact Hm]. clear Hm.
  apply nextf_some in E as (q & Hq & -> & Hqne & Hr).
  assert (Hjq : j <= q).
  { destruct (le_lt_dec j q) as [|Hlt]; [assumption|]. rewrite Hr in Hin by lia. destruct Hin. }
  assert (Hfl : length (firstn q ch) = q) by (rewrite firstn_length; lia).
  assert (Hlt : forall i, i < q -> nth i (firstn q ch ++ [tl (nth q ch [])]) [] = nth i ch []).
  { intros i Hi. rewrite app_nth1 by lia. apply nth_firstn_lt. lia. }
  assert (Hat : nth q (firstn q ch ++ [tl (nth q ch [])]) [] = tl (nth q ch [])).
  { rewrite app_nth2 by lia. rewrite Hfl, Nat.sub_diag. reflexivity. }
  assert (Hln : length (firstn q ch ++ [tl (nth q ch [])]) = S q) by (rewrite app_length, Hfl; cbn [length]; lia).
  split.
  - unfold inv. rewrite Hln. split; [lia|]. split.
    + intros i Hi. destruct (Nat.eq_dec i q) as [->|].
      * rewrite Hat. split; [exact Hqne|]. apply suffix_tl. apply Hsuf. exact Hq.
      * rewrite Hlt by lia. apply Hsuf. lia.
    + cbn [pred]. eapply same_settled; [|eapply settled_le; [|exact Hset]; lia].
      unfold same. rewrite firstn_app, Hfl, Nat.sub_diag, firstn_firstn, Nat.min_id.
      cbn [firstn]. rewrite app_nil_r. reflexivity.
  - destruct (Nat.eq_dec j q) as [->|].
    + apply in_hd_tl in Hin as [Hh|Ht].
      * exists (S q). rewrite Hln. split; [lia|]. split; [|left; reflexivity].
        intros i Hi. destruct (Nat.eq_dec i q) as [->|]; [rewrite Hat; exact Hh|].
        rewrite Hlt by lia. apply Ha. lia.
      * exists q. rewrite Hln. split; [lia|]. split.
        -- intros i Hi. rewrite Hlt by lia. apply Ha. lia.
        -- right. split; [lia|]. rewrite Hat. exact Ht.
    + exists j. rewrite Hln. split; [lia|]. split.
      * intros i Hi. rewrite Hlt by lia. apply Ha. lia.
      * right. split; [lia|]. rewrite Hlt by lia. exact Hin.
Qed.

(** ** The whole search *)
Variable sd : list (list bexp * spec).
Hypothesis HO : forall cs sp, In (cs, sp) sd -> offers L 0 sp /\ soft sp.
(** With the choices fixed to [v], every state passes. *)
Hypothesis HW : forall cs sp, In (cs, sp) sd ->
  exists ps ch, dfs s (resolve v 0 sp) cs [] 0 [] = DOk ps ch.

Lemma dall_good : forall sd', incl sd' sd -> forall ch, good ch ->
  match dall s sd' ch with
  | APassed _ ch' => good ch' /\ meas L ch' <= meas L ch
  | ARaised b ch' => b = false /\ good ch' /\ meas L ch' <= meas L ch /\ ~ agrees (length ch') v ch'
  | AFuel => False
  end.
Proof.
  induction sd' as [|[cs sp] sd' IH]; intros Hincl ch Hg; cbn [dall]; [split; [exact Hg|lia]|].
  assert (Hin : In (cs, sp) sd) by (apply Hincl; left; reflexivity).
  destruct (HO cs sp Hin) as [Ho Hsf].
  destruct (dfs_good sp cs [] 0 ch Ho Hsf (settled_0 ch) Hg) as (G & M & K).
  destruct (dfs s sp cs [] 0 ch) as [ps ch'|b ch'] eqn:E; cbn [dch] in *.
  - specialize (IH (fun x Hx => Hincl x (or_intror Hx)) ch' G).
    destruct (dall s sd' ch') as [rs ch''|b ch''|].
    + destruct IH. split; [assumption|lia].
    + destruct IH as (I1 & I2 & I3 & I4). split; [exact I1|]. split; [exact I2|]. split; [lia|exact I4].
    + destruct IH.
  - destruct (K b ch' eq_refl) as [-> K']. split; [reflexivity|]. split; [exact G|]. split; [exact M|].
    intros Ha. destruct (HW cs sp Hin) as (ps & c2 & Hd). exact (K' Ha 0 [] ps c2 Hd).
Qed.

Lemma good_nil : good [].
Proof.
  split.
  - split; [cbn; lia|]. split; [cbn; intros; lia|]. apply settled_0.
  - exists 0. split; [cbn; lia|]. split; [intros i Hi; lia|left; reflexivity].
Qed.

Lemma search_complete_from : forall n ch, meas L ch < n -> good ch ->
  exists m, forall fuel pfuel, n <= fuel -> m <= pfuel -> exists chosen rs, symbex s fuel pfuel sd ch = Verified chosen rs.
Proof.
  induction n as [|n IH]; intros ch Hm Hg; [lia|].
  pose proof (dall_good sd (incl_refl sd) ch Hg) as D.
  destruct (dall_spec s sd ch) as [m Hs].
  destruct (dall s sd ch) as [rs ch'|b ch'|]; [| |destruct D].
  - exists m. intros [|fuel] pfuel Hf Hp; [lia|]. cbn [symbex]. destruct (Hs pfuel) as [Ha _].
    rewrite Ha by exact Hp. eauto.
  - destruct D as (-> & G & M & Hna). destruct (next_good ch' G Hna) as (ch'' & En & G' & M').
    destruct (IH ch'' ltac:(lia) G') as [m2 H2].
    exists (Nat.max m m2). intros [|fuel] pfuel Hf Hp; [lia|]. cbn [symbex]. destruct (Hs pfuel) as [Ha _].
    rewrite Ha by lia. rewrite En. apply H2; lia.
Qed.

Lemma search_never_fails : forall fuel pfuel ch, good ch -> symbex s fuel pfuel sd ch <> Failed.
Proof.
  induction fuel as [|fuel IH]; intros pfuel ch Hg; cbn [symbex]; [discriminate|].
  pose proof (dall_good sd (incl_refl sd) ch Hg) as D.
  destruct (dall_spec s sd ch) as [m Hs]. destruct (Hs pfuel) as [_ [-> | ->]]; [discriminate|].
  destruct (dall s sd ch) as [rs ch'|b ch'|]; [discriminate| |discriminate].
  destruct D as (-> & G & M & Hna). destruct (next_good ch' G Hna) as (ch'' & -> & G' & _). apply IH. exact G'.
Qed.

End Search.

(** The fixed choices pass: a semantic reading, for specifications that add no
    constraints of their own. *)
Fixpoint assumes_nothing (sp : spec) : Prop :=
  match sp with
  | SDone | SFail _ => True
  | SIf _ t f => assumes_nothing t /\ assumes_nothing f
  | SAssume _ _ => False
  | SMust _ k => assumes_nothing k
  | SChoose _ k => forall x, assumes_nothing (k x)
  end.

Lemma resolve_passes : forall s, solver_ok s -> forall v sp cs pc ci d ch, implied cs pc -> assumes_nothing sp ->
  (exists r, holds r cs) -> (forall r, holds r cs -> crun r v sp ci <> CFail) ->
  exists ps ch', dfs s (resolve v ci sp) cs pc d ch = DOk ps ch'.
Proof.
  intros s SOK v. induction sp as [|b|c t IHt f IHf|c k IH|c k IH|cands k IH];
    intros cs pc ci d ch Hi Han Hsat H; cbn [resolve dfs assumes_nothing crun] in *.
  - eauto.
  - destruct Hsat as [r Hr]. destruct (H r Hr eq_refl).
  - destruct Han as [A1 A2]. pose proof (outcomes_spec s SOK cs pc c Hi) as HO.
    destruct (outcomes s cs pc c) as [|b|].
    + destruct HO as [S1 S2].
      destruct (IHt (c :: cs) (c :: pc) ci d ch) as (ps1 & ch1 & E1);
        [apply implied_cons; exact Hi|exact A1|exact S1| |].
      { intros r Hr. apply holds_cons in Hr as [Hc Hr]. specialize (H r Hr). rewrite Hc in H. exact H. }
      rewrite E1.
      destruct (IHf (BNot c :: cs) (BNot c :: pc) ci d ch1) as (ps2 & ch2 & E2);
        [apply implied_cons; exact Hi|exact A2|exact S2| |].
      { intros r Hr. apply holds_cons in Hr as [Hc Hr]. specialize (H r Hr). rewrite eb_not in Hc.
        destruct (eb r c); [discriminate|exact H]. }
      rewrite E2. eauto.
    + assert (K : forall r, holds r cs -> crun r v (if b then t else f) ci <> CFail).
      { intros r Hr. specialize (H r Hr). rewrite (HO r Hr) in H. destruct b; exact H. }
      destruct b; [apply IHt|apply IHf]; assumption.
    + destruct Hsat as [r Hr]. destruct (HO r Hr).
  - destruct Han.
  - destruct (sat s (BNot c :: cs)) eqn:E.
    + exfalso. apply (sat_true s SOK) in E as [r Hr]. apply holds_cons in Hr as [Hc Hr].
      specialize (H r Hr). rewrite eb_not in Hc. destruct (eb r c); [discriminate|]. apply H. reflexivity.
    + apply IH; try assumption. intros r Hr. specialize (H r Hr). destruct (eb r c); [exact H|].
      destruct (H eq_refl).
  - apply IH; auto.
Qed.

Theorem search_complete : forall s L v sd, solver_ok s -> safe L -> combination L v ->
  (forall cs sp, In (cs, sp) sd -> offers L 0 sp /\ soft sp /\ assumes_nothing sp /\ exists r, holds r cs) ->
  (forall cs sp r, In (cs, sp) sd -> holds r cs -> crun r v sp 0 <> CFail) ->
  (forall fuel pfuel, symbex s fuel pfuel sd [] <> Failed) /\
  exists n m, forall fuel pfuel, n <= fuel -> m <= pfuel -> exists chosen rs, symbex s fuel pfuel sd [] = Verified chosen rs.
Proof.
  intros s L v sd SOK HL HV HO HW.
  assert (HO' : forall cs sp, In (cs, sp) sd -> offers L 0 sp /\ soft sp) by (intros cs sp Hin; destruct (HO cs sp Hin) as (? & ? & _); auto).
  assert (HW' : forall cs sp, In (cs, sp) sd -> exists ps ch, dfs s (resolve v 0 sp) cs [] 0 [] = DOk ps ch).
  { intros cs sp Hin. destruct (HO cs sp Hin) as (_ & _ & Han & Hsat). apply resolve_passes; try assumption.
    - intros r _. apply holds_nil.
    - intros r Hr. eapply HW; eassumption. }
  split.
  - intros fuel pfuel. eapply search_never_fails; try eassumption. apply good_nil.
  - destruct (search_complete_from s L HL v HV sd HO' HW' (S (meas L [])) [] ltac:(lia) (good_nil L v)) as [m Hm].
    eauto.
Qed.

(** ** The choices come from the lists offered, when every path offers the same *)
Definition ends (L : list (list N)) (ch : choices) : Prop :=
  length ch <= length L /\ forall i, i < length ch -> nth i ch [] <> [] /\ suffix (nth i ch []) (nth i L []).

Lemma choose_ends : forall L ci cands ch x ch1, ends L ch -> ci <= length ch -> nth_error L ci = Some cands ->
  choose ci cands ch = Some (x, ch1) -> ends L ch1.
Proof.
  intros L ci cands ch x ch1 [Hlen Hsuf] Hci HLi H.
  assert (HciL : ci < length L) by (apply nth_error_Some; congruence).
  assert (HnL : nth ci L [] = cands) by (apply nth_error_nth; exact HLi).
  unfold choose in H. destruct cands as [|c0 cands']; [discriminate|]. set (cands := c0 :: cands') in *.
  set (ch' := if ci =? length ch then ch ++ [cands] else ch) in H.
  assert (K : ci < length ch' /\ ends L ch').
  { unfold ch', ends. destruct (Nat.eqb_spec ci (length ch)) as [E|E].
    - rewrite app_length. cbn [length]. split; [lia|]. split; [lia|]. intros i Hi.
      destruct (Nat.eq_dec i (length ch)) as [->|Hne].
      + rewrite app_nth2, Nat.sub_diag by lia. cbn [nth]. rewrite <- E, HnL. split; [discriminate|exists []; reflexivity].
      + rewrite app_nth1 by lia. apply Hsuf. lia.
    - split; [lia|]. split; assumption. }
  clearbody ch'. destruct K as [Hl [Hlen' Hsuf']].
  destruct (undupe (heads (firstn ci ch')) (nth ci ch' [])) as [l|] eqn:Eu; [|discriminate].
  assert (ch1 = set_nth ci l ch') as -> by congruence.
  apply undupe_spec in Eu as (Hn & _ & pre & Hpre & _).
  split; [rewrite set_nth_length; exact Hlen'|]. rewrite set_nth_length. intros i Hi.
  destruct (Nat.eq_dec i ci) as [->|Hd].
  - rewrite set_nth_same by exact Hl. split; [exact Hn|]. destruct (Hsuf' ci Hl) as [_ [q Hq]].
    exists (q ++ pre). rewrite <- app_assoc, <- Hpre. exact Hq.
  - rewrite set_nth_other by lia. apply Hsuf'. exact Hi.
Qed.

Lemma dfs_ends : forall s L sp cs pc ci ch, offers L ci sp -> settled ci ch -> ends L ch ->
  ends L (dch (dfs s sp cs pc ci ch)).
Proof.
  intros s L. induction sp as [|b|c t IHt f IHf|c k IH|c k IH|cands k IH]; intros cs pc ci ch Ho Hs He; cbn [dfs offers] in *.
  - exact He.
  - exact He.
  - destruct Ho as [Ho1 Ho2]. destruct (outcomes s cs pc c) as [|b|].
    + pose proof (dfs_same s t (c :: cs) (c :: pc) ci ch Hs) as Hsm.
      specialize (IHt (c :: cs) (c :: pc) ci ch Ho1 Hs He).
      destruct (dfs s t (c :: cs) (c :: pc) ci ch) as [ps ch'|b ch']; cbn [dch] in *; [|exact IHt].
      assert (Hs' : settled ci ch') by (eapply same_settled; eassumption).
      specialize (IHf (BNot c :: cs) (BNot c :: pc) ci ch' Ho2 Hs' IHt).
      destruct (dfs s f (BNot c :: cs) (BNot c :: pc) ci ch') as [qs ch''|b ch'']; exact IHf.
    + destruct b; auto.
    + exact He.
  - auto.
  - destruct (sat s (BNot c :: cs)); [exact He|auto].
  - destruct Ho as [HLi Ho]. destruct (choose ci cands ch) as [[x ch1]|] eqn:E; [|exact He].
    pose proof (choose_ends L ci cands ch x ch1 He (proj1 Hs) HLi E) as He1.
    apply choose_ok in E as (_ & Hs1 & _); [|exact Hs]. apply IH; auto.
Qed.

Lemma next_ends : forall L ch ch', ends L ch -> next_choices ch = Some ch' -> ends L ch'.
Proof.
  intros L ch ch' [Hlen Hsuf] H.
  rewrite next_nextf in H.
  2:{ intros l Hl. apply In_nth with (d := []) in Hl as (i & Hi & <-). apply Hsuf. exact Hi. }
  apply nextf_some in H as (q & Hq & -> & Hqne & _).
  assert (Hfl : length (firstn q ch) = q) by (rewrite firstn_length; lia).
  split; [rewrite app_length, Hfl; cbn [length]; lia|]. rewrite app_length, Hfl. cbn [length]. intros i Hi.
  destruct (Nat.eq_dec i q) as [->|].
  - rewrite app_nth2 by lia. rewrite Hfl, Nat.sub_diag. cbn [nth]. split; [exact Hqne|]. apply suffix_tl. apply Hsuf. exact Hq.
  - rewrite app_nth1, nth_firstn_lt by lia. apply Hsuf. lia.
Qed.

Lemma dall_ends : forall s L sd ch, (forall cs sp, In (cs, sp) sd -> offers L 0 sp) -> ends L ch ->
  match dall s sd ch with APassed _ ch' => ends L ch' | ARaised _ ch' => ends L ch' | AFuel => True end.
Proof.
  intros s L. induction sd as [|[cs sp] sd IH]; intros ch Ho He; cbn [dall]; [exact He|].
  pose proof (dfs_ends s L sp cs [] 0 ch (Ho cs sp (or_introl eq_refl)) (settled_0 ch) He) as K.
  destruct (dfs s sp cs [] 0 ch) as [ps ch'|b ch']; cbn [dch] in K; [|exact K].
  specialize (IH ch' (fun cs sp H => Ho cs sp (or_intror H)) K).
  destruct (dall s sd ch'); exact IH.
Qed.

Lemma symbex_offered : forall s L sd, (forall cs sp, In (cs, sp) sd -> offers L 0 sp) ->
  forall fuel pfuel ch v rs, ends L ch -> symbex s fuel pfuel sd ch = Verified v rs ->
  length v <= length L /\ forall i, i < length v -> In (nth i v 0%N) (nth i L []).
Proof.
  intros s L sd Ho. induction fuel as [|fuel IH]; intros pfuel ch v rs He H; cbn [symbex] in H; [discriminate|].
  destruct (dall_spec s sd ch) as [n Hn]. destruct (Hn pfuel) as [_ [E|E]]; rewrite E in H; [discriminate|].
  pose proof (dall_ends s L sd ch Ho He) as K.
  destruct (dall s sd ch) as [rs' ch'|b ch'|] eqn:Ed; [|destruct b; [discriminate|]|discriminate].
  - injection H as <- <-. destruct K as [Kl Ks]. unfold heads at 1. rewrite map_length. split; [exact Kl|].
    intros i Hi. unfold heads in Hi. rewrite map_length in Hi. rewrite heads_nth.
    destruct (Ks i Hi) as [Hne Hsf]. eapply suffix_in; [exact Hsf|]. destruct (nth i ch' []); [congruence|left; reflexivity].
  - destruct (next_choices ch') as [ch''|] eqn:En; [|discriminate]. eapply IH; [|exact H]. eapply next_ends; eassumption.
Qed.

Lemma offers_honest : forall r v L, (forall i, i < length v -> In (nth i v 0%N) (nth i L [])) ->
  forall sp ci, offers L ci sp -> calls r v sp ci <= length v -> honest r v sp ci.
Proof.
  intros r v L Hv.
  assert (Hge : forall sp ci, ci <= calls r v sp ci).
  { induction sp as [|b|c t IHt f IHf|c k IH|c k IH|cands k IH]; intros ci; cbn [calls]; try lia.
    - destruct (eb r c); auto.
    - destruct (eb r c); auto.
    - destruct (eb r c); auto.
    - specialize (IH (nth ci v 0%N) (S ci)). lia. }
  induction sp as [|b|c t IHt f IHf|c k IH|c k IH|cands k IH]; intros ci Ho Hc; cbn [offers calls honest] in *; try exact I.
  - destruct Ho. destruct (eb r c); auto.
  - destruct (eb r c); auto.
  - destruct (eb r c); auto.
  - destruct Ho as [HLi Ho]. split.
    + assert (E : nth ci L [] = cands) by (apply nth_error_nth; exact HLi). rewrite <- E. apply Hv.
      specialize (Hge (k (nth ci v 0%N)) (S ci)). lia.
    + apply IH; auto.
Qed.

Lemma success_honest : forall s, solver_ok s -> forall L sd, (forall cs sp, In (cs, sp) sd -> offers L 0 sp) ->
  forall fuel pfuel v rs, symbex s fuel pfuel sd [] = Verified v rs ->
  forall cs sp r, In (cs, sp) sd -> holds r cs -> honest r v sp 0.
Proof.
  intros s SOK L sd Ho fuel pfuel v rs H cs sp r Hin Hr.
  pose proof (symbex_offered s L sd Ho fuel pfuel [] v rs) as K.
  assert (He : ends L []) by (split; [cbn; lia|cbn; intros; lia]). specialize (K He H) as [_ K].
  apply offers_honest with (L := L); [exact K|eapply Ho; exact Hin|].
  apply symbex_ok in H; [|exact SOK]. clear K Ho He.
  induction H as [|st ps sd rs (_ & H2 & _) _ IH]; [destruct Hin|].
  destruct Hin as [->|Hin]; [|auto]. apply (H2 r Hr).
Qed.
