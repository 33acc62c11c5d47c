(** * Facts about the symbolic execution of specifications

    Soundness (a success covers every execution), exactness of the explored paths, and
    the cases in which the search over choices is complete. *)

From Coq Require Import NArith List Bool Lia Arith.
From Verif Require Import Expr Solver Symbex.
Import ListNotations.
Open Scope nat_scope.

Definition agrees (n : nat) (v : list N) (ch : choices) : Prop :=
  forall i, i < n -> nth i v 0%N = hd 0%N (nth i ch []).

(** The choice index after a concrete run. *)
Fixpoint calls (r : env) (v : list N) (sp : spec) (ci : nat) : nat :=
  match sp with
  | SDone | SFail _ => ci
  | SIf c t f => if eb r c then calls r v t ci else calls r v f ci
  | SAssume c k => if eb r c then calls r v k ci else ci
  | SMust c k => if eb r c then calls r v k ci else ci
  | SChoose _ k => calls r v (k (nth ci v 0%N)) (S ci)
  end.

Lemma eb_not : forall r c, eb r (BNot c) = negb (eb r c).
Proof. reflexivity. Qed.

Section Facts.
Variable s : solver.
Hypothesis SOK : solver_ok s.

Definition implied (cs pc : list bexp) : Prop := forall r, holds r cs -> holds r pc.

Lemma implied_cons : forall c cs pc, implied cs pc -> implied (c :: cs) (c :: pc).
Proof. intros c cs pc H r Hr. apply holds_cons in Hr as [H1 H2]. apply holds_cons. split; auto. Qed.
Lemma implied_weaken : forall c cs pc, implied cs pc -> implied (c :: cs) pc.
Proof. intros c cs pc H r Hr. apply holds_cons in Hr as [H1 H2]. auto. Qed.

Lemma holds_query : forall r c cs pc, implied cs pc -> (holds r (c :: pc ++ cs) <-> eb r c = true /\ holds r cs).
Proof.
  intros r c cs pc H. rewrite holds_cons, holds_app. split; [tauto|]. intros [H1 H2]. auto.
Qed.

Lemma sat_true : forall cs, sat s cs = true -> exists r, holds r cs.
Proof. intros cs H. apply SOK. exact H. Qed.
Lemma sat_false : forall cs r, sat s cs = false -> ~ holds r cs.
Proof.
  intros cs r H K. assert (sat s cs = true) as E by (apply SOK; eauto). congruence.
Qed.

Lemma outcomes_spec : forall cs pc c, implied cs pc ->
  match outcomes s cs pc c with
  | TBoth => (exists r, holds r (c :: cs)) /\ (exists r, holds r (BNot c :: cs))
  | TOnly b => forall r, holds r cs -> eb r c = b
  | TNone => forall r, ~ holds r cs
  end.
Proof.
  intros cs pc c Hi.
  assert (G : match (match sat s (c :: pc ++ cs), sat s (BNot c :: pc ++ cs) with
         | true, true => TBoth | true, false => TOnly true | false, true => TOnly false | false, false => TNone end) with
  | TBoth => (exists r, holds r (c :: cs)) /\ (exists r, holds r (BNot c :: cs))
  | TOnly b => forall r, holds r cs -> eb r c = b
  | TNone => forall r, ~ holds r cs
  end).
  { destruct (sat s (c :: pc ++ cs)) eqn:E1, (sat s (BNot c :: pc ++ cs)) eqn:E2.
    - split.
      + apply sat_true in E1 as [r Hr]. exists r. apply holds_query in Hr; [|exact Hi]. apply holds_cons. exact Hr.
      + apply sat_true in E2 as [r Hr]. exists r. apply holds_query in Hr; [|exact Hi]. apply holds_cons. exact Hr.
    - intros r Hr. destruct (eb r c) eqn:E; [reflexivity|]. exfalso. apply (sat_false _ r E2).
      apply holds_query; [exact Hi|]. rewrite eb_not, E. auto.
    - intros r Hr. destruct (eb r c) eqn:E; [|reflexivity]. exfalso. apply (sat_false _ r E1).
      apply holds_query; [exact Hi|]. auto.
    - intros r Hr. destruct (eb r c) eqn:E.
      + apply (sat_false _ r E1). apply holds_query; [exact Hi|]. auto.
      + apply (sat_false _ r E2). apply holds_query; [exact Hi|]. rewrite eb_not, E. auto. }
  destruct c; try exact G; cbn [outcomes]; intros r _; reflexivity.
Qed.

(** ** Settled choices are kept *)
Lemma choose_keep : forall m ci cands ch x ch1, settled ci ch -> settled m ch ->
  choose ci cands ch = Some (x, ch1) -> same m ch ch1.
Proof.
  intros m ci cands ch x ch1 Hc Hm H.
  destruct (le_lt_dec m ci) as [L|L].
  - eapply same_le; [exact L|]. eapply choose_ok; eassumption.
  - assert (cands <> []) as Hne by (intros ->; discriminate).
    rewrite choose_settled in H; [|exact Hne|eapply settled_le; [|exact Hm]; lia].
    injection H as _ <-. reflexivity.
Qed.

Lemma dfs_keep : forall sp cs pc ci ch m, settled ci ch -> settled m ch ->
  same m ch (dch (dfs s sp cs pc ci ch)).
Proof.
  induction sp as [|b|c t IHt f IHf|c k IH|c k IH|cands k IH]; intros cs pc ci ch m Hs Hm; cbn [dfs].
  - reflexivity.
  - reflexivity.
  - destruct (outcomes s cs pc c) as [|b|].
    + pose proof (dfs_same s t (c :: cs) (c :: pc) ci ch Hs) as Hsm.
      specialize (IHt (c :: cs) (c :: pc) ci ch m Hs Hm).
      destruct (dfs s t (c :: cs) (c :: pc) ci ch) as [ps ch'|b ch'] eqn:E; [|exact IHt].
      cbn [dch] in IHt, Hsm.
      assert (Hs' : settled ci ch') by (eapply same_settled; eassumption).
      assert (Hm' : settled m ch') by (eapply same_settled; eassumption).
      specialize (IHf (BNot c :: cs) (BNot c :: pc) ci ch' m Hs' Hm').
      destruct (dfs s f (BNot c :: cs) (BNot c :: pc) ci ch') as [qs ch''|b ch'']; cbn [dch] in *; eapply same_trans; eassumption.
    + destruct b; auto.
    + reflexivity.
  - auto.
  - destruct (sat s (BNot c :: cs)); [reflexivity|auto].
  - destruct (choose ci cands ch) as [[x ch1]|] eqn:E; [|reflexivity].
    pose proof (choose_keep m ci cands ch x ch1 Hs Hm E) as K.
    apply choose_ok in E as (_ & H1 & _ & _ & _); [|exact Hs].
    eapply same_trans; [exact K|]. apply IH; [exact H1|eapply same_settled; eassumption].
Qed.

Lemma agrees_le : forall n m v ch, m <= n -> agrees n v ch -> agrees m v ch.
Proof. intros n m v ch L H i Hi. apply H. lia. Qed.
Lemma agrees_same : forall n v a b, same n a b -> agrees n v b -> agrees n v a.
Proof. intros n v a b S H i Hi. rewrite (same_nth n a b i S Hi). auto. Qed.

(** ** A success covers every assignment *)
Lemma dfs_ok : forall sp cs pc ci ch ps ch', implied cs pc -> settled ci ch ->
  dfs s sp cs pc ci ch = DOk ps ch' ->
  exists n, ci <= n /\ settled n ch' /\
    forall v, agrees n v ch' -> forall r, holds r cs ->
      crun r v sp ci <> CFail /\ calls r v sp ci <= n /\
      (crun r v sp ci = CDone -> exists p, In p ps /\ holds r (map lit p)).
Proof.
  induction sp as [|b|c t IHt f IHf|c k IH|c k IH|cands k IH]; intros cs pc ci ch ps ch' Hi Hs H; cbn [dfs] in H.
  - injection H as <- <-. exists ci. split; [lia|]. split; [exact Hs|]. intros v Hv r Hr. cbn [crun calls].
    split; [discriminate|]. split; [lia|]. intros _. exists []. split; [left; reflexivity|apply holds_nil].
  - discriminate.
  - pose proof (outcomes_spec cs pc c Hi) as HO. destruct (outcomes s cs pc c) as [|b|]; [| |discriminate].
    + pose proof (dfs_same s t (c :: cs) (c :: pc) ci ch Hs) as Hsm.
      destruct (dfs s t (c :: cs) (c :: pc) ci ch) as [ps1 ch1|b1 ch1] eqn:E1; [|discriminate]. cbn [dch] in Hsm.
      assert (Hs1 : settled ci ch1) by (eapply same_settled; eassumption).
      apply IHt in E1 as (n1 & Hn1 & Hset1 & G1); [|apply implied_cons; exact Hi|exact Hs].
      pose proof (dfs_keep f (BNot c :: cs) (BNot c :: pc) ci ch1 n1 Hs1 Hset1) as Hk.
      destruct (dfs s f (BNot c :: cs) (BNot c :: pc) ci ch1) as [ps2 ch2|b2 ch2] eqn:E2; [|discriminate]. cbn [dch] in Hk.
      apply IHf in E2 as (n2 & Hn2 & Hset2 & G2); [|apply implied_cons; exact Hi|exact Hs1].
      assert (ps = map (cons (c, true)) ps1 ++ map (cons (c, false)) ps2) as Hps by congruence.
      assert (ch' = ch2) as -> by congruence. clear H.
      assert (Hset1' : settled n1 ch2) by (eapply same_settled; eassumption).
      exists (Nat.max n1 n2). split; [lia|]. split.
      { destruct (Nat.max_spec n1 n2) as [[_ ->]|[_ ->]]; assumption. }
      intros v Hv r Hr. cbn [crun calls]. destruct (eb r c) eqn:Ec.
      * destruct (G1 v) with (r := r) as (A & B & C).
        { eapply agrees_same; [exact Hk|]. eapply agrees_le; [|exact Hv]. lia. }
        { apply holds_cons. auto. }
        split; [exact A|]. split; [lia|]. intros D. destruct (C D) as (p & Hp & Hh).
        exists ((c, true) :: p). split.
        { rewrite Hps. apply in_or_app. left. apply in_map. exact Hp. }
        cbn [map lit fst snd]. apply holds_cons. auto.
      * destruct (G2 v) with (r := r) as (A & B & C).
        { eapply agrees_le; [|exact Hv]. lia. }
        { apply holds_cons. rewrite eb_not, Ec. auto. }
        split; [exact A|]. split; [lia|]. intros D. destruct (C D) as (p & Hp & Hh).
        exists ((c, false) :: p). split.
        { rewrite Hps. apply in_or_app. right. apply in_map. exact Hp. }
        cbn [map lit fst snd]. apply holds_cons. rewrite eb_not, Ec. auto.
    + assert (K : exists n, ci <= n /\ settled n ch' /\
        forall v, agrees n v ch' -> forall r, holds r cs ->
        crun r v (if b then t else f) ci <> CFail /\ calls r v (if b then t else f) ci <= n /\
        (crun r v (if b then t else f) ci = CDone -> exists p, In p ps /\ holds r (map lit p))).
      { destruct b; [eapply IHt|eapply IHf]; eassumption. }
      destruct K as (n & Hn & Hset & G). exists n. split; [exact Hn|]. split; [exact Hset|].
      intros v Hv r Hr. specialize (G v Hv r Hr). cbn [crun calls]. rewrite (HO r Hr). destruct b; exact G.
  - apply IH in H as (n & Hn & Hset & G); [|apply implied_weaken; exact Hi|exact Hs].
    exists n. split; [exact Hn|]. split; [exact Hset|]. intros v Hv r Hr. cbn [crun calls].
    destruct (eb r c) eqn:Ec.
    + apply G; [exact Hv|apply holds_cons; auto].
    + split; [discriminate|]. split; [exact Hn|discriminate].
  - destruct (sat s (BNot c :: cs)) eqn:Es; [discriminate|].
    apply IH in H as (n & Hn & Hset & G); [|exact Hi|exact Hs].
    exists n. split; [exact Hn|]. split; [exact Hset|]. intros v Hv r Hr. cbn [crun calls].
    destruct (eb r c) eqn:Ec; [apply G; assumption|].
    exfalso. apply (sat_false _ r Es). apply holds_cons. rewrite eb_not, Ec. auto.
  - destruct (choose ci cands ch) as [[x ch1]|] eqn:E; [|discriminate].
    apply choose_ok in E as (_ & H1 & H2 & Hx & _); [|exact Hs].
    pose proof (dfs_same s (k x) cs pc (S ci) ch1 H1) as Hsm. rewrite H in Hsm. cbn [dch] in Hsm.
    apply IH in H as (n & Hn & Hset & G); [|exact Hi|exact H1].
    exists n. split; [lia|]. split; [exact Hset|]. intros v Hv r Hr. cbn [crun calls].
    assert (nth ci v 0%N = x) as ->.
    { rewrite Hv by lia. rewrite Hx. rewrite (same_nth (S ci) ch1 ch' ci Hsm) by lia. reflexivity. }
    apply G; assumption.
Qed.

(** ** The explored paths exclude each other and are feasible *)
Definition exclusive (p q : list bexp) : Prop := forall r, holds r p -> ~ holds r q.

Lemma fop_map : forall A B (f : A -> B) (P : B -> B -> Prop) l,
  ForallOrdPairs (fun x y => P (f x) (f y)) l -> ForallOrdPairs P (map f l).
Proof.
  induction 1 as [|x l Hx Hl IH]; cbn; [constructor|]. constructor; [|exact IH].
  rewrite Forall_map. exact Hx.
Qed.
Lemma fop_app : forall A (P : A -> A -> Prop) l m, ForallOrdPairs P l -> ForallOrdPairs P m ->
  (forall x y, In x l -> In y m -> P x y) -> ForallOrdPairs P (l ++ m).
Proof.
  induction 1 as [|x l Hx Hl IH]; cbn; intros Hm H; [exact Hm|]. constructor.
  - apply Forall_app. split; [exact Hx|]. apply Forall_forall. intros y Hy. apply H; auto.
  - apply IH; auto.
Qed.

Lemma dfs_exclusive : forall sp cs pc ci ch ps ch', dfs s sp cs pc ci ch = DOk ps ch' ->
  ForallOrdPairs exclusive (map (map lit) ps).
Proof.
  induction sp as [|b|c t IHt f IHf|c k IH|c k IH|cands k IH]; intros cs pc ci ch ps ch' H; cbn [dfs] in H.
  - injection H as <- _. constructor; constructor.
  - discriminate.
  - destruct (outcomes s cs pc c) as [|b|]; [| |discriminate].
    + destruct (dfs s t (c :: cs) (c :: pc) ci ch) as [ps1 ch1|b1 ch1] eqn:E1; [|discriminate].
      destruct (dfs s f (BNot c :: cs) (BNot c :: pc) ci ch1) as [ps2 ch2|b2 ch2] eqn:E2; [|discriminate].
      assert (ps = map (cons (c, true)) ps1 ++ map (cons (c, false)) ps2) as -> by congruence.
      apply IHt in E1. apply IHf in E2.
      rewrite map_app, !map_map. cbn [map lit fst snd].
      assert (L : forall d l, ForallOrdPairs exclusive (map (map lit) l) ->
         ForallOrdPairs exclusive (map (fun x => d :: map lit x) l)).
      { intros d l Hl. rewrite <- (map_map (map lit) (cons d)). apply fop_map.
        induction Hl as [|x m Hx Hm IHm]; constructor; [|exact IHm].
        eapply Forall_impl; [|exact Hx]. intros q Hq r Hr1 Hr2.
        apply holds_cons in Hr1 as [_ Hr1]. apply holds_cons in Hr2 as [_ Hr2]. exact (Hq r Hr1 Hr2). }
      apply fop_app; [exact (L c _ E1)|exact (L (BNot c) _ E2)|].
      intros x y Hx Hy r H1 H2. apply in_map_iff in Hx as (p & <- & _). apply in_map_iff in Hy as (q & <- & _).
      apply holds_cons in H1 as [H1 _]. apply holds_cons in H2 as [H2 _]. rewrite eb_not, H1 in H2. discriminate.
    + destruct b; eauto.
  - eauto.
  - destruct (sat s (BNot c :: cs)); [discriminate|eauto].
  - destruct (choose ci cands ch) as [[x ch1]|]; [eauto|discriminate].
Qed.

Lemma dfs_unsat : forall sp cs pc ci ch ps ch', implied cs pc -> (forall r, ~ holds r cs) ->
  dfs s sp cs pc ci ch = DOk ps ch' -> ps = [[]].
Proof.
  induction sp as [|b|c t IHt f IHf|c k IH|c k IH|cands k IH]; intros cs pc ci ch ps ch' Hi Hu H; cbn [dfs] in H.
  - congruence.
  - discriminate.
  - pose proof (outcomes_spec cs pc c Hi) as HO. destruct (outcomes s cs pc c) as [|b|]; [| |discriminate].
    + destruct HO as [[r Hr] _]. apply holds_cons in Hr as [_ Hr]. destruct (Hu r Hr).
    + destruct b; eauto.
  - eapply IH; [apply implied_weaken; exact Hi| |exact H]. intros r Hr. apply holds_cons in Hr as [_ Hr]. exact (Hu r Hr).
  - destruct (sat s (BNot c :: cs)); [discriminate|eauto].
  - destruct (choose ci cands ch) as [[x ch1]|]; [eauto|discriminate].
Qed.

Lemma dfs_feasible : forall sp cs pc ci ch ps ch', implied cs pc -> (exists r, holds r cs) ->
  dfs s sp cs pc ci ch = DOk ps ch' -> forall p, In p ps -> exists r, holds r cs /\ holds r (map lit p).
Proof.
  induction sp as [|b|c t IHt f IHf|c k IH|c k IH|cands k IH]; intros cs pc ci ch ps ch' Hi Hsat H p Hp; cbn [dfs] in H.
  - injection H as <- _. destruct Hp as [<-|[]]. destruct Hsat as [r Hr]. exists r. split; [exact Hr|apply holds_nil].
  - discriminate.
  - pose proof (outcomes_spec cs pc c Hi) as HO. destruct (outcomes s cs pc c) as [|b|]; [| |discriminate].
    + destruct HO as [HT HF].
      destruct (dfs s t (c :: cs) (c :: pc) ci ch) as [ps1 ch1|b1 ch1] eqn:E1; [|discriminate].
      destruct (dfs s f (BNot c :: cs) (BNot c :: pc) ci ch1) as [ps2 ch2|b2 ch2] eqn:E2; [|discriminate].
      assert (ps = map (cons (c, true)) ps1 ++ map (cons (c, false)) ps2) as -> by congruence.
      apply in_app_or in Hp as [Hp|Hp]; apply in_map_iff in Hp as (q & <- & Hq).
      * eapply IHt in E1 as (r & Hr & Hh); [|apply implied_cons; exact Hi|exact HT|exact Hq].
        apply holds_cons in Hr as [Hc Hr]. exists r. split; [exact Hr|]. cbn [map lit fst snd]. apply holds_cons. auto.
      * eapply IHf in E2 as (r & Hr & Hh); [|apply implied_cons; exact Hi|exact HF|exact Hq].
        apply holds_cons in Hr as [Hc Hr]. exists r. split; [exact Hr|]. cbn [map lit fst snd]. apply holds_cons. auto.
    + destruct b; eauto.
  - destruct (sat s (c :: cs)) eqn:E.
    + eapply IH in H as (r & Hr & Hh); [|apply implied_weaken; exact Hi|apply sat_true; exact E|exact Hp].
      apply holds_cons in Hr as [_ Hr]. eauto.
    + apply dfs_unsat in H; [|apply implied_weaken; exact Hi|intros r; apply sat_false; exact E].
      subst ps. destruct Hp as [<-|[]]. destruct Hsat as [r Hr]. exists r. split; [exact Hr|apply holds_nil].
  - destruct (sat s (BNot c :: cs)); [discriminate|eauto].
  - destruct (choose ci cands ch) as [[x ch1]|]; [eauto|discriminate].
Qed.

(** ** All the states *)
Fixpoint dall (sd : list (list bexp * spec)) (ch : choices) : pass :=
  match sd with
  | [] => APassed [] ch
  | (cs, sp) :: sd' =>
      match dfs s sp cs [] 0 ch with
      | DExc b ch' => ARaised b ch'
      | DOk ps ch' =>
          match dall sd' ch' with
          | APassed rs ch'' => APassed (map (map lit) ps :: rs) ch''
          | o => o
          end
      end
  end.

Lemma dall_spec : forall sd ch,
  exists n, forall fuel, (n <= fuel -> all_states s fuel sd ch = dall sd ch) /\
                         (all_states s fuel sd ch = AFuel \/ all_states s fuel sd ch = dall sd ch).
Proof.
  induction sd as [|[cs sp] sd IH]; intros ch.
  - exists 0. intros fuel. split; [reflexivity|right; reflexivity].
  - destruct (explore_dfs s sp cs ch) as [n1 H1]. cbn [all_states dall].
    destruct (dfs s sp cs [] 0 ch) as [ps ch'|b ch'] eqn:E.
    + destruct (IH ch') as [n2 H2]. exists (Nat.max n1 n2). intros fuel. destruct (H2 fuel) as [H2a H2b].
      rewrite H1. destruct (Nat.ltb_spec fuel n1) as [L|L].
      * split; [lia|left; reflexivity].
      * cbn [finish app]. split.
        -- intros Hf. rewrite H2a by lia. reflexivity.
        -- destruct H2b as [->| ->]; [left; reflexivity|right; reflexivity].
    + exists n1. intros fuel. rewrite H1. destruct (Nat.ltb_spec fuel n1) as [L|L].
      * split; [lia|left; reflexivity].
      * split; [reflexivity|right; reflexivity].
Qed.

Definition covered (v : list N) (st : list bexp * spec) (paths : list (list bexp)) : Prop :=
  (forall r, holds r (fst st) -> crun r v (snd st) 0 <> CFail) /\
  (forall r, holds r (fst st) -> calls r v (snd st) 0 <= length v /\ NoDup (firstn (calls r v (snd st) 0) v)) /\
  (forall r, holds r (fst st) -> crun r v (snd st) 0 = CDone -> exists p, In p paths /\ holds r p) /\
  ForallOrdPairs exclusive paths /\
  ((exists r, holds r (fst st)) -> forall p, In p paths -> exists r, holds r (fst st) /\ holds r p).

Definition pch (p : pass) (ch : choices) : choices :=
  match p with APassed _ c => c | ARaised _ c => c | AFuel => ch end.

Lemma dall_keep : forall sd ch m, settled m ch -> same m ch (pch (dall sd ch) ch).
Proof.
  induction sd as [|[cs sp] sd IH]; intros ch m Hm; cbn [dall]; [reflexivity|].
  pose proof (dfs_keep sp cs [] 0 ch m (settled_0 ch) Hm) as K.
  destruct (dfs s sp cs [] 0 ch) as [ps ch'|b ch']; cbn [dch] in K; [|exact K].
  assert (Hm' : settled m ch') by (eapply same_settled; eassumption).
  specialize (IH ch' m Hm'). destruct (dall sd ch') as [rs ch''|b ch''|]; cbn [pch] in *.
  - eapply same_trans; eassumption.
  - eapply same_trans; eassumption.
  - reflexivity.
Qed.

Lemma nodup_firstn_le : forall A n m (l : list A), n <= m -> NoDup (firstn m l) -> NoDup (firstn n l).
Proof.
  intros A n m l Hle H. rewrite <- (Nat.min_l n m) by assumption. rewrite <- firstn_firstn.
  remember (firstn m l) as l' eqn:E. clear E.
  revert n Hle. induction H as [|x l' Hx Hl IH]; intros n Hle; [rewrite firstn_nil; constructor|].
  destruct n; [constructor|]. cbn [firstn]. constructor; [|apply IH; lia].
  intros Hin. apply Hx. rewrite <- (firstn_skipn n l'). apply in_or_app. left. exact Hin.
Qed.

Lemma dall_ok : forall sd ch rs chF, dall sd ch = APassed rs chF ->
  Forall2 (covered (heads chF)) sd rs.
Proof.
  induction sd as [|[cs sp] sd IH]; intros ch rs chF H; cbn [dall] in H.
  - injection H as <- <-. constructor.
  - destruct (dfs s sp cs [] 0 ch) as [ps ch'|b ch'] eqn:E; [|discriminate].
    destruct (dall sd ch') as [rs' ch''|b ch''|] eqn:E2; [|discriminate|discriminate].
    assert (rs = map (map lit) ps :: rs') as -> by congruence. assert (chF = ch'') as -> by congruence. clear H.
    constructor; [|eapply IH; exact E2].
    assert (Hi : implied cs []) by (intros r _; apply holds_nil).
    pose proof (dfs_ok sp cs [] 0 ch ps ch' Hi (settled_0 ch) E) as (n & _ & Hset & G).
    pose proof (dall_keep sd ch' n Hset) as Hk. rewrite E2 in Hk. cbn [pch] in Hk.
    assert (Hset' : settled n ch'') by (eapply same_settled; eassumption).
    assert (Ha : agrees n (heads ch'') ch').
    { intros i Hi'. rewrite heads_nth. rewrite (same_nth _ _ _ i Hk Hi'). reflexivity. }
    unfold covered. cbn [fst snd]. split; [intros r Hr; apply (G _ Ha r Hr)|]. split.
    { intros r Hr. destruct (G _ Ha r Hr) as (_ & Hc & _).
      split; [replace (length (heads ch'')) with (length ch'') by (symmetry; apply map_length); destruct Hset' as [Hset' _]; lia|]. eapply nodup_firstn_le; [exact Hc|]. rewrite <- heads_firstn. apply Hset'. }
    split.
    { intros r Hr Hd. destruct (G _ Ha r Hr) as (_ & _ & C). destruct (C Hd) as (p & Hp & Hh).
      exists (map lit p). split; [apply in_map; exact Hp|exact Hh]. }
    split; [eapply dfs_exclusive; exact E|].
    intros Hsat p Hp. apply in_map_iff in Hp as (q & <- & Hq). eapply dfs_feasible; eassumption.
Qed.

Lemma symbex_ok : forall fuel pfuel sd ch v rs, symbex s fuel pfuel sd ch = Verified v rs ->
  Forall2 (covered v) sd rs.
Proof.
  induction fuel as [|fuel IH]; intros pfuel sd ch v rs H; cbn [symbex] in H; [discriminate|].
  destruct (dall_spec sd ch) as [n Hn]. destruct (Hn pfuel) as [_ [E|E]]; rewrite E in H; [discriminate|].
  destruct (dall sd ch) as [rs' ch'|b ch'|] eqn:Ed; [|destruct b; [discriminate|]|discriminate].
  - injection H as <- <-. eapply dall_ok; exact Ed.
  - destruct (next_choices ch') as [ch''|]; [|discriminate]. eapply IH; exact H.
Qed.

End Facts.

Lemma choice_free_crun : forall r v w sp i j, choice_free sp -> crun r v sp i = crun r w sp j.
Proof.
  intros r v w. induction sp as [|b|c t IHt f IHf|c k IH|c k IH|cands k IH]; intros i j H; cbn [choice_free crun] in *; try reflexivity.
  - destruct H as [H1 H2]. destruct (eb r c); auto.
  - destruct (eb r c); auto.
  - destruct (eb r c); auto.
  - destruct H.
Qed.

(** Every choice made along a run is one of the candidates offered there. *)
Fixpoint honest (r : env) (v : list N) (sp : spec) (ci : nat) : Prop :=
  match sp with
  | SDone | SFail _ => True
  | SIf c t f => if eb r c then honest r v t ci else honest r v f ci
  | SAssume c k => if eb r c then honest r v k ci else True
  | SMust c k => if eb r c then honest r v k ci else True
  | SChoose cands k => In (nth ci v 0%N) cands /\ honest r v (k (nth ci v 0%N)) (S ci)
  end.
