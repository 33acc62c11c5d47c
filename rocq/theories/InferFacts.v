(** * Facts about invariant inference *)

From Coq Require Import NArith List Bool Lia Arith.
From Verif Require Import Expr Solver Wt GhostMap GhostSpec GhostFacts GhostSim Infer.
Import ListNotations.
Open Scope N_scope.

(** ** Replacing *)

Definition fresh_names (v : list (N * N)) (b : list N) : Prop :=
  (forall x w, In (x, w) v -> 2 <= x) /\ (forall x, In x b -> 1 <= x).

Lemma fresh_app : forall v1 v2 b1 b2, fresh_names (v1 ++ v2) (b1 ++ b2) -> fresh_names v1 b1 /\ fresh_names v2 b2.
Proof.
  intros v1 v2 b1 b2 [A B]. repeat split; intros.
  - eapply A. apply in_or_app. eauto.
  - eapply B. apply in_or_app. eauto.
  - eapply A. apply in_or_app. eauto.
  - eapply B. apply in_or_app. eauto.
Qed.

Lemma repl_eval : forall r q vp old new,
  width new = width old -> ev (setKVP r q vp) new = ev r old ->
  (forall e, nolkv e = true -> fresh_names (vvars e) (vbools e) ->
     width (replv old new e) = width e /\ ev (setKVP r q vp) (replv old new e) = ev r e) /\
  (forall e, nolkb e = true -> fresh_names (bvvars e) (bbools e) ->
     eb (setKVP r q vp) (replb old new e) = eb r e).
Proof.
  intros r q vp old new W V. apply expr_mind; intros; cbn [replv replb nolkv nolkb vvars bvvars vbools bbools] in *;
  try discriminate;
  repeat match goal with
  | H : _ && _ = true |- _ => apply andb_prop in H; destruct H
  | H : fresh_names (_ ++ _) (_ ++ _) |- _ => apply fresh_app in H; destruct H
  end;
  repeat match goal with
  | IH : ?a = true -> ?b -> _, H : ?a = true, F : ?b |- _ => specialize (IH H F); clear H F
  | IH : _ /\ _ |- _ => destruct IH
  end;
  try match goal with |- context [bv_eqb ?a ?b] =>
    destruct (bv_eqb a b) eqn:EQ; [apply bv_eqb_eq in EQ; subst old; split; [exact W|rewrite V; reflexivity]|clear EQ] end;
  cbn [width evalv evalb];
  repeat match goal with
  | H : width (replv _ _ _) = _ |- _ => rewrite H; clear H
  | H : ev _ (replv _ _ _) = _ |- _ => rewrite H; clear H
  | H : eb _ (replb _ _ _) = _ |- _ => rewrite H; clear H
  end; try split; try reflexivity; cbn [setKVP ebv ebool];
  match goal with H : fresh_names _ _ |- _ => destruct H as [Fv Fb] end.
  - pose proof (Fv _ _ (or_introl eq_refl)).
    match goal with H : 2 <= ?x |- _ => destruct (N.eqb_spec x 0) as [->|]; [lia|]; destruct (N.eqb_spec x 1) as [->|]; [lia|reflexivity] end.
  - pose proof (Fb _ (or_introl eq_refl)). match goal with H : 1 <= ?x |- _ => destruct (N.eqb_spec x 0) as [->|]; [lia|reflexivity] end.
Qed.

(** Nothing but KEY, VALUE and PRESENT differs. *)
Lemma clean_setKVP : forall r q vp e, cleanb e -> eb (setKVP r q vp) e = eb r e.
Proof.
  intros r q vp e [NL F]. rewrite <- (proj2 (repl_eval r q vp (BVV 0 0) (BVV 0 0) eq_refl eq_refl) e NL F).
  f_equal. clear. revert e.
  assert (X : (forall e, replv (BVV 0 0) (BVV 0 0) e = e) /\ (forall e, replb (BVV 0 0) (BVV 0 0) e = e)).
  { apply expr_mind; intros; cbn [replv replb];
    try match goal with |- context [bv_eqb ?a ?b] => destruct (bv_eqb a b) eqn:EQ; [apply bv_eqb_eq in EQ; auto|clear EQ] end;
    congruence. }
  intros e. symmetry. apply X.
Qed.

Section Facts.
Variable s : solver.
Hypothesis SOK : solver_ok s.
Variable k : claripy.
Variable fuel : nat.

(** What find_constraints returns holds of the replaced term. *)
Lemma find_constraints_hold : forall cs e repl anc l r q vp,
  find_constraints s cs e repl anc = Ok l ->
  width repl = width e -> ev (setKVP r q vp) repl = ev r e ->
  (forall c, In c cs -> cleanb c) -> holds r cs ->
  forall c, In c l -> eb (setKVP r q vp) c = true.
Proof.
  intros cs e repl anc l r q vp H W V CL HR c Hin. unfold find_constraints in H.
  pose proof (get_if_constant_spec s SOK cs e) as G.
  destruct (get_if_constant s cs e) as [[v|]| |]; cbn [bindr] in H; try discriminate.
  - injection H as <-. destruct Hin as [<-|[]]. cbn [evalb evalv]. rewrite V. destruct G as [_ G].
    rewrite (G r HR). apply N.eqb_eq. rewrite wrap_small; [reflexivity|].
    rewrite <- (G r HR), W. apply evalv_lt.
  - injection H as <-. apply in_app_iff in Hin as [Hin|Hin].
    + apply in_map_iff in Hin as [c0 [<- Hin]]. apply filter_In in Hin as [Hin _].
      destruct (CL c0 Hin) as [NL F]. rewrite (proj2 (repl_eval r q vp e repl W V) c0 NL F). apply HR. exact Hin.
    + destruct e; try destruct Hin. destruct (bv_eqb e1 (BVV (width e1) 0)) eqn:EQ; [|destruct Hin].
      apply bv_eqb_eq in EQ. destruct Hin as [<-|[]]. cbn [evalb evalv]. rewrite V. cbn [evalv width].
      assert (E0 : ev r e1 = 0).
      { rewrite EQ. cbn [evalv]. apply wrap_small. apply N.neq_0_lt_0. apply N.pow_nonzero. discriminate. }
      rewrite E0. rewrite N.mul_0_l, N.add_0_l. apply N.eqb_eq.
      pose proof (evalv_lt lk0 r e2) as L2.
      replace (width e1 + width e2 - width e1) with (width e2) by lia.
      rewrite N.div_small by exact L2.
      unfold wrap. rewrite !N.mod_0_l by (apply N.pow_nonzero; discriminate). reflexivity.
Qed.

Lemma flatten_item_grows : forall ks vs anc st e i ch e' st',
  flatten_item s k fuel ks vs anc st e i = Ok (ch, e', st') ->
  (forall lk r, evalb lk r e = true -> evalb lk r e' = true) /\ (ch = false -> e' = e).
Proof.
  intros * H. unfold flatten_item in H.
  destruct (inv_call s k fuel st ks vs (freezeb st e) i BTrue) as [[st1 c]| |]; cbn [bindr] in H; try discriminate.
  destruct (can_be_false s (gcs st1) (BImp (ip i) c)).
  - destruct (find_constraints s (gcs st1) (ik i) (KEY ks) anc); cbn [bindr] in H; try discriminate.
    destruct (find_constraints s (gcs st1) (iv i) (VALUE vs) anc); cbn [bindr] in H; try discriminate.
    injection H as <- <- <-. split; [|discriminate]. intros lk r E. cbn [evalb]. rewrite E. reflexivity.
  - injection H as <- <- <-. auto.
Qed.
Lemma flatten_state_grows : forall ks vs anc items st e ch e' st',
  flatten_state s k fuel ks vs anc st e items = Ok (ch, e', st') ->
  (forall lk r, evalb lk r e = true -> evalb lk r e' = true) /\ (ch = false -> e' = e).
Proof.
  induction items as [|i items IH]; intros * H; cbn [flatten_state] in H.
  - injection H as <- <- <-. auto.
  - destruct (flatten_item s k fuel ks vs anc st e i) as [[[c1 e1] st1]| |] eqn:E1; cbn [bindr] in H; try discriminate.
    destruct (flatten_state s k fuel ks vs anc st1 e1 items) as [[[c2 e2] st2]| |] eqn:E2; cbn [bindr] in H; try discriminate.
    injection H as <- <- <-. apply flatten_item_grows in E1 as [A1 B1]. apply IH in E2 as [A2 B2].
    split; [auto|]. intros F. apply orb_false_iff in F as [-> ->]. rewrite B2, B1; auto.
Qed.
Lemma flatten_conj_grows : forall m anc states e ch e' states',
  flatten_conj s k fuel m anc states e = Ok (ch, e', states') ->
  (forall lk r, evalb lk r e = true -> evalb lk r e' = true) /\ (ch = false -> e' = e).
Proof.
  induction states as [|st states IH]; intros * H; cbn [flatten_conj] in H.
  - injection H as <- <- <-. auto.
  - destruct (gmaps st m) as [g|]; [|discriminate].
    destruct (flatten_state s k fuel (gks g) (gvs g) anc st e (set_items g)) as [[[c1 e1] st1]| |] eqn:E1; cbn [bindr] in H; try discriminate.
    destruct (flatten_conj s k fuel m anc states e1) as [[[c2 e2] st2]| |] eqn:E2; cbn [bindr] in H; try discriminate.
    injection H as <- <- <-. apply flatten_state_grows in E1 as [A1 B1]. apply IH in E2 as [A2 B2].
    split; [auto|]. intros F. apply orb_false_iff in F as [-> ->]. rewrite B2, B1; auto.
Qed.
Lemma flatten_items_grows : forall m anc conjs states ch es states',
  flatten_items s k fuel m anc states conjs = Ok (ch, es, states') ->
  Forall2 (fun e e' => forall lk r, evalb lk r e = true -> evalb lk r e' = true) conjs es /\ (ch = false -> es = conjs).
Proof.
  induction conjs as [|e conjs IH]; intros * H; cbn [flatten_items] in H.
  - injection H as <- <- <-. auto.
  - destruct (flatten_conj s k fuel m anc states e) as [[[c1 e1] st1]| |] eqn:E1; cbn [bindr] in H; try discriminate.
    destruct (flatten_items s k fuel m anc st1 conjs) as [[[c2 e2] st2]| |] eqn:E2; cbn [bindr] in H; try discriminate.
    injection H as <- <- <-. apply flatten_conj_grows in E1 as [A1 B1]. apply IH in E2 as [A2 B2].
    split; [constructor; auto|]. intros F. apply orb_false_iff in F as [-> ->]. rewrite B2, B1; auto.
Qed.

(** The widened invariant holds of the item that violated the old one, whatever the
    lookups in the old one mean. *)
Lemma nolk_any : forall lk r,
  (forall e, nolkv e = true -> evalv lk r e = ev r e) /\ (forall e, nolkb e = true -> evalb lk r e = eb r e).
Proof.
  intros lk r. apply expr_mind; intros; cbn [nolkv nolkb] in *; try discriminate;
  repeat match goal with H : _ && _ = true |- _ => apply andb_prop in H; destruct H end;
  cbn [evalv evalb];
  repeat match goal with IH : ?a = true -> _, H : ?a = true |- _ => rewrite (IH H); clear IH end; reflexivity.
Qed.

Lemma repl_nolk : forall old new, nolkv new = true ->
  (forall e, nolkv e = true -> nolkv (replv old new e) = true) /\ (forall e, nolkb e = true -> nolkb (replb old new e) = true).
Proof.
  intros old new NN. apply expr_mind; intros; cbn [replv replb nolkv nolkb] in *; try discriminate;
  repeat match goal with H : _ && _ = true |- _ => apply andb_prop in H; destruct H end;
  try match goal with |- context [bv_eqb ?a ?b] => destruct (bv_eqb a b); [exact NN|] end;
  cbn [nolkv nolkb]; repeat (apply andb_true_intro; split); auto.
Qed.

Lemma find_constraints_nolk : forall cs e repl anc l,
  find_constraints s cs e repl anc = Ok l -> nolkv repl = true -> (forall c, In c cs -> nolkb c = true) ->
  forall c, In c l -> nolkb c = true.
Proof.
  intros * H NR NC c Hin. unfold find_constraints in H.
  destruct (get_if_constant s cs e) as [[v|]| |]; cbn [bindr] in H; try discriminate.
  - injection H as <-. destruct Hin as [<-|[]]. cbn [nolkb nolkv]. rewrite NR. reflexivity.
  - injection H as <-. apply in_app_iff in Hin as [Hin|Hin].
    + apply in_map_iff in Hin as [c0 [<- Hin]]. apply filter_In in Hin as [Hin _].
      apply repl_nolk; auto.
    + destruct e; try destruct Hin. destruct (bv_eqb e1 (BVV (width e1) 0)); [|destruct Hin].
      destruct Hin as [<-|[]]. cbn [nolkb nolkv]. rewrite NR. reflexivity.
Qed.

Lemma setKVP_key : forall r q vp ks e, width e = ks -> q = ev r e -> ev (setKVP r q vp) (KEY ks) = ev r e.
Proof.
  intros * W ->. unfold KEY. cbn [evalv setKVP ebv]. cbn. apply wrap_small. rewrite <- W. apply evalv_lt.
Qed.
Lemma setKVP_value : forall r q vp vs e, width e = vs -> fst vp = ev r e -> ev (setKVP r q vp) (VALUE vs) = ev r e.
Proof.
  intros * W E. unfold VALUE. cbn [evalv setKVP ebv]. cbn. rewrite E. apply wrap_small. rewrite <- W. apply evalv_lt.
Qed.

Lemma added_holds : forall ks vs anc cs i a b r,
  find_constraints s cs (ik i) (KEY ks) anc = Ok a -> find_constraints s cs (iv i) (VALUE vs) anc = Ok b ->
  sized ks vs i -> (forall c, In c cs -> cleanb c) -> holds r cs ->
  forall lk, evalb lk (setKVP r (ev r (ik i)) (val r i)) (BAndL (a ++ b)) = true.
Proof.
  intros * A B [Wk Wv] CL HR lk. apply BAndL_true. intros c Hin.
  assert (NC : forall c, In c cs -> nolkb c = true) by (intros c0 H0; apply (CL c0 H0)).
  apply in_app_iff in Hin as [Hin|Hin].
  - rewrite (proj2 (nolk_any lk _) c (find_constraints_nolk _ _ _ _ _ A eq_refl NC c Hin)).
    eapply (find_constraints_hold _ _ _ _ _ _ _ _ A); eauto. apply setKVP_key; auto.
  - rewrite (proj2 (nolk_any lk _) c (find_constraints_nolk _ _ _ _ _ B eq_refl NC c Hin)).
    eapply (find_constraints_hold _ _ _ _ _ _ _ _ B); eauto. apply setKVP_value; auto.
Qed.

Lemma flatten_item_covers : forall ks vs anc st e i e' st' r,
  flatten_item s k fuel ks vs anc st e i = Ok (true, e', st') ->
  sized ks vs i -> (forall c, In c (gcs st') -> cleanb c) -> holds r (gcs st') ->
  forall lk, evalb lk (setKVP r (ev r (ik i)) (val r i)) e' = true.
Proof.
  intros * H SZ CL HR lk. unfold flatten_item in H.
  destruct (inv_call s k fuel st ks vs (freezeb st e) i BTrue) as [[st1 c]| |]; cbn [bindr] in H; try discriminate.
  destruct (can_be_false s (gcs st1) (BImp (ip i) c)).
  - destruct (find_constraints s (gcs st1) (ik i) (KEY ks) anc) eqn:A; cbn [bindr] in H; try discriminate.
    destruct (find_constraints s (gcs st1) (iv i) (VALUE vs) anc) eqn:B; cbn [bindr] in H; try discriminate.
    injection H as <- <-. cbn [evalb]. rewrite (added_holds _ _ _ _ _ _ _ _ A B SZ CL HR lk). apply orb_true_r.
  - discriminate.
Qed.

(** ** Invariants without lookups *)

Definition plain (ks vs : N) (e : bexp) : Prop := nolkb e = true /\ kv_sized ks vs e = true.

Lemma kv_sized_app : forall ks vs a b,
  kv_sized ks vs (BAnd a b) = kv_sized ks vs a && kv_sized ks vs b.
Proof. intros. unfold kv_sized. cbn [bvvars]. apply forallb_app. Qed.

Definition kvl ks vs (l : list (N * N)) : bool :=
  forallb (fun p => if fst p =? 0 then snd p =? ks else if fst p =? 1 then snd p =? vs else true) l.

Lemma repl_kv : forall ks vs old new, kvl ks vs (vvars new) = true ->
  (forall e, nolkv e = true -> kvl ks vs (vvars e) = true -> kvl ks vs (vvars (replv old new e)) = true) /\
  (forall e, nolkb e = true -> kvl ks vs (bvvars e) = true -> kvl ks vs (bvvars (replb old new e)) = true).
Proof.
  intros ks vs old new NN. apply expr_mind; intros; cbn [replv replb nolkv nolkb vvars bvvars] in *; try discriminate;
  unfold kvl in *;
  rewrite ?forallb_app in *;
  repeat match goal with H : _ && _ = true |- _ => apply andb_prop in H; destruct H end;
  try match goal with |- context [bv_eqb ?a ?b] => destruct (bv_eqb a b); [exact NN|] end;
  cbn [vvars bvvars]; rewrite ?forallb_app; try assumption; repeat (apply andb_true_intro; split); auto.
Qed.

Lemma clean_kv : forall ks vs e, cleanb e -> kvl ks vs (bvvars e) = true.
Proof.
  intros ks vs e [_ [F _]]. apply forallb_forall. intros [x w] Hin. specialize (F _ _ Hin). cbn [fst snd].
  destruct (N.eqb_spec x 0); [lia|]. destruct (N.eqb_spec x 1); [lia|reflexivity].
Qed.

Lemma find_constraints_kv : forall ks vs cs e repl anc l,
  find_constraints s cs e repl anc = Ok l -> kvl ks vs (vvars repl) = true -> (forall c, In c cs -> cleanb c) ->
  forall c, In c l -> kvl ks vs (bvvars c) = true.
Proof.
  intros * H NR NC c Hin. unfold find_constraints in H.
  destruct (get_if_constant s cs e) as [[v|]| |]; cbn [bindr] in H; try discriminate.
  - injection H as <-. destruct Hin as [<-|[]]. cbn [bvvars vvars]. rewrite app_nil_r. exact NR.
  - injection H as <-. apply in_app_iff in Hin as [Hin|Hin].
    + apply in_map_iff in Hin as [c0 [<- Hin]]. apply filter_In in Hin as [Hin _].
      apply repl_kv; auto. apply (NC c0 Hin). apply clean_kv; auto.
    + destruct e; try destruct Hin. destruct (bv_eqb e1 (BVV (width e1) 0)); [|destruct Hin].
      destruct Hin as [<-|[]]. cbn [bvvars vvars]. rewrite app_nil_r. exact NR.
Qed.

Lemma plain_or : forall ks vs e l, plain ks vs e ->
  (forall c, In c l -> nolkb c = true /\ kvl ks vs (bvvars c) = true) -> plain ks vs (BOr e (BAndL l)).
Proof.
  intros ks vs e l [A B] H.
  assert (X : nolkb (BAndL l) = true /\ kvl ks vs (bvvars (BAndL l)) = true).
  { induction l as [|c l IH]; cbn; [auto|]. destruct (H c (or_introl eq_refl)) as [H1 H2].
    destruct IH as [I1 I2]; [intros; apply H; right; auto|].
    cbn [nolkb bvvars]. unfold kvl in *. rewrite forallb_app, H1, H2. cbn. auto. }
  destruct X as [X Y]. split; cbn [nolkb]; [rewrite A, X; reflexivity|].
  unfold kv_sized in *. cbn [bvvars]. unfold kvl in Y. rewrite forallb_app, B, Y. reflexivity.
Qed.

Lemma inv_call_plain : forall st ks vs e i, plain ks vs e ->
  inv_call s k fuel st ks vs (freezeb st e) i BTrue = Ok (st, substb (item_subst ks vs i) e).
Proof.
  intros * [NL _]. unfold inv_call. rewrite (proj2 (freeze_plain st) e NL). apply emb_plain. exact NL.
Qed.

Definition clean_state (st : gst) : Prop := forall c, In c (gcs st) -> cleanb c.

Lemma flatten_item_plain : forall ks vs anc st e i ch e' st',
  flatten_item s k fuel ks vs anc st e i = Ok (ch, e', st') ->
  plain ks vs e -> sized ks vs i -> clean_state st ->
  st' = st /\ plain ks vs e' /\
  forall r, holds r (gcs st) -> eb r (ip i) = true -> eb (setKVP r (ev r (ik i)) (val r i)) e' = true.
Proof.
  intros * H PL SZ CL. pose proof (flatten_item_covers ks vs anc st e i e' st') as COV.
  pose proof H as H0. unfold flatten_item in H. rewrite inv_call_plain in H by exact PL. cbn [bindr] in H.
  destruct (can_be_false s (gcs st) (BImp (ip i) (substb (item_subst ks vs i) e))) eqn:CB.
  - destruct (find_constraints s (gcs st) (ik i) (KEY ks) anc) eqn:A; cbn [bindr] in H; try discriminate.
    destruct (find_constraints s (gcs st) (iv i) (VALUE vs) anc) eqn:B; cbn [bindr] in H; try discriminate.
    injection H as <- <- <-. split; [reflexivity|]. split.
    + apply plain_or; [exact PL|]. intros c Hc.
      assert (NC : forall c, In c (gcs st) -> nolkb c = true) by (intros c0 Hc0; apply (CL c0 Hc0)).
      apply in_app_iff in Hc as [Hc|Hc].
      * split; [exact (find_constraints_nolk _ _ _ _ _ A eq_refl NC c Hc)|].
        refine (find_constraints_kv ks vs _ _ _ _ _ A _ CL c Hc). cbn. rewrite N.eqb_refl. reflexivity.
      * split; [exact (find_constraints_nolk _ _ _ _ _ B eq_refl NC c Hc)|].
        refine (find_constraints_kv ks vs _ _ _ _ _ B _ CL c Hc). cbn. rewrite N.eqb_refl. reflexivity.
    + intros r HR _. exact (COV r H0 SZ CL HR lk0).
  - injection H as <- <- <-. split; [reflexivity|]. split; [exact PL|].
    intros r HR P. destruct (eb (setKVP r (ev r (ik i)) (val r i)) e) eqn:E; [reflexivity|].
    assert (X : can_be_false s (gcs st) (BImp (ip i) (substb (item_subst ks vs i) e)) = true).
    { apply can_be_false_spec; [exact SOK|]. exists r. split; [exact HR|].
      rewrite evalb_BImp, P. rewrite inv_subst_eval by (try apply PL; apply SZ). rewrite E. reflexivity. }
    congruence.
Qed.

Lemma flatten_state_plain : forall ks vs anc items st e ch e' st',
  flatten_state s k fuel ks vs anc st e items = Ok (ch, e', st') ->
  plain ks vs e -> Forall (sized ks vs) items -> clean_state st ->
  st' = st /\ plain ks vs e' /\
  forall i r, In i items -> holds r (gcs st) -> eb r (ip i) = true -> eb (setKVP r (ev r (ik i)) (val r i)) e' = true.
Proof.
  induction items as [|i items IH]; intros * H PL SZ CL; cbn [flatten_state] in H.
  - injection H as <- <- <-. repeat split; try apply PL. intros i r [].
  - destruct (flatten_item s k fuel ks vs anc st e i) as [[[c1 e1] st1]| |] eqn:E1; cbn [bindr] in H; try discriminate.
    destruct (flatten_state s k fuel ks vs anc st1 e1 items) as [[[c2 e2] st2]| |] eqn:E2; cbn [bindr] in H; try discriminate.
    injection H as <- <- <-. inversion SZ as [|? ? S1 S2]; subst.
    destruct (flatten_item_plain _ _ _ _ _ _ _ _ _ E1 PL S1 CL) as [-> [P1 C1]].
    destruct (IH _ _ _ _ _ E2 P1 S2 CL) as [-> [P2 C2]].
    split; [reflexivity|]. split; [exact P2|]. intros j r [<-|Hin] HR P; [|eauto].
    destruct (flatten_state_grows _ _ _ _ _ _ _ _ _ E2) as [G _]. apply G. eauto.
Qed.

(** The map's items in a state: their sizes agree with the map's. *)
Definition map_sized (ks vs m : N) (st : gst) : Prop :=
  exists g, gmaps st m = Some g /\ gks g = ks /\ gvs g = vs /\ layers_sized ks vs (glayers g).

Lemma set_items_sized : forall ks vs g, layers_sized ks vs (glayers g) -> Forall (sized ks vs) (set_items g).
Proof. intros. unfold set_items. apply pure_known_sized; auto. Qed.

Definition complies (m : N) (st : gst) (e : bexp) : Prop :=
  forall g i r, gmaps st m = Some g -> In i (set_items g) -> holds r (gcs st) -> eb r (ip i) = true ->
  eb (setKVP r (ev r (ik i)) (val r i)) e = true.

Lemma complies_mono : forall m st e e', (forall lk r, evalb lk r e = true -> evalb lk r e' = true) ->
  complies m st e -> complies m st e'.
Proof. intros m st e e' G C g i r A B H P. apply G. exact (C g i r A B H P). Qed.

Lemma flatten_conj_plain : forall ks vs m anc states e ch e' states',
  flatten_conj s k fuel m anc states e = Ok (ch, e', states') ->
  plain ks vs e -> (forall st, In st states -> map_sized ks vs m st /\ clean_state st) ->
  states' = states /\ plain ks vs e' /\ forall st, In st states -> complies m st e'.
Proof.
  induction states as [|st states IH]; intros * H PL OK; cbn [flatten_conj] in H.
  - injection H as <- <- <-. repeat split; try apply PL. intros st [].
  - destruct (OK st (or_introl eq_refl)) as [[g [G [Gk [Gv L]]]] CL]. rewrite G in H.
    destruct (flatten_state s k fuel (gks g) (gvs g) anc st e (set_items g)) as [[[c1 e1] st1]| |] eqn:E1; cbn [bindr] in H; try discriminate.
    destruct (flatten_conj s k fuel m anc states e1) as [[[c2 e2] st2]| |] eqn:E2; cbn [bindr] in H; try discriminate.
    injection H as <- <- <-. rewrite Gk, Gv in E1.
    destruct (flatten_state_plain _ _ _ _ _ _ _ _ _ E1 PL (set_items_sized _ _ _ L) CL) as [-> [P1 C1]].
    destruct (IH _ _ _ _ E2 P1 (fun st0 H0 => OK st0 (or_intror H0))) as [-> [P2 C2]].
    split; [reflexivity|]. split; [exact P2|]. intros st0 [<-|Hin]; [|auto].
    destruct (flatten_conj_grows _ _ _ _ _ _ _ E2) as [GR _].
    apply (complies_mono m st e1 e2 GR).
    intros g0 i r G0 Hi HR P. rewrite G in G0. injection G0 as <-. eauto.
Qed.

Lemma flatten_items_plain : forall ks vs m anc conjs states ch es states',
  flatten_items s k fuel m anc states conjs = Ok (ch, es, states') ->
  Forall (plain ks vs) conjs -> (forall st, In st states -> map_sized ks vs m st /\ clean_state st) ->
  states' = states /\ Forall (plain ks vs) es /\ forall e st, In e es -> In st states -> complies m st e.
Proof.
  induction conjs as [|e conjs IH]; intros * H PL OK; cbn [flatten_items] in H.
  - injection H as <- <- <-. repeat split; auto. intros e st [].
  - destruct (flatten_conj s k fuel m anc states e) as [[[c1 e1] st1]| |] eqn:E1; cbn [bindr] in H; try discriminate.
    destruct (flatten_items s k fuel m anc st1 conjs) as [[[c2 e2] st2]| |] eqn:E2; cbn [bindr] in H; try discriminate.
    injection H as <- <- <-. inversion PL as [|? ? P1 P2]; subst.
    destruct (flatten_conj_plain _ _ _ _ _ _ _ _ _ E1 P1 OK) as [-> [Q1 C1]].
    destruct (IH _ _ _ _ E2 P2 OK) as [-> [Q2 C2]].
    split; [reflexivity|]. split; [constructor; auto|]. intros e0 st [<-|Hin] Hs; auto.
Qed.

(** ** What the relaxed invariants mention *)

Definition within (n a b : names) : Prop :=
  (forall z, In z (fst n) -> In z (fst a) \/ In z (fst b)) /\ (forall z, In z (snd n) -> In z (snd a) \/ In z (snd b)).
Lemma memN_In : forall x l, memN x l = true -> In x l.
Proof. intros x l H. apply existsb_exists in H as [y [Hy E]]. apply N.eqb_eq in E. subst. exact Hy. Qed.
(** A symbol or a constant. *)
Definition simple (e : bv) : Prop := symbolic e = false \/ exists w x, e = BVS w x.
(** A symbol has one width. *)
Definition one_width (cs : list bexp) : Prop := forall c c' z w w', In c cs -> In c' cs ->
  In (z, w) (bvvars c) -> In (z, w') (bvvars c') -> w = w'.

Lemma repl_names : forall old new,
  (forall e, nolkv e = true ->
    (forall z w, In (z, w) (vvars (replv old new e)) -> In (z, w) (vvars new) \/ (In (z, w) (vvars e) /\ old <> BVS w z)) /\
    (forall z, In z (vbools (replv old new e)) -> In z (vbools new) \/ In z (vbools e))) /\
  (forall e, nolkb e = true ->
    (forall z w, In (z, w) (bvvars (replb old new e)) -> In (z, w) (vvars new) \/ (In (z, w) (bvvars e) /\ old <> BVS w z)) /\
    (forall z, In z (bbools (replb old new e)) -> In z (vbools new) \/ In z (bbools e))).
Proof.
  intros old new. apply expr_mind; intros; cbn [replv replb nolkv nolkb] in *; try discriminate;
  repeat match goal with H : _ && _ = true |- _ => apply andb_prop in H; destruct H end;
  repeat match goal with
  | IH : ?a = true -> _, H : ?a = true |- _ => specialize (IH H); clear H
  | IH : _ /\ _ |- _ => destruct IH
  end;
  try match goal with |- context [bv_eqb ?a ?b] => destruct (bv_eqb a b) eqn:EQ; [split; auto|] end;
  cbn [vvars bvvars vbools bbools]; split; intros z; intros;
  repeat match goal with
  | H : In _ (_ ++ _) |- _ => apply in_app_iff in H; destruct H as [H|H]
  | H : In _ [] |- _ => destruct H
  | IH : forall z w, In (z, w) ?l -> _, H : In (_, _) ?l |- _ => apply IH in H; destruct H as [H|[? ?]]
  | IH : forall z, In z ?l -> _, H : In _ ?l |- _ => apply IH in H; destruct H as [H|H]
  end; rewrite ?in_app_iff; try tauto.
  right. split; [assumption|]. intros ->. destruct H0 as [H0|[]]. injection H0 as -> ->. apply bv_eqb_neq in EQ. congruence.
Qed.

Lemma filter_fold_in : forall st0 z objs acc,
  let f := fun (acc : names) m => match gmaps st0 m with
        | Some g =>
            let n1 := names_v (ik (gunk g)) in let n2 := names_v (iv (gunk g)) in let n3 := names_b (ip (gunk g)) in
            (filter (fun x => negb (memN x (fst n1 ++ fst n2 ++ fst n3))) (fst acc),
             filter (fun x => negb (memN x (snd n1 ++ snd n2 ++ snd n3))) (snd acc))
        | None => acc end in
  (In z (fst (fold_left f objs acc)) -> In z (fst acc) /\ forall m g, In m objs -> gmaps st0 m = Some g ->
     ~ In z (fst (names_v (ik (gunk g))) ++ fst (names_v (iv (gunk g))) ++ fst (names_b (ip (gunk g))))) /\
  (In z (snd (fold_left f objs acc)) -> In z (snd acc) /\ forall m g, In m objs -> gmaps st0 m = Some g ->
     ~ In z (snd (names_v (ik (gunk g))) ++ snd (names_v (iv (gunk g))) ++ snd (names_b (ip (gunk g))))).
Proof.
  intros st0 z. induction objs as [|m0 objs IH]; intros acc f; cbn [fold_left].
  - split; intros H; (split; [exact H|intros m g []]).
  - assert (NM : forall l, negb (memN z l) = true -> ~ In z l).
    { intros l H Hin. apply negb_true_iff in H. assert (X : memN z l = true) by (apply existsb_exists; exists z; split; [exact Hin|apply N.eqb_refl]). congruence. }
    destruct (IH (f acc m0)) as [I1 I2]. split; intros H.
    + apply I1 in H as [H R]. unfold f in H. destruct (gmaps st0 m0) as [g0|] eqn:G.
      * cbn [fst] in H. apply filter_In in H as [H H']. split; [exact H|]. intros m g [<-|Hm] Gm; [|eauto].
        assert (g = g0) by congruence. subst. apply NM. exact H'.
      * split; [exact H|]. intros m g [<-|Hm] Gm; [congruence|eauto].
    + apply I2 in H as [H R]. unfold f in H. destruct (gmaps st0 m0) as [g0|] eqn:G.
      * cbn [snd] in H. apply filter_In in H as [H H']. split; [exact H|]. intros m g [<-|Hm] Gm; [|eauto].
        assert (g = g0) by congruence. subst. apply NM. exact H'.
      * split; [exact H|]. intros m g [<-|Hm] Gm; [congruence|eauto].
Qed.
Lemma common_in : forall z rest acc,
  let r := fold_left (fun acc st => (filter (fun x => memN x (fst (vars_of st))) (fst acc),
                                     filter (fun x => memN x (snd (vars_of st))) (snd acc))) rest acc in
  (In z (fst r) -> In z (fst acc) /\ forall st, In st rest -> In z (fst (vars_of st))) /\
  (In z (snd r) -> In z (snd acc) /\ forall st, In st rest -> In z (snd (vars_of st))).
Proof.
  intros z. induction rest as [|st0 rest IH]; intros acc; cbn [fold_left].
  - split; intros H; (split; [exact H|intros st []]).
  - match goal with |- context [fold_left _ rest ?a] => destruct (IH a) as [I1 I2] end. split; intros H.
    + apply I1 in H as [H R]. cbn [fst] in H. apply filter_In in H as [H H']. split; [exact H|].
      intros st [<-|Hs]; [apply memN_In; exact H'|auto].
    + apply I2 in H as [H R]. cbn [snd] in H. apply filter_In in H as [H H']. split; [exact H|].
      intros st [<-|Hs]; [apply memN_In; exact H'|auto].
Qed.
Lemma get_variables_spec : forall objs states z,
  (In z (fst (get_variables objs states)) -> forall st, In st states -> exists c w, In c (gcs st) /\ In (z, w) (bvvars c)) /\
  (In z (snd (get_variables objs states)) -> forall st, In st states -> exists c, In c (gcs st) /\ In z (bbools c)) /\
  (forall m st0 rest g, states = st0 :: rest -> In m objs -> gmaps st0 m = Some g ->
    (In z (fst (get_variables objs states)) -> ~ In z (map fst (vvars (ik (gunk g)))) /\ ~ In z (map fst (vvars (iv (gunk g))))) /\
    (In z (snd (get_variables objs states)) -> ~ In z (bbools (ip (gunk g))))).
Proof.
  intros objs states z. destruct states as [|st0 rest]; cbn [get_variables].
  { split; [intros []|]. split; [intros []|]. intros; discriminate. }
  match goal with |- context [fold_left _ objs ?a] => destruct (filter_fold_in st0 z objs a) as [F1 F2] end.
  destruct (common_in z rest (vars_of st0)) as [C1 C2].
  assert (V1 : forall st, In z (fst (vars_of st)) -> exists c w, In c (gcs st) /\ In (z, w) (bvvars c)).
  { intros st H. apply in_flat_map in H as [c [Hc H]]. apply in_map_iff in H as [[z' w] [<- H]]. eauto. }
  assert (V2 : forall st, In z (snd (vars_of st)) -> exists c, In c (gcs st) /\ In z (bbools c)).
  { intros st H. apply in_flat_map in H as [c [Hc H]]. eauto. }
  split; [|split].
  - intros H st Hs. apply F1 in H as [H _]. apply C1 in H as [H R]. destruct Hs as [<-|Hs]; auto.
  - intros H st Hs. apply F2 in H as [H _]. apply C2 in H as [H R]. destruct Hs as [<-|Hs]; auto.
  - intros m st1 rest1 g E Hm G. injection E as <- <-. split; intros H.
    + apply F1 in H as [_ R]. specialize (R m g Hm G). rewrite !in_app_iff in R. cbn [names_v fst] in R. tauto.
    + apply F2 in H as [_ R]. specialize (R m g Hm G). rewrite !in_app_iff in R. cbn [names_b snd] in R. tauto.
Qed.

Lemma prod_eq_dec : forall (A B : Type), (forall a b : A, {a = b} + {a <> b}) -> (forall a b : B, {a = b} + {a <> b}) ->
  forall p q : A * B, {p = q} + {p <> q}.
Proof. decide equality. Qed.
Lemma repl_absent : forall w x new,
  (forall e, nolkv e = true -> ~ In (x, w) (vvars e) -> replv (BVS w x) new e = e) /\
  (forall e, nolkb e = true -> ~ In (x, w) (bvvars e) -> replb (BVS w x) new e = e).
Proof.
  intros w x new. apply expr_mind; intros; cbn [replv replb nolkv nolkb vvars bvvars] in *; try discriminate;
  repeat match goal with H : _ && _ = true |- _ => apply andb_prop in H; destruct H end;
  try match goal with |- context [bv_eqb ?a ?b] => destruct (bv_eqb a b) eqn:EQ; [apply bv_eqb_eq in EQ|clear EQ] end;
  try discriminate; try reflexivity;
  try (f_equal; match goal with IH : _ -> ~ In _ _ -> ?g |- ?g => apply IH; [assumption|] end; rewrite ?in_app_iff in *; tauto).
  injection EQ as -> ->. exfalso. apply H0. left. reflexivity.
Qed.
Lemma find_constraints_names : forall cs e repl anc l, simple e -> one_width cs -> (forall c, In c cs -> nolkb c = true) ->
  find_constraints s cs e repl anc = Ok l ->
  forall c, In c l -> within (names_b c) (names_v repl) anc.
Proof.
  intros * SI OW NL H c Hin. unfold find_constraints in H.
  destruct (get_if_constant s cs e) as [[v|]| |]; cbn [bindr] in H; try discriminate.
  - injection H as <-. destruct Hin as [<-|[]]. split; cbn [names_b names_v bvvars bbools vvars vbools fst snd];
      rewrite app_nil_r; auto.
  - injection H as <-. apply in_app_iff in Hin as [Hin|Hin].
    + apply in_map_iff in Hin as [c0 [<- Hin]]. apply filter_In in Hin as [Hin F]. apply andb_prop in F as [F1 F2].
      unfold diff_sub in F2. apply andb_prop in F2 as [F2 F3]. rewrite forallb_forall in F2, F3.
      destruct (proj2 (repl_names e repl) c0 (NL c0 Hin)) as [R1 R2].
      split; cbn [names_b names_v fst snd] in *; intros z Hz.
      * apply in_map_iff in Hz as [[z' w] [<- Hz]]. cbn [fst]. apply R1 in Hz as [Hz|[Hz NE]].
        { left. apply (in_map fst) in Hz. exact Hz. }
        specialize (F2 z' (in_map fst _ _ Hz)). apply orb_prop in F2 as [F2|F2]; [|right; apply memN_In; exact F2].
        exfalso. apply memN_In in F2. destruct SI as [SI|[w0 [x0 ->]]].
        { unfold symbolic in SI. destruct (vvars e); [destruct F2|discriminate]. }
        cbn in F2. destruct F2 as [->|[]]. apply negb_true_iff in F1.
        assert (IN : In (z', w0) (bvvars c0)).
        { destruct (in_dec (prod_eq_dec _ _ N.eq_dec N.eq_dec) (z', w0) (bvvars c0)) as [I|NI]; [exact I|exfalso].
          rewrite (proj2 (repl_absent w0 z' repl) c0 (NL c0 Hin) NI) in F1.
          rewrite (proj2 (bexp_eqb_eq _ _) eq_refl) in F1. discriminate. }
        apply NE. f_equal. eapply OW; eauto.
      * apply R2 in Hz as [Hz|Hz]; [auto|]. specialize (F3 z Hz). apply orb_prop in F3 as [F3|F3]; [|right; apply memN_In; exact F3].
        exfalso. apply memN_In in F3. destruct SI as [SI|[w0 [x0 ->]]]; [|destruct F3].
        unfold symbolic in SI. destruct (vvars e); [|discriminate]. destruct (vbools e); [destruct F3|discriminate].
    + destruct e; try destruct Hin. destruct (bv_eqb e1 (BVV (width e1) 0)); [|destruct Hin].
      destruct Hin as [<-|[]]. split; cbn [names_b names_v bvvars bbools vvars vbools fst snd]; rewrite app_nil_r; auto.
Qed.

Definition simple_items (m : N) (st : gst) : Prop :=
  one_width (gcs st) /\ forall g i, gmaps st m = Some g -> In i (set_items g) -> simple (ik i) /\ simple (iv i).
Definition own_names : names := ([0; 1], []).

Lemma BAndL_names : forall l a b, (forall c, In c l -> within (names_b c) a b) -> within (names_b (BAndL l)) a b.
Proof.
  induction l as [|c l IH]; intros a b H; [split; intros z []|].
  destruct (H c (or_introl eq_refl)) as [H1 H2]. destruct (IH a b (fun c' Hc => H c' (or_intror Hc))) as [I1 I2].
  change (BAndL (c :: l)) with (BAnd c (BAndL l)).
  split; cbn [names_b bvvars bbools fst snd] in *; intros z Hz; [rewrite map_app in Hz|]; apply in_app_iff in Hz as [Hz|Hz]; auto.
Qed.
Definition grown (e e' : bexp) (anc : names) : Prop :=
  (forall z, In z (fst (names_b e')) -> In z (fst (names_b e)) \/ z = 0 \/ z = 1 \/ In z (fst anc)) /\
  (forall z, In z (snd (names_b e')) -> In z (snd (names_b e)) \/ In z (snd anc)).
Lemma grown_refl : forall e anc, grown e e anc.
Proof. split; auto. Qed.
Lemma grown_trans : forall a b c anc, grown a b anc -> grown b c anc -> grown a c anc.
Proof.
  intros a b c anc [A1 A2] [B1 B2]. split; intros z Hz.
  - apply B1 in Hz as [Hz|Hz]; auto.
  - apply B2 in Hz as [Hz|Hz]; auto.
Qed.
Lemma flatten_item_names : forall ks vs anc st e i ch e' st',
  flatten_item s k fuel ks vs anc st e i = Ok (ch, e', st') ->
  plain ks vs e -> clean_state st -> one_width (gcs st) -> simple (ik i) -> simple (iv i) -> grown e e' anc.
Proof.
  intros * H PL CL OW SK SV. unfold flatten_item in H. rewrite inv_call_plain in H by exact PL. cbn [bindr] in H.
  destruct (can_be_false s (gcs st) (BImp (ip i) (substb (item_subst ks vs i) e))); [|injection H as <- <- <-; apply grown_refl].
  destruct (find_constraints s (gcs st) (ik i) (KEY ks) anc) as [a| |] eqn:A; cbn [bindr] in H; try discriminate.
  destruct (find_constraints s (gcs st) (iv i) (VALUE vs) anc) as [b| |] eqn:B; cbn [bindr] in H; try discriminate.
  injection H as <- <- <-.
  assert (NC : forall c, In c (gcs st) -> nolkb c = true) by (intros c0 Hc0; apply (CL c0 Hc0)).
  assert (W : within (names_b (BAndL (a ++ b))) own_names anc).
  { apply BAndL_names. intros c Hc. apply in_app_iff in Hc as [Hc|Hc].
    - destruct (find_constraints_names _ _ _ _ _ SK OW NC A c Hc) as [X Y]. split; intros z Hz.
      + apply X in Hz as [Hz|Hz]; [left; cbn in *; tauto|auto].
      + apply Y in Hz as [[]|Hz]. auto.
    - destruct (find_constraints_names _ _ _ _ _ SV OW NC B c Hc) as [X Y]. split; intros z Hz.
      + apply X in Hz as [Hz|Hz]; [left; cbn in *; tauto|auto].
      + apply Y in Hz as [[]|Hz]. auto. }
  destruct W as [W1 W2]. split; cbn [names_b bvvars bbools fst snd] in *; intros z Hz.
  - rewrite map_app in Hz. apply in_app_iff in Hz as [Hz|Hz]; [auto|]. apply W1 in Hz as [Hz|Hz]; [|auto].
    cbn in Hz. right. destruct Hz as [<-|[<-|[]]]; auto.
  - apply in_app_iff in Hz as [Hz|Hz]; [auto|]. apply W2 in Hz as [[]|Hz]. auto.
Qed.
Lemma flatten_state_names : forall ks vs anc items st e ch e' st',
  flatten_state s k fuel ks vs anc st e items = Ok (ch, e', st') ->
  plain ks vs e -> Forall (sized ks vs) items -> clean_state st -> one_width (gcs st) ->
  (forall i, In i items -> simple (ik i) /\ simple (iv i)) -> grown e e' anc.
Proof.
  induction items as [|i items IH]; intros * H PL SZ CL OW SI; cbn [flatten_state] in H.
  - injection H as <- <- <-. apply grown_refl.
  - destruct (flatten_item s k fuel ks vs anc st e i) as [[[c1 e1] st1]| |] eqn:E1; cbn [bindr] in H; try discriminate.
    destruct (flatten_state s k fuel ks vs anc st1 e1 items) as [[[c2 e2] st2]| |] eqn:E2; cbn [bindr] in H; try discriminate.
    injection H as <- <- <-. inversion SZ as [|? ? S1 S2]; subst.
    destruct (flatten_item_plain _ _ _ _ _ _ _ _ _ E1 PL S1 CL) as [-> [P1 _]].
    destruct (SI i (or_introl eq_refl)) as [SK SV].
    eapply grown_trans; [eapply flatten_item_names; eauto|]. eapply IH; eauto. intros; apply SI; right; auto.
Qed.
Lemma flatten_conj_names : forall ks vs m anc states e ch e' states',
  flatten_conj s k fuel m anc states e = Ok (ch, e', states') ->
  plain ks vs e -> (forall st, In st states -> map_sized ks vs m st /\ clean_state st) ->
  (forall st, In st states -> simple_items m st) -> grown e e' anc.
Proof.
  induction states as [|st states IH]; intros * H PL OK SI; cbn [flatten_conj] in H.
  - injection H as <- <- <-. apply grown_refl.
  - destruct (OK st (or_introl eq_refl)) as [[g [G [Gk [Gv L]]]] CL]. rewrite G in H.
    destruct (SI st (or_introl eq_refl)) as [OW SK].
    destruct (flatten_state s k fuel (gks g) (gvs g) anc st e (set_items g)) as [[[c1 e1] st1]| |] eqn:E1; cbn [bindr] in H; try discriminate.
    destruct (flatten_conj s k fuel m anc states e1) as [[[c2 e2] st2]| |] eqn:E2; cbn [bindr] in H; try discriminate.
    injection H as <- <- <-. rewrite Gk, Gv in E1.
    destruct (flatten_state_plain _ _ _ _ _ _ _ _ _ E1 PL (set_items_sized _ _ _ L) CL) as [-> [P1 _]].
    eapply grown_trans.
    + eapply flatten_state_names; [exact E1|exact PL|apply set_items_sized; exact L|exact CL|exact OW|]. intros i Hi. eapply SK; eauto.
    + eapply IH; eauto; intros; [apply OK|apply SI]; right; auto.
Qed.
Lemma flatten_items_names : forall ks vs m anc conjs states ch es states',
  flatten_items s k fuel m anc states conjs = Ok (ch, es, states') ->
  Forall (plain ks vs) conjs -> (forall st, In st states -> map_sized ks vs m st /\ clean_state st) ->
  (forall st, In st states -> simple_items m st) -> Forall2 (fun e e' => grown e e' anc) conjs es.
Proof.
  induction conjs as [|e conjs IH]; intros * H PL OK SI; cbn [flatten_items] in H.
  - injection H as <- <- <-. constructor.
  - destruct (flatten_conj s k fuel m anc states e) as [[[c1 e1] st1]| |] eqn:E1; cbn [bindr] in H; try discriminate.
    destruct (flatten_items s k fuel m anc st1 conjs) as [[[c2 e2] st2]| |] eqn:E2; cbn [bindr] in H; try discriminate.
    injection H as <- <- <-. inversion PL as [|? ? P1 P2]; subst.
    destruct (flatten_conj_plain _ _ _ _ _ _ _ _ _ E1 P1 OK) as [-> _].
    constructor; [eapply flatten_conj_names; eauto|]. eapply IH; eauto.
Qed.

(** ** The contents after a packet *)

Lemma top_known : forall r ks vs ls q vp, layers_sized ks vs ls -> top r ls q = Some vp ->
  exists i, In i (pure_known ls []) /\ ev r (ik i) = q /\ val r i = vp.
Proof.
  intros r ks vs. induction ls as [|L rest IH]; intros q vp SZ T; cbn [top] in T; [discriminate|].
  inversion SZ as [|? ? S1 S2]; subst. cbn [pure_known].
  destruct (find (fun i => ev r (ik i) =? q) (litems L)) as [i|] eqn:F.
  - injection T as <-. apply find_some in F as [Hin E]. apply N.eqb_eq in E.
    exists i. rewrite in_app_iff. auto.
  - destruct (IH q vp S2 T) as [i [Hin [E V]]]. exists (transform1 (litems L) i).
    assert (SZi : sized ks vs i).
    { pose proof (pure_known_sized ks vs rest [] S2 (Forall_nil _)) as P. rewrite Forall_forall in P. auto. }
    split; [|split; [exact E|]].
    + apply in_app_iff. right. unfold transform_previous. apply in_map. apply filter_In. split; [exact Hin|].
      unfold not_own. apply forallb_forall. intros j Hj. apply negb_true_iff.
      destruct (bv_eqb (ik i) (ik j)) eqn:X; [exfalso|reflexivity]. apply bv_eqb_eq in X.
      pose proof (find_none _ _ F j Hj) as Y. cbn in Y. rewrite <- X, E, N.eqb_refl in Y. discriminate.
    + rewrite (transform1_val r ks vs (litems L) i S1 SZi). rewrite E, F. exact V.
Qed.

Lemma contents_inductive : forall ks vs m st g e r (C0 C : N -> N * bool),
  gmaps st m = Some g -> layers_sized ks vs (glayers g) -> complies m st e -> holds r (gcs st) ->
  (forall q, C q = match top r (glayers g) q with Some vp => vp | None => C0 q end) ->
  (forall q, snd (C0 q) = true -> eb (setKVP r q (C0 q)) e = true) ->
  forall q, snd (C q) = true -> eb (setKVP r q (C q)) e = true.
Proof.
  intros * G SZ CO HR HC H0 q P. rewrite HC in *. destruct (top r (glayers g) q) as [vp|] eqn:T; [|auto].
  destruct (top_known r ks vs (glayers g) q vp SZ T) as [i [Hin [E V]]].
  subst vp. subst q. apply (CO g i r G Hin HR). exact P.
Qed.

(** ** The loop *)
Variable guesses : N -> list N -> list gst -> list bexp.

Lemma infer_loop_unchanged : forall relevant anc ancv states prev todo items lens,
  infer_loop s k fuel guesses relevant anc ancv states prev todo = Ok (false, items, lens) ->
  forall m, In m todo -> exists ga states',
    gmaps anc m = Some ga /\ flatten_items s k fuel m ancv states (ginvs ga) = Ok (false, ginvs ga, states').
Proof.
  induction todo as [|m0 todo IH]; intros items lens H m Hin; [destruct Hin|].
  cbn [infer_loop] in H. destruct (gmaps anc m0) as [ga|] eqn:G; [|discriminate].
  destruct (flatten_items s k fuel m0 ancv states (ginvs ga)) as [[[c1 e1] st1]| |] eqn:E1; cbn [bindr] in H; try discriminate.
  destruct (if c1 then get_items_invariants s k fuel guesses m0 relevant st1 anc else Ok ([], st1)) as [[ex st2]| |]; cbn [bindr] in H; try discriminate.
  match type of H with (let '(_, _) := ?x in _) = _ => destruct x as [ch2 ls] end.
  destruct (infer_loop s k fuel guesses relevant anc ancv states prev todo) as [[[c3 it] l3]| |] eqn:E3; cbn [bindr] in H; try discriminate.
  assert (F : c1 || ch2 || c3 = false) by congruence.
  apply orb_false_iff in F as [F F3]. apply orb_false_iff in F as [F1 F2]. subst.
  destruct Hin as [<-|Hin].
  - exists ga, st1. split; [exact G|]. rewrite E1. destruct (flatten_items_grows _ _ _ _ _ _ _ E1) as [_ X].
    rewrite (X eq_refl). reflexivity.
  - eapply IH; eauto.
Qed.

(** Length bounds kept from earlier iterations hold in every new state. *)
Lemma infer_loop_lengths : forall relevant anc ancv states prev todo items lens,
  infer_loop s k fuel guesses relevant anc ancv states prev todo = Ok (false, items, lens) ->
  forall m l, In m todo -> assoc prev m = Some l ->
  exists ga states', gmaps anc m = Some ga /\ flatten_items s k fuel m ancv states (ginvs ga) = Ok (false, ginvs ga, states') /\
  forall o st r, In o l -> In st states' -> holds r (gcs st) -> ev r (len_of st m) <= ev r (len_of st o).
Proof.
  induction todo as [|m0 todo IH]; intros items lens H m l Hin HP; [destruct Hin|].
  cbn [infer_loop] in H. destruct (gmaps anc m0) as [ga|] eqn:G; [|discriminate].
  destruct (flatten_items s k fuel m0 ancv states (ginvs ga)) as [[[c1 e1] st1]| |] eqn:E1; cbn [bindr] in H; try discriminate.
  destruct c1.
  { destruct (get_items_invariants s k fuel guesses m0 relevant st1 anc) as [[ex st2]| |]; cbn [bindr] in H; try discriminate.
    match type of H with (let '(_, _) := ?x in _) = _ => destruct x as [ch2 ls] end.
    destruct (infer_loop s k fuel guesses relevant anc ancv states prev todo) as [[[c3 it] l3]| |] eqn:E3; cbn [bindr] in H; discriminate. }
  cbn [bindr] in H.
  match type of H with (let '(_, _) := ?x in _) = _ => destruct x as [ch2 ls] eqn:X end.
  destruct (infer_loop s k fuel guesses relevant anc ancv states prev todo) as [[[c3 it] l3]| |] eqn:E3; cbn [bindr] in H; try discriminate.
  assert (F : false || ch2 || c3 = false) by congruence.
  apply orb_false_iff in F as [F F3]. apply orb_false_iff in F as [F1 F2]. subst.
  destruct Hin as [<-|Hin]; [|eapply IH; eauto].
  exists ga, st1. split; [exact G|]. destruct (flatten_items_grows _ _ _ _ _ _ _ E1) as [_ Y].
  split; [rewrite E1, (Y eq_refl); reflexivity|].
  rewrite HP in X.
  assert (Z : negb (forallb (fun o => forallb (fun st => negb (can_be_false s (gcs st) (BUle (len_of st m0) (len_of st o)))) st1) l) = false) by congruence.
  apply negb_false_iff in Z. rewrite forallb_forall in Z.
  intros o st r Ho Hst HR. specialize (Z o Ho). rewrite forallb_forall in Z. specialize (Z st Hst).
  apply negb_true_iff in Z.
  destruct (N.leb_spec (ev r (len_of st m0)) (ev r (len_of st o))) as [L|L]; [exact L|].
  assert (W : can_be_false s (gcs st) (BUle (len_of st m0) (len_of st o)) = true).
  { apply can_be_false_spec; [exact SOK|]. exists r. split; [exact HR|]. cbn [evalb]. apply N.leb_gt. exact L. }
  congruence.
Qed.

(** Every bound an iteration hands to the next, kept or new, holds in every explored state
    (as left by the evaluation of the map's invariants). *)
Lemma get_length_sound : forall m relevant states anc l,
  get_length_invariants s m relevant states anc = Some l ->
  forall o st r, In o l -> In st states -> holds r (gcs st) -> ev r (len_of st m) <= ev r (len_of st o).
Proof.
  intros * H o st r Ho Hst HR. unfold get_length_invariants in H.
  destruct (forallb _ states) in H; [discriminate|]. injection H as <-.
  apply filter_In in Ho as [_ Ho]. apply andb_prop in Ho as [_ Ho]. rewrite forallb_forall in Ho.
  specialize (Ho st Hst). rewrite (definitely_true_spec s SOK) in Ho. specialize (Ho r HR).
  cbn [evalb] in Ho. apply N.leb_le in Ho. exact Ho.
Qed.
Lemma infer_loop_bounds : forall relevant anc ancv states prev ks vs todo ch items lens,
  infer_loop s k fuel guesses relevant anc ancv states prev todo = Ok (ch, items, lens) ->
  (forall m ga e, In m todo -> gmaps anc m = Some ga -> In e (ginvs ga) -> plain (ks m) (vs m) e) ->
  (forall m st, In m todo -> In st states -> map_sized (ks m) (vs m) m st /\ clean_state st) ->
  (forall m rel sts, guesses m rel sts = []) ->
  forall m l o st r, assoc lens m = Some l -> In o l -> In st states -> holds r (gcs st) ->
  ev r (len_of st m) <= ev r (len_of st o).
Proof.
  induction todo as [|m0 todo IH]; intros ch items lens H PL OK NG m l o st r HA Ho Hst HR;
    [cbn in H; injection H as <- <- <-; discriminate|].
  cbn [infer_loop] in H. destruct (gmaps anc m0) as [ga|] eqn:G; [|discriminate].
  destruct (flatten_items s k fuel m0 ancv states (ginvs ga)) as [[[c1 e1] st1]| |] eqn:E1; cbn [bindr] in H; try discriminate.
  assert (S1 : st1 = states).
  { eapply (flatten_items_plain (ks m0) (vs m0)); [exact E1| |].
    - apply Forall_forall. intros e He. eapply PL; [left; reflexivity|exact G|exact He].
    - intros st0 Hs0. apply OK; [left; reflexivity|exact Hs0]. }
  subst st1.
  assert (S2 : (if c1 then get_items_invariants s k fuel guesses m0 relevant states anc else Ok ([], states)) = Ok ([], states)).
  { destruct c1; [|reflexivity]. unfold get_items_invariants. rewrite NG. reflexivity. }
  rewrite S2 in H. cbn [bindr] in H.
  match type of H with (let '(_, _) := ?x in _) = _ => destruct x as [ch2 ls] eqn:X end.
  destruct (infer_loop s k fuel guesses relevant anc ancv states prev todo) as [[[c3 it] l3]| |] eqn:E3; cbn [bindr] in H; try discriminate.
  assert (IHm : forall m l o st r, assoc l3 m = Some l -> In o l -> In st states -> holds r (gcs st) ->
    ev r (len_of st m) <= ev r (len_of st o)).
  { eapply IH; eauto; intros; [eapply PL|eapply OK]; eauto; right; auto. }
  assert (HL : lens = match ls with Some l => (m0, l) :: l3 | None => l3 end) by congruence. subst lens.
  destruct ls as [l0|]; [|eapply IHm; eauto].
  unfold assoc in HA. cbn [find fst snd] in HA. destruct (N.eqb_spec m0 m) as [->|NM]; [|eapply IHm; eauto].
  injection HA as ->.
  destruct (assoc prev m) as [old|] eqn:P.
  - assert (Hl : filter (fun o => forallb (fun st => negb (can_be_false s (gcs st) (BUle (len_of st m) (len_of st o)))) states) old = l) by congruence.
    subst l. apply filter_In in Ho as [_ Z]. rewrite forallb_forall in Z. specialize (Z st Hst). apply negb_true_iff in Z.
    destruct (N.leb_spec (ev r (len_of st m)) (ev r (len_of st o))) as [L|L]; [exact L|].
    assert (W : can_be_false s (gcs st) (BUle (len_of st m) (len_of st o)) = true).
    { apply can_be_false_spec; [exact SOK|]. exists r. split; [exact HR|]. cbn [evalb]. apply N.leb_gt. exact L. }
    congruence.
  - destruct (get_length_invariants s m relevant states anc) as [l1|] eqn:GL; [|congruence].
    assert (l1 = l) by congruence. subst l1. eapply get_length_sound; eauto.
Qed.
Lemma infer_next_inv : forall objs anc ancs states prev news res,
  infer_invariants s k fuel guesses objs (anc :: ancs) states prev = Ok (Next news res) ->
  exists items, infer_loop s k fuel guesses (filter (fun m => existsb (changed_in m anc) states) objs) anc
    (get_variables objs (anc :: ancs)) states prev (filter (fun m => existsb (changed_in m anc) states) objs) = Ok (true, items, res).
Proof.
  intros * H. unfold infer_invariants in H. destruct states as [|st0 sts]; [discriminate|].
  set (states := st0 :: sts) in *. set (rel := filter _ objs) in *.
  destruct (infer_loop s k fuel guesses rel anc (get_variables objs (anc :: ancs)) states prev rel) as [[[c it] l]| |] eqn:E; cbn [bindr] in H; try discriminate.
  destruct c; [|discriminate].
  match type of H with (do _ <- ?x; _) = _ => destruct x end; cbn [bindr] in H; try discriminate.
  injection H as <- <-. eauto.
Qed.

Lemma infer_fix_inv : forall objs anc ancs states prev,
  infer_invariants s k fuel guesses objs (anc :: ancs) states prev = Ok Fixpoint_ -> states <> [] ->
  exists items lens, infer_loop s k fuel guesses (filter (fun m => existsb (changed_in m anc) states) objs) anc
    (get_variables objs (anc :: ancs)) states prev (filter (fun m => existsb (changed_in m anc) states) objs) = Ok (false, items, lens).
Proof.
  intros * H NE. unfold infer_invariants in H. destruct states as [|st0 sts]; [congruence|].
  set (states := st0 :: sts) in *. set (rel := filter _ objs) in *.
  destruct (infer_loop s k fuel guesses rel anc (get_variables objs (anc :: ancs)) states prev rel) as [[[c it] l]| |] eqn:E; cbn [bindr] in H; try discriminate.
  destruct c; [|eauto].
  match type of H with (do _ <- ?x; _) = _ => destruct x end; cbn [bindr] in H; discriminate.
Qed.

Lemma mapM_length : forall A B (f : A -> res B) l l', mapM f l = Ok l' -> length l' = length l.
Proof.
  induction l as [|a l IH]; intros l' H; cbn [mapM] in H; [injection H as <-; reflexivity|].
  destruct (f a); cbn [bindr] in H; try discriminate. destruct (mapM f l); cbn [bindr] in H; try discriminate.
  injection H as <-. cbn. f_equal. auto.
Qed.
Lemma infer_next_length : forall objs ancs states prev news res,
  infer_invariants s k fuel guesses objs ancs states prev = Ok (Next news res) -> length news = length ancs.
Proof.
  intros * H. unfold infer_invariants in H. destruct states as [|st0 sts]; [discriminate|].
  destruct ancs as [|anc ancs]; [discriminate|].
  set (rel := filter _ objs) in *.
  match type of H with (do _ <- ?x; _) = _ => destruct x as [[[c it] l]| |] end; cbn [bindr] in H; try discriminate.
  destruct c; [|discriminate].
  match type of H with (do _ <- ?x; _) = _ => destruct x eqn:E end; cbn [bindr] in H; try discriminate.
  injection H as <- <-. apply mapM_length in E. exact E.
Qed.
End Facts.

(** ** The iteration *)
Inductive iterates (infer : list gst -> list gst -> list (N * list N) -> res inference)
  : list (gst * handler) -> list (N * list N) -> list (gst * handler) -> list (N * list N) -> Prop :=
| it_here : forall d p, iterates infer d p d p
| it_next : forall d p results states p' d2 p2,
    runs d = Ok results -> infer (map fst d) results p = Ok (Next states p') ->
    iterates infer (combine states (map snd d)) p' d2 p2 -> iterates infer d p d2 p2.

Lemma find_fixedpoint_spec : forall s k fuel guesses objs n data prev out,
  find_fixedpoint s k fuel guesses n objs data prev = Ok out ->
  exists data' prev', iterates (infer_invariants s k fuel guesses objs) data prev data' prev' /\
    runs data' = Ok out /\ infer_invariants s k fuel guesses objs (map fst data') out prev' = Ok Fixpoint_ /\
    map snd data' = map snd data.
Proof.
  intros s k fuel guesses objs. induction n as [|n IH]; intros data prev out H; cbn [find_fixedpoint] in H; [discriminate|].
  destruct (runs data) as [results| |] eqn:R; cbn [bindr] in H; try discriminate.
  destruct (infer_invariants s k fuel guesses objs (map fst data) results prev) as [[|states prev1]| |] eqn:I; cbn [bindr] in H; try discriminate.
  - injection H as <-. exists data, prev. repeat split; auto. constructor.
  - destruct (IH _ _ _ H) as [d' [p' [IT [RU [IN SN]]]]]. exists d', p'. repeat split; auto.
    + eapply it_next; eauto.
    + rewrite SN. pose proof (infer_next_length _ _ _ _ _ _ _ _ _ _ I) as L. rewrite map_length in L.
      clear - L. revert states L. induction data as [|[a b] data IH]; intros [|st states] L; cbn in *; try discriminate; [reflexivity|].
      f_equal. apply IH. lia.
Qed.
