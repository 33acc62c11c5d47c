(** * Facts about the ghost-map model used by the soundness proofs *)

From Coq Require Import NArith List Bool Lia Arith Permutation.
From Verif Require Import Expr Solver KMerge Wt GhostMap GhostSpec.
Import ListNotations.
Open Scope N_scope.

(** ** Symbols below a bound *)

Definition eqbelow (n : N) (r1 r2 : env) : Prop :=
  forall x, x < n -> ebv r1 x = ebv r2 x /\ ebool r1 x = ebool r2 x.
Definition dep (n : N) (e : bv) : Prop := forall r1 r2, eqbelow n r1 r2 -> ev r1 e = ev r2 e.
Definition depb (n : N) (e : bexp) : Prop := forall r1 r2, eqbelow n r1 r2 -> eb r1 e = eb r2 e.

Lemma eqbelow_refl : forall n r, eqbelow n r r.
Proof. intros n r x _. auto. Qed.
Lemma eqbelow_sym : forall n r1 r2, eqbelow n r1 r2 -> eqbelow n r2 r1.
Proof. intros n r1 r2 H x L. destruct (H x L). auto. Qed.
Lemma eqbelow_trans : forall n r1 r2 r3, eqbelow n r1 r2 -> eqbelow n r2 r3 -> eqbelow n r1 r3.
Proof. intros n r1 r2 r3 H1 H2 x L. destruct (H1 x L), (H2 x L). split; congruence. Qed.
Lemma eqbelow_le : forall n m r1 r2, m <= n -> eqbelow n r1 r2 -> eqbelow m r1 r2.
Proof. intros n m r1 r2 L H x Hx. apply H. lia. Qed.
Lemma dep_le : forall n m e, n <= m -> dep n e -> dep m e.
Proof. intros n m e L H r1 r2 E. apply H. eapply eqbelow_le; eauto. Qed.
Lemma depb_le : forall n m e, n <= m -> depb n e -> depb m e.
Proof. intros n m e L H r1 r2 E. apply H. eapply eqbelow_le; eauto. Qed.

Lemma dep_BVS : forall n w x, x < n -> dep n (BVS w x).
Proof. intros n w x L r1 r2 E. cbn [evalv]. destruct (E x L) as [-> _]. reflexivity. Qed.
Lemma depb_BoolS : forall n x, x < n -> depb n (BoolS x).
Proof. intros n x L r1 r2 E. cbn [evalb]. apply (E x L). Qed.
Lemma dep_BVV : forall n w v, dep n (BVV w v).
Proof. intros n w v r1 r2 E. reflexivity. Qed.
Lemma depb_BTrue : forall n, depb n BTrue.
Proof. intros n r1 r2 E. reflexivity. Qed.
Lemma depb_BFalse : forall n, depb n BFalse.
Proof. intros n r1 r2 E. reflexivity. Qed.
Lemma depb_BNot : forall n a, depb n a -> depb n (BNot a).
Proof. intros n a H r1 r2 E. cbn. f_equal. auto. Qed.
Lemma depb_BAnd : forall n a b, depb n a -> depb n b -> depb n (BAnd a b).
Proof. intros n a b Ha Hb r1 r2 E. cbn. f_equal; auto. Qed.
Lemma depb_BOr : forall n a b, depb n a -> depb n b -> depb n (BOr a b).
Proof. intros n a b Ha Hb r1 r2 E. cbn. f_equal; auto. Qed.
Lemma depb_BImp : forall n a b, depb n a -> depb n b -> depb n (BImp a b).
Proof. intros. apply depb_BOr; auto using depb_BNot. Qed.
Lemma depb_BIff : forall n a b, depb n a -> depb n b -> depb n (BIff a b).
Proof. intros n a b Ha Hb r1 r2 E. cbn. f_equal; auto. Qed.
Lemma depb_BEq : forall n a b, dep n a -> dep n b -> depb n (BEq a b).
Proof. intros n a b Ha Hb r1 r2 E. cbn. f_equal; auto. Qed.
Lemma depb_BNe : forall n a b, dep n a -> dep n b -> depb n (BNe a b).
Proof. intros. apply depb_BNot, depb_BEq; auto. Qed.
Lemma depb_BUle : forall n a b, dep n a -> dep n b -> depb n (BUle a b).
Proof. intros n a b Ha Hb r1 r2 E. cbn. f_equal; auto. Qed.
Lemma depb_BUlt : forall n a b, dep n a -> dep n b -> depb n (BUlt a b).
Proof. intros n a b Ha Hb r1 r2 E. cbn. f_equal; auto. Qed.
Lemma depb_BAndL : forall n l, Forall (depb n) l -> depb n (BAndL l).
Proof. induction 1; [apply depb_BTrue|]. apply depb_BAnd; auto. Qed.
Lemma depb_BIteB : forall n c a b, depb n c -> depb n a -> depb n b -> depb n (BIteB c a b).
Proof. intros n c a b Hc Ha Hb r1 r2 E. cbn. rewrite (Hc _ _ E), (Ha _ _ E), (Hb _ _ E). reflexivity. Qed.
Lemma dep_BvIte : forall n c a b, depb n c -> dep n a -> dep n b -> dep n (BvIte c a b).
Proof. intros n c a b Hc Ha Hb r1 r2 E. cbn [evalv]. rewrite (Hc _ _ E), (Ha _ _ E), (Hb _ _ E). reflexivity. Qed.
Lemma dep_BvAdd : forall n a b, dep n a -> dep n b -> dep n (BvAdd a b).
Proof. intros n a b Ha Hb r1 r2 E. cbn [evalv]. rewrite (Ha _ _ E), (Hb _ _ E). reflexivity. Qed.
Lemma dep_bveq : forall n a b, bveq a b -> dep n a -> dep n b.
Proof. intros n a b [_ [_ B]] Ha r1 r2 E. rewrite <- !B. auto. Qed.
#[export] Hint Resolve dep_BVS depb_BoolS dep_BVV depb_BTrue depb_BFalse depb_BNot depb_BAnd depb_BOr
  depb_BImp depb_BIff depb_BEq depb_BNe depb_BUle depb_BUlt depb_BAndL depb_BIteB dep_BvIte dep_BvAdd : depdb.

Lemma holds_dep : forall n cs r1 r2, Forall (depb n) cs -> eqbelow n r1 r2 -> holds r1 cs -> holds r2 cs.
Proof.
  intros n cs r1 r2 F E H c Hc. rewrite Forall_forall in F. rewrite <- (F c Hc r1 r2 E). auto.
Qed.

Definition dep_item (n : N) (i : item) : Prop := dep n (ik i) /\ dep n (iv i) /\ depb n (ip i).
Lemma dep_item_le : forall n m i, n <= m -> dep_item n i -> dep_item m i.
Proof. intros n m i L [A [B C]]. repeat split; eauto using dep_le, depb_le. Qed.

(** ** Values of KEY, VALUE and PRESENT *)

Definition val (r : env) (i : item) : N * bool := (ev r (iv i), eb r (ip i)).

Lemma inv_subst_eval : forall ks vs i inv r,
  kv_sized ks vs inv = true -> width (ik i) = ks -> width (iv i) = vs ->
  eb r (substb (item_subst ks vs i) inv) = eb (setKVP r (ev r (ik i)) (val r i)) inv.
Proof.
  intros * K Wk Wv. apply (proj2 (eval_subst lk0 _ _ _) inv). split.
  - intros x w Hin. unfold kv_sized in K. rewrite forallb_forall in K. specialize (K _ Hin). cbn in K.
    cbn [sv item_subst setKVP ebv]. destruct (N.eqb_spec x 0) as [->|].
    + apply N.eqb_eq in K. subst w. rewrite N.eqb_refl. cbn [andb].
      split; [auto|]. rewrite wrap_small; [auto|]. rewrite <- Wk. apply evalv_lt.
    + cbn [andb]. destruct (N.eqb_spec x 1) as [->|].
      * apply N.eqb_eq in K. subst w. rewrite N.eqb_refl. cbn [andb fst val].
        split; [auto|]. rewrite wrap_small; [auto|]. rewrite <- Wv. apply evalv_lt.
      * cbn [andb]. auto.
  - intros x Hin. cbn [sb item_subst setKVP ebool]. destruct (N.eqb_spec x 0); auto.
Qed.

Lemma setKVP_eqbelow : forall n r1 r2 q vp, eqbelow n r1 r2 -> eqbelow n (setKVP r1 q vp) (setKVP r2 q vp).
Proof.
  intros n r1 r2 q vp E x L. cbn. destruct (E x L) as [-> ->]. auto.
Qed.

(** Without lookups, [eval_map_ast] is a substitution and leaves the state alone. *)
Lemma em_plain : forall get sg cond,
  (forall e, nolkv e = true -> forall st, emv get sg cond st e = Ok (st, substv sg e)) /\
  (forall e, nolkb e = true -> forall st, emb get sg cond st e = Ok (st, substb sg e)).
Proof.
  intros. apply expr_mind; intros; cbn [emv emb nolkv nolkb substv substb] in *; try discriminate;
  repeat match goal with
  | H : _ && _ = true |- _ => apply andb_prop in H; destruct H
  end; auto;
  repeat match goal with
  | IH : ?b = true -> _, H : ?b = true |- _ => specialize (IH H); clear H
  end;
  repeat match goal with
  | IH : forall st, emv _ _ _ st ?e = _ |- _ => rewrite IH; clear IH; cbn [bindr]
  | IH : forall st, emb _ _ _ st ?e = _ |- _ => rewrite IH; clear IH; cbn [bindr]
  end; reflexivity.
Qed.
Definition emb_plain get sg cond := proj2 (em_plain get sg cond).

Lemma inv_calls_plain : forall (f : gst -> bexp -> res (gst * bexp)) (g : bexp -> bexp) invs st,
  (forall inv, In inv invs -> forall st, f st inv = Ok (st, g inv)) ->
  inv_calls f st invs = Ok (st, map g invs).
Proof.
  induction invs as [|inv invs IH]; intros st H; cbn [inv_calls map]; [reflexivity|].
  rewrite H by (left; reflexivity). cbn [bindr]. rewrite IH; [reflexivity|]. intros; apply H; right; auto.
Qed.

Lemma freeze_plain : forall st,
  (forall e, nolkv e = true -> freezev st e = e) /\ (forall e, nolkb e = true -> freezeb st e = e).
Proof.
  intros. apply expr_mind; intros; cbn [freezev freezeb nolkv nolkb] in *; try discriminate;
  repeat match goal with
  | H : _ && _ = true |- _ => apply andb_prop in H; destruct H
  end; auto;
  repeat match goal with
  | IH : ?b = true -> _, H : ?b = true |- _ => specialize (IH H); clear H
  end;
  repeat match goal with
  | IH : freezev _ ?e = _ |- _ => rewrite IH; clear IH
  | IH : freezeb _ ?e = _ |- _ => rewrite IH; clear IH
  end; reflexivity.
Qed.

(** ** Known items without the cache *)

Fixpoint pure_known (ls : list layer) (base : list item) : list item :=
  match ls with
  | [] => base
  | L :: rest => litems L ++ transform_previous (litems L) (pure_known rest base)
  end.

Fixpoint coherent (ls : list layer) (base : list item) : Prop :=
  match ls with
  | [] => True
  | L :: rest =>
      coherent rest base /\
      (fst (lcache L) <= length (pure_known rest base))%nat /\
      snd (lcache L) = transform_previous (litems L) (firstn (fst (lcache L)) (pure_known rest base))
  end.

(** Same items and lengths; only the caches may differ. *)
Definition same_layer (a b : layer) : Prop := litems a = litems b /\ llen a = llen b.

Lemma pure_known_shape : forall ls ls' base, Forall2 same_layer ls ls' -> pure_known ls base = pure_known ls' base.
Proof. intros ls ls' base F. induction F as [|a b l l' [E _] F IH]; cbn; [auto|]. rewrite E, IH. reflexivity. Qed.

Lemma transform_app : forall kis a b,
  transform_previous kis (a ++ b) = transform_previous kis a ++ transform_previous kis b.
Proof. intros. unfold transform_previous. rewrite filter_app, map_app. reflexivity. Qed.

Lemma known_coherent : forall ls base, coherent ls base ->
  exists ls', known_layers ls base = (pure_known ls base, ls') /\ Forall2 same_layer ls ls' /\ coherent ls' base.
Proof.
  induction ls as [|L rest IH]; intros base C; cbn [known_layers pure_known].
  - exists []. auto.
  - destruct C as [C [CL CE]]. destruct (IH base C) as [rest' [E [S C']]]. rewrite E.
    destruct (lcache L) as [count cached] eqn:EC. cbn [fst snd] in *.
    destruct (Nat.eqb_spec (length (pure_known rest base)) count) as [X|X].
    + subst count. rewrite firstn_all in CE. subst cached. cbn [snd].
      eexists. split; [reflexivity|]. split.
      * constructor; [split; reflexivity|auto].
      * cbn [coherent lcache fst snd litems]. rewrite <- (pure_known_shape _ _ base S).
        rewrite firstn_all. repeat split; auto.
    + cbn [snd]. subst cached. rewrite <- transform_app, firstn_skipn.
      eexists. split; [reflexivity|]. split.
      * constructor; [split; reflexivity|auto].
      * cbn [coherent lcache fst snd litems]. rewrite <- (pure_known_shape _ _ base S).
        rewrite firstn_all. repeat split; auto.
Qed.

(** Adding an item to the oldest version only appends. *)
Lemma pure_known_app : forall ls base x, exists t, pure_known ls (base ++ [x]) = pure_known ls base ++ t.
Proof.
  induction ls as [|L rest IH]; intros base x; cbn [pure_known]; [eauto|].
  destruct (IH base x) as [t ->]. rewrite transform_app, app_assoc. eauto.
Qed.
Lemma coherent_app : forall ls base x, coherent ls base -> coherent ls (base ++ [x]).
Proof.
  induction ls as [|L rest IH]; intros base x C; cbn [coherent] in *; [auto|].
  destruct C as [C [CL CE]]. destruct (pure_known_app rest base x) as [t E]. rewrite E.
  split; [auto|]. split; [rewrite app_length; lia|].
  rewrite CE, firstn_app. replace (fst (lcache L) - length (pure_known rest base))%nat with O by lia.
  cbn [firstn]. rewrite app_nil_r. reflexivity.
Qed.

(** ** The newest write to a key *)

Fixpoint top (r : env) (ls : list layer) (q : N) : option (N * bool) :=
  match ls with
  | [] => None
  | L :: rest =>
      match find (fun i => ev r (ik i) =? q) (litems L) with
      | Some i => Some (val r i)
      | None => top r rest q
      end
  end.

Definition single (ls : list layer) : Prop := Forall (fun L => length (litems L) = 1%nat) ls.

Definition sized (ks vs : N) (i : item) : Prop := width (ik i) = ks /\ width (iv i) = vs.
Definition layers_sized (ks vs : N) (ls : list layer) : Prop := Forall (fun L => Forall (sized ks vs) (litems L)) ls.

Lemma transform1_sized : forall ks vs kis i, Forall (sized ks vs) kis -> sized ks vs i -> sized ks vs (transform1 kis i).
Proof.
  intros ks vs kis i F [Wk Wv]. split; [exact Wk|]. cbn [iv transform1].
  apply (ite_cases_eval env0); [|auto]. intros c v Hin. apply in_map_iff in Hin as [ki [E Hin]].
  injection E as <- <-. rewrite Forall_forall in F. apply (F ki Hin).
Qed.
Lemma pure_known_sized : forall ks vs ls base, layers_sized ks vs ls -> Forall (sized ks vs) base ->
  Forall (sized ks vs) (pure_known ls base).
Proof.
  intros ks vs ls base F B. induction F as [|L rest FL F IH]; cbn [pure_known]; [auto|].
  apply Forall_app. split; [auto|]. apply Forall_forall. intros i Hin.
  apply in_map_iff in Hin as [j [<- Hin]]. apply filter_In in Hin as [Hin _].
  rewrite Forall_forall in IH. apply transform1_sized; auto.
Qed.

(** What a transformed item says: the value of the first item of the layer with the
    same key, else its own. *)
Lemma transform1_val : forall r ks vs kis i, Forall (sized ks vs) kis -> sized ks vs i ->
  val r (transform1 kis i) =
  match find (fun ki => ev r (ik ki) =? ev r (ik i)) kis with Some ki => val r ki | None => val r i end.
Proof.
  intros r ks vs kis i F [Wk Wv]. unfold val. cbn [iv ip transform1].
  rewrite (proj2 (ite_cases_eval r (map (fun ki => (BEq (ik i) (ik ki), iv ki)) kis) (iv i) vs
    ltac:(intros c v Hin; apply in_map_iff in Hin as [ki [E Hin]]; injection E as <- <-;
          rewrite Forall_forall in F; apply (F ki Hin)) Wv)).
  rewrite ite_cases_b_eval.
  assert (G : forall B (f : item -> B), find (fun p : bexp * B => eb r (fst p)) (map (fun ki => (BEq (ik i) (ik ki), f ki)) kis)
     = option_map (fun ki => (BEq (ik i) (ik ki), f ki)) (find (fun ki => ev r (ik ki) =? ev r (ik i)) kis)).
  { intros B f. induction kis as [|ki kis IH]; cbn; [reflexivity|].
    rewrite N.eqb_sym. destruct (ev r (ik ki) =? ev r (ik i)); [reflexivity|]. apply IH.
    inversion F; auto. }
  rewrite !G. destruct (find (fun ki => ev r (ik ki) =? ev r (ik i)) kis); reflexivity.
Qed.

Lemma transform1_key : forall kis i, ik (transform1 kis i) = ik i.
Proof. reflexivity. Qed.

(** Known items say what the newest write, else an item of the oldest version, says. *)
Lemma pure_known_val : forall r ks vs ls base i,
  single ls -> layers_sized ks vs ls -> Forall (sized ks vs) base ->
  In i (pure_known ls base) ->
  top r ls (ev r (ik i)) = Some (val r i) \/
  (top r ls (ev r (ik i)) = None /\ exists j, In j base /\ ik j = ik i /\ val r j = val r i).
Proof.
  intros r ks vs. induction ls as [|L rest IH]; intros base i Sg Sz B Hin; cbn [pure_known top] in *.
  - right. split; [auto|]. exists i. auto.
  - inversion Sg as [|? ? S1 Srest]; subst. inversion Sz as [|? ? Z1 Zrest]; subst.
    destruct (litems L) as [|x [|? ?]] eqn:EL; cbn [length] in S1; try discriminate S1.
    cbn [app find] in *. destruct Hin as [<-|Hin].
    + left. rewrite N.eqb_refl. reflexivity.
    + apply in_map_iff in Hin as [j [<- Hin]]. apply filter_In in Hin as [Hin _].
      assert (Szj : sized ks vs j).
      { pose proof (pure_known_sized ks vs rest base Zrest B) as P. rewrite Forall_forall in P. auto. }
      rewrite (transform1_val r ks vs [x] j Z1 Szj). cbn [find]. rewrite transform1_key.
      destruct (N.eqb_spec (ev r (ik x)) (ev r (ik j))) as [E|NE]; [left; auto|].
      destruct (IH base j Srest Zrest B Hin) as [T|[T [j0 [H1 [H2 H3]]]]]; [left; auto|].
      right. split; [auto|]. exists j0. auto.
Qed.

(** Every written key and every known key of an older version stays known. *)
Lemma known_step : forall r L rest base i, In i (pure_known rest base) ->
  exists j, In j (pure_known (L :: rest) base) /\ ev r (ik j) = ev r (ik i).
Proof.
  intros r L rest base i Hin. cbn [pure_known].
  destruct (not_own (litems L) i) eqn:E.
  - exists (transform1 (litems L) i). split; [|reflexivity]. apply in_or_app. right.
    apply in_map. apply filter_In. auto.
  - unfold not_own in E. assert (X : exists ki, In ki (litems L) /\ bv_eqb (ik i) (ik ki) = true).
    { clear -E. induction (litems L) as [|ki l IH]; cbn in E; [discriminate|].
      destruct (bv_eqb (ik i) (ik ki)) eqn:B; [exists ki; split; [left; auto|auto]|].
      cbn in E. destruct (IH E) as [kj [? ?]]. exists kj. split; [right; auto|auto]. }
    destruct X as [ki [Hk B]]. apply bv_eqb_eq in B. exists ki. split; [apply in_or_app; auto|congruence].
Qed.
Lemma known_base : forall r ls base i, In i base -> exists j, In j (pure_known ls base) /\ ev r (ik j) = ev r (ik i).
Proof.
  intros r. induction ls as [|L rest IH]; intros base i Hin; [eauto|].
  destruct (IH base i Hin) as [j [Hj E]]. destruct (known_step r L rest base j Hj) as [j' [Hj' E']].
  exists j'. split; [auto|congruence].
Qed.
Lemma known_top : forall r ls base q, top r ls q <> None -> exists i, In i (pure_known ls base) /\ ev r (ik i) = q.
Proof.
  intros r. induction ls as [|L rest IH]; intros base q T; cbn [top] in T; [congruence|].
  destruct (find (fun i => ev r (ik i) =? q) (litems L)) eqn:F.
  - apply find_some in F as [Hin E]. apply N.eqb_eq in E. exists i. split; [|auto].
    cbn [pure_known]. apply in_or_app. auto.
  - destruct (IH base q T) as [i [Hi E]]. destruct (known_step r L rest base i Hi) as [j [Hj E']].
    exists j. split; [auto|congruence].
Qed.

(** ** Counting *)

Fixpoint newkeys (r : env) (seen : list N) (items : list item) : list N :=
  match items with
  | [] => []
  | i :: items' =>
      let q := ev r (ik i) in
      if negb (existsb (N.eqb q) seen) && eb r (ip i)
      then q :: newkeys r (seen ++ [q]) items'
      else newkeys r (seen ++ [q]) items'
  end.

Lemma newkeys_in : forall r items seen q, In q (newkeys r seen items) ->
  ~ In q seen /\ exists i, In i items /\ ev r (ik i) = q /\ eb r (ip i) = true.
Proof.
  intros r. induction items as [|i items IH]; intros seen q Hin; cbn [newkeys] in Hin; [destruct Hin|].
  destruct (negb (existsb (N.eqb (ev r (ik i))) seen) && eb r (ip i)) eqn:E.
  - apply andb_prop in E as [E1 E2]. destruct Hin as [<-|Hin].
    + split.
      * intros Hs. apply negb_true_iff in E1. assert (existsb (N.eqb (ev r (ik i))) seen = true); [|congruence].
        apply existsb_exists. exists (ev r (ik i)). split; [auto|apply N.eqb_refl].
      * exists i. split; [left; auto|auto].
    + destruct (IH _ _ Hin) as [N1 [j [H1 H2]]]. split; [intros Hs; apply N1, in_or_app; auto|].
      exists j. split; [right; auto|auto].
  - destruct (IH _ _ Hin) as [N1 [j [H1 H2]]]. split; [intros Hs; apply N1, in_or_app; auto|].
    exists j. split; [right; auto|auto].
Qed.
Lemma newkeys_NoDup : forall r items seen, NoDup (newkeys r seen items).
Proof.
  intros r. induction items as [|i items IH]; intros seen; cbn [newkeys]; [constructor|].
  destruct (negb (existsb (N.eqb (ev r (ik i))) seen) && eb r (ip i)); [|auto].
  constructor; [|auto]. intros Hin. apply newkeys_in in Hin as [N1 _]. apply N1, in_or_app. right. left. auto.
Qed.

Section Len.
Variable k : claripy.
Hypothesis KOK : claripy_ok k.

Lemma mkadd_w : forall a b, width (mkadd k a b) = width a.
Proof. intros. destruct (ok_add k KOK a b) as [W _]. rewrite <- W. reflexivity. Qed.
Lemma mkadd_ev : forall r a b, ev r (mkadd k a b) = wrap (width a) (ev r a + ev r b).
Proof. intros. destruct (ok_add k KOK a b) as [_ [_ E]]. rewrite <- E. reflexivity. Qed.
Lemma mkif_w : forall c a b, width (mkif k c a b) = width a.
Proof. intros. destruct (ok_if k KOK c a b) as [W _]. rewrite <- W. reflexivity. Qed.
Lemma mkif_ev : forall r c a b, ev r (mkif k c a b) = wrap (width a) (if eb r c then ev r a else ev r b).
Proof. intros. destruct (ok_if k KOK c a b) as [_ [_ E]]. rewrite <- E. reflexivity. Qed.
Lemma mkadd_dep : forall n a b, dep n a -> dep n b -> dep n (mkadd k a b).
Proof. intros. eapply dep_bveq; [apply ok_add; auto|]. auto with depdb. Qed.
Lemma mkif_dep : forall n c a b, depb n c -> dep n a -> dep n b -> dep n (mkif k c a b).
Proof. intros. eapply dep_bveq; [apply ok_if; auto|]. auto with depdb. Qed.

Lemma known_len_dep : forall n w items seen acc,
  Forall (dep_item n) items -> Forall (dep n) seen -> dep n acc -> dep n (known_len k w seen items acc).
Proof.
  intros n w. induction items as [|i items IH]; intros seen acc F S A; cbn [known_len]; [auto|].
  inversion F as [|? ? [D1 [D2 D3]] F']; subst. apply IH; [auto|apply Forall_app; auto|].
  apply mkadd_dep; [auto|]. apply mkif_dep; auto with depdb. apply depb_BAnd; [|auto].
  apply depb_BAndL. apply Forall_forall. intros c Hc. apply in_map_iff in Hc as [k' [<- Hk]].
  rewrite Forall_forall in S. apply depb_BNe; auto.
Qed.

Lemma wrap_0 : forall w, wrap w 0 = 0.
Proof. intros. apply wrap_small. auto. Qed.

Lemma known_len_ev : forall r w items seen acc, width acc = w ->
  ev r (known_len k w seen items acc) = wrap w (ev r acc + N.of_nat (length (newkeys r (map (ev r) seen) items))).
Proof.
  intros r w. induction items as [|i items IH]; intros seen acc W; cbn [known_len newkeys length].
  - rewrite N.add_0_r, wrap_small; [auto|]. rewrite <- W. apply evalv_lt.
  - rewrite IH by (rewrite mkadd_w; auto). rewrite map_app. cbn [map].
    rewrite mkadd_ev, mkif_ev, W. cbn [width].
    assert (E : eb r (BAnd (BAndL (map (fun k' => BNe (ik i) k') seen)) (ip i)) =
                negb (existsb (N.eqb (ev r (ik i))) (map (ev r) seen)) && eb r (ip i)).
    { cbn [evalb]. f_equal. clear. induction seen as [|x l IH]; cbn; [reflexivity|].
      unfold BAndL in IH. rewrite IH, negb_orb. reflexivity. }
    rewrite E. destruct (negb (existsb (N.eqb (ev r (ik i))) (map (ev r) seen)) && eb r (ip i));
      cbn [evalv length]; rewrite !wrap_wrap; unfold wrap.
    + rewrite N.add_mod_idemp_r, N.add_mod_idemp_l by auto. f_equal. lia.
    + rewrite N.add_mod_idemp_r, N.add_mod_idemp_l by auto. f_equal. lia.
Qed.

End Len.

(** ** Sub-states *)

Lemma set_map_same : forall st m g, gmaps (set_map st m g) m = Some g.
Proof. intros. cbn. rewrite N.eqb_refl. reflexivity. Qed.
Lemma set_map_other : forall st m g x, x <> m -> gmaps (set_map st m g) x = gmaps st x.
Proof. intros. cbn. destruct (N.eqb_spec x m); congruence. Qed.
