(** * A backtracking solver

    The brute-force solver of Solver.v tries every assignment. This one assigns symbols one
    at a time and gives up as soon as a constraint is false whatever the rest is, so that
    longer runs can be computed in the examples. It meets the same premise, [solver_ok]. It
    models no code of its own: it stands for Z3 in examples. *)

From Coq Require Import NArith List Bool Lia.
From Verif Require Import Expr Solver.
Import ListNotations.
Open Scope N_scope.

Record penv := mkP { pbv : N -> option N; pbool : N -> option bool }.

Definition two (f : bv -> bv -> bv) (a b : bv) (va vb : option N) : option N :=
  match va, vb with Some x, Some y => Some (ev env0 (f (BVV (width a) x) (BVV (width b) y))) | _, _ => None end.
Definition rel (f : N -> N -> bool) (va vb : option N) : option bool :=
  match va, vb with Some x, Some y => Some (f x y) | _, _ => None end.

Fixpoint pv (p : penv) (e : bv) : option N :=
  match e with
  | BVV w v => Some (wrap w v)
  | BVS w x => match pbv p x with Some v => Some (wrap w v) | None => None end
  | BvAdd a b => two BvAdd a b (pv p a) (pv p b)
  | BvSub a b => two BvSub a b (pv p a) (pv p b)
  | BvMul a b => two BvMul a b (pv p a) (pv p b)
  | BvUdiv a b => two BvUdiv a b (pv p a) (pv p b)
  | BvUrem a b => two BvUrem a b (pv p a) (pv p b)
  | BvAnd a b => two BvAnd a b (pv p a) (pv p b)
  | BvOr a b => two BvOr a b (pv p a) (pv p b)
  | BvXor a b => two BvXor a b (pv p a) (pv p b)
  | BvShl a b => two BvShl a b (pv p a) (pv p b)
  | BvLshr a b => two BvLshr a b (pv p a) (pv p b)
  | BvConcat a b => two BvConcat a b (pv p a) (pv p b)
  | BvExtract h l a => match pv p a with Some x => Some (wrap (h + 1 - l) (x / 2 ^ l)) | None => None end
  | BvZext n a => pv p a
  | BvIte c a b => match pb p c with
                   | Some true => match pv p a with Some x => Some (wrap (width a) x) | None => None end
                   | Some false => match pv p b with Some x => Some (wrap (width a) x) | None => None end
                   | None => None
                   end
  | MapGet m k vs ver => Some (wrap vs 0)
  end
with pb (p : penv) (e : bexp) : option bool :=
  match e with
  | BTrue => Some true
  | BFalse => Some false
  | BoolS x => pbool p x
  | BNot a => option_map negb (pb p a)
  | BAnd a b => match pb p a with
                | Some false => Some false
                | Some true => pb p b
                | None => match pb p b with Some false => Some false | _ => None end
                end
  | BOr a b => match pb p a with
               | Some true => Some true
               | Some false => pb p b
               | None => match pb p b with Some true => Some true | _ => None end
               end
  | BIff a b => match pb p a, pb p b with Some x, Some y => Some (Bool.eqb x y) | _, _ => None end
  | BEq a b => rel N.eqb (pv p a) (pv p b)
  | BUlt a b => rel N.ltb (pv p a) (pv p b)
  | BUle a b => rel N.leb (pv p a) (pv p b)
  | BIteB c a b => match pb p c with Some true => pb p a | Some false => pb p b | None => None end
  | MapHas _ _ _ => Some false
  | MapHasV _ _ _ _ => Some false
  end.

(** The total assignment goes on from the partial one. *)
Definition extends (r : env) (p : penv) : Prop :=
  (forall x v, pbv p x = Some v -> ebv r x = v) /\ (forall x b, pbool p x = Some b -> ebool r x = b).

Lemma two_eval : forall r a b va vb n f,
  In f [BvAdd; BvSub; BvMul; BvUdiv; BvUrem; BvAnd; BvOr; BvXor; BvShl; BvLshr; BvConcat] ->
  two f a b va vb = Some n ->
  (forall v, va = Some v -> ev r a = v) -> (forall v, vb = Some v -> ev r b = v) -> ev r (f a b) = n.
Proof.
  intros * HF H A B. unfold two in H. destruct va as [x|]; [|discriminate]. destruct vb as [y|]; [|discriminate].
  specialize (A x eq_refl). specialize (B y eq_refl). injection H as <-.
  pose proof (evalv_lt lk0 r a) as La. pose proof (evalv_lt lk0 r b) as Lb. rewrite A in La. rewrite B in Lb.
  repeat (destruct HF as [<-|HF]; [cbn [evalv width]; rewrite A, B, (wrap_small (width a) x La), (wrap_small (width b) y Lb); reflexivity|]).
  destruct HF.
Qed.

Lemma partial_eval : forall r p, extends r p ->
  (forall e v, pv p e = Some v -> ev r e = v) /\ (forall e b, pb p e = Some b -> eb r e = b).
Proof.
  intros r p [EV EB]. apply expr_mind; intros; cbn [pv pb] in *;
  try (match goal with H : two ?f _ _ _ _ = Some _ |- _ => eapply (two_eval r _ _ _ _ _ f); [cbn; tauto|exact H|auto|auto] end; fail);
  try (match goal with H : rel _ (pv p ?a) (pv p ?b) = Some _ |- _ =>
     unfold rel in H; destruct (pv p a) eqn:?; [|discriminate]; destruct (pv p b) eqn:?; [|discriminate];
     injection H as <-; cbn [evalb];
     repeat match goal with IH : forall v, Some ?n = Some v -> _ |- _ => rewrite (IH _ eq_refl); clear IH end; reflexivity end; fail).
  - injection H as <-. reflexivity.
  - destruct (pbv p _) eqn:E; [|discriminate]. injection H as <-. cbn [evalv]. rewrite (EV _ _ E). reflexivity.
  - destruct (pv p a) eqn:E; [|discriminate]. injection H0 as <-. cbn [evalv]. rewrite (H _ eq_refl). reflexivity.
  - cbn [evalv]. auto.
  - destruct (pb p c) as [[]|] eqn:E; [| |discriminate]; cbn [evalv]; rewrite (H _ eq_refl).
    + destruct (pv p a) eqn:Ea; [|discriminate]. injection H2 as <-. rewrite (H0 _ eq_refl). reflexivity.
    + destruct (pv p b) eqn:Eb; [|discriminate]. injection H2 as <-. rewrite (H1 _ eq_refl). reflexivity.
  - injection H0 as <-. reflexivity.
  - injection H as <-. reflexivity.
  - injection H as <-. reflexivity.
  - cbn [evalb]. auto.
  - destruct (pb p a) as [x|] eqn:E; [|discriminate]. cbn in H0. injection H0 as <-. cbn [evalb]. rewrite (H _ eq_refl). reflexivity.
  - cbn [evalb]. destruct (pb p a) as [[]|] eqn:Ea.
    + rewrite (H _ eq_refl). cbn. auto.
    + injection H1 as <-. rewrite (H _ eq_refl). reflexivity.
    + destruct (pb p b) as [[]|] eqn:Eb; try discriminate. injection H1 as <-. rewrite (H0 _ eq_refl). apply andb_false_r.
  - cbn [evalb]. destruct (pb p a) as [[]|] eqn:Ea.
    + injection H1 as <-. rewrite (H _ eq_refl). reflexivity.
    + rewrite (H _ eq_refl). cbn. auto.
    + destruct (pb p b) as [[]|] eqn:Eb; try discriminate. injection H1 as <-. rewrite (H0 _ eq_refl). apply orb_true_r.
  - cbn [evalb]. destruct (pb p a) as [x|]; [|discriminate]. destruct (pb p b) as [y|]; [|discriminate].
    injection H1 as <-. rewrite (H _ eq_refl), (H0 _ eq_refl). reflexivity.
  - cbn [evalb]. destruct (pb p c) as [[]|]; [| |discriminate]; rewrite (H _ eq_refl); auto.
  - injection H0 as <-. reflexivity.
  - injection H1 as <-. reflexivity.
Qed.

(** ** The search *)

Inductive var := Vb (x : N) | Vv (x w : N).
Definition psetb (p : penv) (x : N) (b : bool) : penv :=
  mkP (pbv p) (fun y => if y =? x then Some b else pbool p y).
Definition psetv (p : penv) (x v : N) : penv :=
  mkP (fun y => if y =? x then Some v else pbv p y) (pbool p).

Definition dead (p : penv) (c : bexp) : bool := match pb p c with Some false => true | _ => false end.
Definition open (p : penv) (c : bexp) : bool := match pb p c with Some true => false | _ => true end.

(** [all] is checked at the end; [cs] are the constraints not yet known to hold. *)
Fixpoint bt_find (all cs : list bexp) (l : list var) (p : penv) (r : env) : option env :=
  if existsb (dead p) cs then None
  else
    match l with
    | [] => if forallb (eb r) all then Some r else None
    | Vb x :: l =>
        match pbool p x with
        | Some _ => bt_find all cs l p r
        | None =>
            let cs' := filter (open p) cs in
            match bt_find all cs' l (psetb p x false) (updb r x false) with
            | Some r => Some r
            | None => bt_find all cs' l (psetb p x true) (updb r x true)
            end
        end
    | Vv x w :: l =>
        match pbv p x with
        | Some _ => bt_find all cs l p r
        | None =>
            let cs' := filter (open p) cs in
            try_upto (N.to_nat (2 ^ w)) (fun v => bt_find all cs' l (psetv p x v) (updv r x v))
        end
    end.

Definition bt_vars (cs : list bexp) : list var :=
  let vs := flat_map bvvars cs in
  flat_map (fun c => map Vb (bbools c) ++ map (fun q => Vv (fst q) (wid vs (fst q))) (bvvars c)) cs.
Definition bt_search (cs : list bexp) : option env :=
  bt_find cs cs (bt_vars cs) (mkP (fun _ => None) (fun _ => None)) env0.
Definition bt : solver :=
  mkSolver (fun cs => match bt_search cs with Some _ => true | None => false end)
           (fun cs e => match bt_search cs with Some r => ev r e | None => 0 end).

Lemma bt_find_sound : forall l all cs p r r', bt_find all cs l p r = Some r' -> holds r' all.
Proof.
  induction l as [|[x|x w] l IH]; intros * H; cbn [bt_find] in H; destruct (existsb (dead p) cs); try discriminate.
  - destruct (forallb (eb r) all) eqn:E; [|discriminate]. injection H as <-. rewrite forallb_forall in E. exact E.
  - destruct (pbool p x); [eauto|].
    destruct (bt_find all (filter (open p) cs) l (psetb p x false) (updb r x false)) eqn:E; [|eauto].
    injection H as <-. eauto.
  - destruct (pbv p x); [eauto|]. apply try_upto_some in H as [v H]. eauto.
Qed.

(** A search that fails: no assignment [t] within the widths satisfies the constraints. *)
Lemma bt_find_complete : forall l all cs p r t,
  bt_find all cs l p r = None -> holds t all -> holds t cs -> extends t p -> extends r p ->
  (forall x w, In (Vv x w) l -> ebv t x < 2 ^ w) ->
  (forall x, (exists w, In (Vv x w) l) \/ (exists v, pbv p x = Some v) \/ ~ In x (map fst (flat_map bvvars all))) ->
  (forall x, In (Vb x) l \/ (exists v, pbool p x = Some v) \/ ~ In x (flat_map bbools all)) -> False.
Proof.
  induction l as [|[x|x w] l IH]; intros * H HT HC ET ER HW CV CB; cbn [bt_find] in H;
  (destruct (existsb (dead p) cs) eqn:D;
   [apply existsb_exists in D as [c [Hc D]]; unfold dead in D; destruct (pb p c) as [[]|] eqn:E; try discriminate;
    apply (proj2 (partial_eval t p ET)) in E; rewrite (HC c Hc) in E; discriminate|clear D]).
  - assert (X : forallb (eb r) all = true); [|rewrite X in H; discriminate].
    apply forallb_forall. intros c Hc. rewrite <- (HT c Hc). apply evalb_agree. split.
    + intros y w Hy. destruct (CV y) as [[w0 []]|[[v E]|N]].
      * rewrite (proj1 ET _ _ E), (proj1 ER _ _ E). reflexivity.
      * exfalso. apply N. apply in_map_iff. exists (y, w). split; [reflexivity|]. apply in_flat_map. eauto.
    + intros y Hy. destruct (CB y) as [[]|[[v E]|N]].
      * rewrite (proj2 ET _ _ E), (proj2 ER _ _ E). reflexivity.
      * exfalso. apply N. apply in_flat_map. eauto.
  - destruct (pbool p x) as [b0|] eqn:PX.
    + eapply (IH all cs p r t); eauto.
      * intros y w0 Hy. apply HW. right. exact Hy.
      * intros y. destruct (CV y) as [[w0 [F|Hy]]|[?|?]]; [discriminate F| | |]; eauto.
      * intros y. destruct (CB y) as [[F|Hy]|[?|?]]; [injection F as <-| | |]; eauto.
    + set (b := ebool t x).
      assert (HB : bt_find all (filter (open p) cs) l (psetb p x b) (updb r x b) = None).
      { destruct (bt_find all (filter (open p) cs) l (psetb p x false) (updb r x false)) eqn:E; [discriminate|].
        destruct b; auto. }
      eapply (IH all (filter (open p) cs) (psetb p x b) (updb r x b) t); eauto.
      * intros c Hc. apply filter_In in Hc. apply HC. apply Hc.
      * split; cbn; [apply ET|]. intros y v. destruct (N.eqb_spec y x) as [->|]; [intros Q; injection Q as <-; reflexivity|apply ET].
      * split; cbn; [apply ER|]. intros y v. destruct (N.eqb_spec y x) as [->|]; [intros Q; injection Q as <-; reflexivity|apply ER].
      * intros y w0 Hy. apply HW. right. exact Hy.
      * intros y. cbn. destruct (CV y) as [[w0 [F|Hy]]|[?|?]]; [discriminate F| | |]; eauto.
      * intros y. cbn. destruct (N.eqb_spec y x) as [->|NE]; [eauto|].
        destruct (CB y) as [[F|Hy]|[?|?]]; [injection F as ->; congruence| | |]; eauto.
  - destruct (pbv p x) as [b0|] eqn:PX.
    + eapply (IH all cs p r t); eauto.
      * intros y w0 Hy. apply HW. right. exact Hy.
      * intros y. destruct (CV y) as [[w0 [F|Hy]]|[?|?]]; [injection F as <- <-| | |]; eauto.
      * intros y. destruct (CB y) as [[F|Hy]|[?|?]]; [discriminate F| | |]; eauto.
    + set (v := ebv t x).
      assert (HB : bt_find all (filter (open p) cs) l (psetv p x v) (updv r x v) = None).
      { apply (try_upto_none _ (fun v => bt_find all (filter (open p) cs) l (psetv p x v) (updv r x v)) v H).
        rewrite N2Nat.id. apply HW. left. reflexivity. }
      eapply (IH all (filter (open p) cs) (psetv p x v) (updv r x v) t); eauto.
      * intros c Hc. apply filter_In in Hc. apply HC. apply Hc.
      * split; cbn; [|apply ET]. intros y v0. destruct (N.eqb_spec y x) as [->|]; [intros Q; injection Q as <-; reflexivity|apply ET].
      * split; cbn; [|apply ER]. intros y v0. destruct (N.eqb_spec y x) as [->|]; [intros Q; injection Q as <-; reflexivity|apply ER].
      * intros y w0 Hy. apply HW. right. exact Hy.
      * intros y. cbn. destruct (N.eqb_spec y x) as [->|NE]; [eauto|].
        destruct (CV y) as [[w0 [F|Hy]]|[?|?]]; [injection F as -> ->; congruence| | |]; eauto.
      * intros y. cbn. destruct (CB y) as [[F|Hy]|[?|?]]; [discriminate F| | |]; eauto.
Qed.

Lemma bt_search_complete : forall cs t, holds t cs -> bt_search cs <> None.
Proof.
  intros cs t HT H. unfold bt_search in H. set (vs := flat_map bvvars cs) in *.
  set (t' := mkEnv (fun x => wrap (wid vs x) (ebv t x)) (ebool t)).
  assert (HT' : holds t' cs).
  { intros c Hc. rewrite <- (HT c Hc). apply evalb_agree. split; [|reflexivity].
    intros x w Hx. cbn. apply wrap_wrap_le. apply wid_ge. apply in_flat_map. eauto. }
  eapply (bt_find_complete _ _ _ _ _ t' H); auto.
  - split; cbn; discriminate.
  - split; cbn; discriminate.
  - intros x w Hx. unfold bt_vars in Hx. apply in_flat_map in Hx as [c [Hc Hx]].
    apply in_app_iff in Hx as [Hx|Hx]; apply in_map_iff in Hx as [q [E Hx]]; [discriminate E|].
    injection E as <- <-. cbn. apply wrap_lt.
  - intros x. destruct (in_dec N.eq_dec x (map fst (flat_map bvvars cs))) as [I|]; [left|auto].
    apply in_map_iff in I as [[x' w] [<- I]]. apply in_flat_map in I as [c [Hc I]].
    exists (wid vs x'). apply in_flat_map. exists c. split; [exact Hc|]. apply in_app_iff. right.
    apply in_map_iff. exists (x', w). auto.
  - intros x. destruct (in_dec N.eq_dec x (flat_map bbools cs)) as [I|]; [left|auto].
    apply in_flat_map in I as [c [Hc I]]. apply in_flat_map. exists c. split; [exact Hc|].
    apply in_app_iff. left. apply in_map. exact I.
Qed.

Theorem bt_ok : solver_ok bt.
Proof.
  split.
  - intros cs. cbn. destruct (bt_search cs) as [r|] eqn:E; split; intros H; try discriminate; auto.
    + exists r. eapply bt_find_sound; eauto.
    + destruct H as [t H]. exfalso. eapply bt_search_complete; eauto.
  - intros cs e [t H]. cbn. destruct (bt_search cs) as [r|] eqn:E.
    + exists r. split; [|reflexivity]. eapply bt_find_sound; eauto.
    + exfalso. eapply bt_search_complete; eauto.
Qed.
