(** Property theorems C73-C75 and C94 (invariant inference). *)

From Coq Require Import NArith List Bool Lia Arith.
From Verif Require Import Expr Solver Bt Wt GhostMap GhostSpec GhostFacts GhostSim Infer InferFacts.
Import ListNotations.
Open Scope N_scope.

(** ** C73 *)

(** C73: the relaxed invariants are as many as the old ones, each is implied by the old
    one (for every key, value, presence and content of the other maps), and if no change is
    reported they are the old ones. *)
Theorem C73_widening_is_monotone : forall s k fuel m anc states conjs ch es states',
  flatten_items s k fuel m anc states conjs = Ok (ch, es, states') ->
  Forall2 (fun e e' => forall lk r, evalb lk r e = true -> evalb lk r e' = true) conjs es /\
  (ch = false -> es = conjs).
Proof. intros s k fuel m anc states conjs. exact (flatten_items_grows s k fuel m anc conjs states). Qed.
Print Assumptions C73_widening_is_monotone.

(** C73: an item that violates the invariant so far satisfies the relaxed one, in every
    assignment the state allows and whatever the other maps hold. *)
Theorem C73_violating_item_is_covered : forall s k fuel, solver_ok s ->
  forall ks vs anc st e i e' st' r,
  flatten_item s k fuel ks vs anc st e i = Ok (true, e', st') ->
  width (ik i) = ks -> width (iv i) = vs -> clean_state st' -> holds r (gcs st') ->
  forall lk, evalb lk (setKVP r (ev r (ik i)) (ev r (iv i), eb r (ip i))) e' = true.
Proof.
  intros s k fuel SOK ks vs anc st e i e' st' r H Wk Wv CL HR.
  exact (flatten_item_covers s SOK k fuel ks vs anc st e i e' st' r H (conj Wk Wv) CL HR).
Qed.
Print Assumptions C73_violating_item_is_covered.

(** C73: for invariants without lookups, every item that any of the states wrote to the map
    satisfies all the relaxed invariants, in every assignment its state allows. *)
Theorem C73_written_items_comply : forall s k fuel, solver_ok s ->
  forall ks vs m anc states conjs ch es states',
  flatten_items s k fuel m anc states conjs = Ok (ch, es, states') ->
  (forall e, In e conjs -> nolkb e = true /\ kv_sized ks vs e = true) ->
  (forall st, In st states -> map_sized ks vs m st /\ clean_state st) ->
  forall e st g i r, In e es -> In st states -> gmaps st m = Some g -> In i (set_items g) ->
  holds r (gcs st) -> eb r (ip i) = true ->
  eb (setKVP r (ev r (ik i)) (ev r (iv i), eb r (ip i))) e = true.
Proof.
  intros s k fuel SOK ks vs m anc states conjs ch es states' H PL OK e st g i r He Hs G Hi HR P.
  destruct (flatten_items_plain s SOK k fuel ks vs m anc conjs states ch es states' H
    ltac:(apply Forall_forall; exact PL) OK) as [_ [_ C]].
  exact (C e st He Hs g i r G Hi HR P).
Qed.
Print Assumptions C73_written_items_comply.

(** A packet handler: writes 1 at its key (input 2), which it has checked to be 1, in a map of
    one-bit keys and values created empty. *)
Definition no_guess (_ : N) (_ : list N) (_ : list gst) : list bexp := [].
Definition get_st (x : res gst) : gst := match x with Ok a => a | _ => ginit 3 2 end.
Definition one0 : gst := get_st (map_new bt cl_fold 5 (ginit 3 2) 0 1 1 None).
Definition one_pkt : handler := fun st =>
  do a <- set_ bt cl_fold 5 (add_cs st [BEq (BVS 1 2) (BVV 1 1)]) 0 (BVS 1 2) (BVV 1 1); Ok [a].
Definition one_end : list gst := match one_pkt one0 with Ok l => l | _ => [] end.
Example C73_example : exists e e' states' st g i,
  ginvs g = [e] /\ gmaps one0 0 = Some g /\
  flatten_items bt cl_fold 5 0 (get_variables [0] [one0]) one_end [e] = Ok (true, [e'], states') /\
  nolkb e = true /\ kv_sized 1 1 e = true /\ In st one_end /\ map_sized 1 1 0 st /\ clean_state st /\
  (exists g', gmaps st 0 = Some g' /\ In i (set_items g')) /\
  holds (mkEnv (fun _ => 1) (fun _ => false)) (gcs st) /\
  eb (setKVP env0 1 (1, true)) e = false /\ eb (setKVP env0 1 (1, true)) e' = true /\
  eb (setKVP env0 0 (1, true)) e' = false.
Proof.
  do 6 eexists. split; [|split; [vm_compute; reflexivity|]]; [vm_compute; reflexivity|].
  split; [vm_compute; reflexivity|]. split; [reflexivity|]. split; [reflexivity|].
  split; [left; reflexivity|]. split.
  - eexists. split; [vm_compute; reflexivity|]. repeat constructor.
  - split.
    + intros c Hc. vm_compute in Hc. repeat destruct Hc as [<-|Hc]; try destruct Hc; unfold cleanb; cbn;
      repeat split; intros; repeat match goal with H : _ \/ _ |- _ => destruct H end; try contradiction;
      try match goal with H : (_, _) = (_, _) |- _ => injection H as <- <- end; subst; discriminate.
    + split; [eexists; split; [vm_compute; reflexivity|left; reflexivity]|].
      split; [|repeat split; vm_compute; reflexivity].
      intros c' Hc; vm_compute in Hc; repeat (destruct Hc as [<-|Hc]; [vm_compute; reflexivity|]); destruct Hc.
Qed.

(** ** C94 *)

(** C94, part: for invariants without lookups and items whose keys and values are symbols or
    constants, the relaxed invariants mention, beyond what the old ones did, only the item's
    key and value (symbols 0 and 1) and symbols that every starting state knows and that no
    map uses for its unknown item. Missing: keys and values that are compound terms, for
    which it is false. *)
Theorem C94_only_shared_symbols_partial : forall s k fuel, solver_ok s ->
  forall ks vs m anc states conjs ch es states',
  flatten_items s k fuel m anc states conjs = Ok (ch, es, states') ->
  (forall e, In e conjs -> nolkb e = true /\ kv_sized ks vs e = true) ->
  (forall st, In st states -> map_sized ks vs m st /\ clean_state st) ->
  (forall st, In st states -> simple_items m st) ->
  Forall2 (fun e e' =>
    (forall z w, In (z, w) (bvvars e') -> In z (map fst (bvvars e)) \/ z = 0 \/ z = 1 \/ In z (fst anc)) /\
    (forall z, In z (bbools e') -> In z (bbools e) \/ In z (snd anc))) conjs es.
Proof.
  intros s k fuel SOK ks vs m anc states conjs ch es states' H PL OK SI.
  assert (F := flatten_items_names s SOK k fuel ks vs m anc conjs states ch es states' H ltac:(apply Forall_forall; exact PL) OK SI).
  clear - F. induction F as [|e e' l l' [A B] F IH]; constructor; [|exact IH]. split; [|exact B].
  intros z w Hz. apply A. exact (in_map fst _ _ Hz).
Qed.
Print Assumptions C94_only_shared_symbols_partial.
Theorem C94_shared_symbols : forall objs states z,
  (In z (fst (get_variables objs states)) -> forall st, In st states -> exists c w, In c (gcs st) /\ In (z, w) (bvvars c)) /\
  (In z (snd (get_variables objs states)) -> forall st, In st states -> exists c, In c (gcs st) /\ In z (bbools c)) /\
  (forall m st0 rest g, states = st0 :: rest -> In m objs -> gmaps st0 m = Some g ->
    (In z (fst (get_variables objs states)) -> ~ In z (map fst (vvars (ik (gunk g)))) /\ ~ In z (map fst (vvars (iv (gunk g))))) /\
    (In z (snd (get_variables objs states)) -> ~ In z (bbools (ip (gunk g))))).
Proof. exact get_variables_spec. Qed.
Print Assumptions C94_shared_symbols.
(** A packet writes 1 at a key it knows to be at most 1 or above a setting made at startup (symbol 3);
    the relaxed invariant speaks of the setting, not of the packet. *)
Definition set0 : gst := get_st (map_new bt cl_fold 5 (add_cs (ginit 4 2) [BUlt (BVV 2 0) (BVS 2 3)]) 0 2 1 None).
Definition set_end : gst := get_st (set_ bt cl_fold 5 (add_cs set0 [BUlt (BVS 2 2) (BVS 2 3)]) 0 (BVS 2 2) (BVV 1 1)).
Example C94_example : exists e e' states',
  flatten_items bt cl_fold 5 0 (get_variables [0] [set0]) [set_end] [e] = Ok (true, [e'], states') /\
  nolkb e = true /\ kv_sized 2 1 e = true /\ map_sized 2 1 0 set_end /\ clean_state set_end /\ simple_items 0 set_end /\
  In 3 (fst (get_variables [0] [set0])) /\ In (3, 2) (bvvars e') /\ ~ In (2, 2) (bvvars e') /\ In (2, 2) (flat_map bvvars (gcs set_end)).
Proof.
  exists (BNot PRESENT). do 2 eexists. split; [vm_compute; reflexivity|]. split; [reflexivity|]. split; [reflexivity|].
  split. { eexists. split; [vm_compute; reflexivity|]. repeat constructor. }
  split.
  { intros c Hc. vm_compute in Hc. repeat destruct Hc as [<-|Hc]; try destruct Hc; unfold cleanb; cbn;
    repeat split; intros; repeat match goal with H : _ \/ _ |- _ => destruct H end; try contradiction;
    try match goal with H : (_, _) = (_, _) |- _ => injection H as <- <- end; subst; discriminate. }
  split.
  { split.
    - intros c c' z w w' Hc Hc' Hw Hw'.
      assert (W : forall c z w, In c (gcs set_end) -> In (z, w) (bvvars c) -> w = (if z =? 5 then 1 else if z =? 6 then 1 else 2)).
      { clear. intros c z w Hc Hw. vm_compute in Hc.
        repeat (destruct Hc as [<-|Hc]; [vm_compute in Hw; repeat (destruct Hw as [Hw|Hw]; [injection Hw as <- <-; reflexivity|]); destruct Hw|]).
        destruct Hc. }
      rewrite (W c z w Hc Hw), (W c' z w' Hc' Hw'). reflexivity.
    - intros g i G Hi. vm_compute in G. injection G as <-. vm_compute in Hi. destruct Hi as [<-|[]]. split; [right; do 2 eexists; reflexivity|left; reflexivity]. }
  split; [vm_compute; auto|]. split; [vm_compute; tauto|]. split; [vm_compute; intuition congruence|vm_compute; tauto].
Qed.
(** With a compound key, [x + 1], the relaxed invariant mentions the packet's own symbol [x] (symbol 2). *)
Definition sum_key := BvAdd (BVS 2 2) (BVV 2 1).
Definition sum0 : gst := get_st (map_new bt cl_fold 5 (ginit 3 2) 0 2 1 None).
Definition sum_end : gst :=
  get_st (set_ bt cl_fold 5 (add_cs sum0 [BOr (BEq sum_key (BVV 2 1)) (BEq (BVS 2 2) (BVV 2 2))]) 0 sum_key (BVV 1 1)).
Theorem C94_compound_keys_refuted : exists e' states',
  set_ bt cl_fold 5 (add_cs sum0 [BOr (BEq sum_key (BVV 2 1)) (BEq (BVS 2 2) (BVV 2 2))]) 0 sum_key (BVV 1 1) = Ok sum_end /\
  flatten_items bt cl_fold 5 0 (get_variables [0] [sum0]) [sum_end] [BNot PRESENT] = Ok (true, [e'], states') /\
  In (2, 2) (bvvars e') /\ ~ In 2 (fst (get_variables [0] [sum0])).
Proof.
  assert (OK : forall x, match x with Ok _ => true | _ => false end = true -> x = Ok (get_st x)) by (intros [a| |]; cbn; congruence).
  do 2 eexists. split; [apply OK; vm_compute; reflexivity|]. split; [vm_compute; reflexivity|].
  split; [vm_compute; tauto|]. vm_compute. intuition congruence.
Qed.
Print Assumptions C94_compound_keys_refuted.

(** ** C74 *)

(** C74, part: for a map whose invariants contain no lookups, if inference reports a fixpoint
    then the contents at the end of every explored path satisfy the invariants for every
    present key, provided the contents at the start did. [C0] are the contents at the
    start, [C] those at the end: the newest write, else what was there. Missing: invariants
    with lookups into other maps, and what invariants say about absent keys; both fail, see
    the refutations below. *)
Theorem C74_fixpoint_is_inductive_partial : forall s k fuel guesses, solver_ok s ->
  forall objs anc ancs states prev m ga ks vs,
  infer_invariants s k fuel guesses objs (anc :: ancs) states prev = Ok Fixpoint_ ->
  In m objs -> gmaps anc m = Some ga -> glayers ga = [] ->
  (forall e, In e (ginvs ga) -> nolkb e = true /\ kv_sized ks vs e = true) ->
  (forall st, In st states -> map_sized ks vs m st /\ clean_state st) ->
  forall st g r C0 C, In st states -> gmaps st m = Some g -> holds r (gcs st) ->
  (forall q, C q = match top r (glayers g) q with Some vp => vp | None => C0 q end) ->
  (forall e q, In e (ginvs ga) -> snd (C0 q) = true -> holds_at r C0 e q) ->
  (forall e q, In e (ginvs ga) -> snd (C q) = true -> holds_at r C e q).
Proof.
  intros s k fuel guesses SOK objs anc ancs states prev m ga ks vs H Hm GA LA PL OK st g r C0 C Hst G HR HC H0 e q He P.
  destruct (OK st Hst) as [[g' [G' [_ [_ SZ]]]] _]. rewrite G in G'. injection G' as <-.
  destruct (existsb (changed_in m anc) states) eqn:EX.
  - destruct (infer_fix_inv _ _ _ _ _ _ _ _ _ H ltac:(intros ->; destruct Hst)) as [items [lens L]].
    destruct (infer_loop_unchanged _ _ _ _ _ _ _ _ _ _ _ _ L m) as [ga' [states' [GA' F]]].
    { apply filter_In. auto. }
    rewrite GA in GA'. injection GA' as <-.
    destruct (flatten_items_plain s SOK k fuel ks vs m _ _ _ _ _ _ F ltac:(apply Forall_forall; exact PL) OK) as [_ [_ CO]].
    exact (contents_inductive ks vs m st g e r C0 C G SZ (CO e st He Hst) HR HC (fun q => H0 e q He) q P).
  - assert (LG : glayers g = []).
    { destruct (changed_in m anc st) eqn:CI.
      - assert (X : existsb (changed_in m anc) states = true) by (apply existsb_exists; eauto). congruence.
      - unfold changed_in, map_version in CI. rewrite GA, G in CI. unfold version in CI. rewrite LA in CI.
        destruct (glayers g); [reflexivity|discriminate CI]. }
    unfold holds_at. rewrite HC, LG in *. cbn [top] in *. apply H0; auto.
Qed.
Print Assumptions C74_fixpoint_is_inductive_partial.

(** C74, part: the bounds between map lengths kept from the iteration before hold again at
    the end of every explored path. *)
Theorem C74_length_bounds_hold_partial : forall s k fuel guesses, solver_ok s ->
  forall objs anc ancs states prev m ga ks vs l,
  infer_invariants s k fuel guesses objs (anc :: ancs) states prev = Ok Fixpoint_ ->
  In m objs -> gmaps anc m = Some ga -> existsb (changed_in m anc) states = true ->
  (forall e, In e (ginvs ga) -> nolkb e = true /\ kv_sized ks vs e = true) ->
  (forall st, In st states -> map_sized ks vs m st /\ clean_state st) ->
  assoc prev m = Some l ->
  forall o st r, In o l -> In st states -> holds r (gcs st) -> ev r (len_of st m) <= ev r (len_of st o).
Proof.
  intros s k fuel guesses SOK objs anc ancs states prev m ga ks vs l H Hm GA EX PL OK HP o st r Ho Hst HR.
  destruct (infer_fix_inv _ _ _ _ _ _ _ _ _ H ltac:(intros ->; destruct Hst)) as [items [lens L]].
  destruct (infer_loop_lengths _ SOK _ _ _ _ _ _ _ _ _ _ _ L m l) as [ga' [states' [GA' [F B]]]];
    [apply filter_In; auto|exact HP|].
  rewrite GA in GA'. injection GA' as <-.
  destruct (flatten_items_plain s SOK k fuel ks vs m _ _ _ _ _ _ F ltac:(apply Forall_forall; exact PL) OK) as [-> _].
  eapply B; eauto.
Qed.
Print Assumptions C74_length_bounds_hold_partial.

(** C74, part: the bounds an iteration hands to the next one, new or kept, hold at the end of
    every path it explored. Missing: lookups in invariants and guessed predicates, whose
    evaluation adds constraints to the states first. *)
Theorem C74_learned_bounds_hold_partial : forall s k fuel, solver_ok s ->
  forall objs anc ancs states prev news lens (ks vs : N -> N),
  infer_invariants s k fuel (fun _ _ _ => []) objs (anc :: ancs) states prev = Ok (Next news lens) ->
  (forall m ga e, In m objs -> gmaps anc m = Some ga -> In e (ginvs ga) -> nolkb e = true /\ kv_sized (ks m) (vs m) e = true) ->
  (forall m st, In m objs -> In st states -> map_sized (ks m) (vs m) m st /\ clean_state st) ->
  forall m l o st r, assoc lens m = Some l -> In o l -> In st states -> holds r (gcs st) ->
  ev r (len_of st m) <= ev r (len_of st o).
Proof.
  intros s k fuel SOK objs anc ancs states prev news lens ks vs H PL OK.
  destruct (infer_next_inv _ _ _ _ _ _ _ _ _ _ _ H) as [items L].
  refine (infer_loop_bounds s SOK k fuel _ _ _ _ _ _ ks vs _ _ _ _ L _ _ (fun _ _ _ => eq_refl));
    intros; match goal with X : In _ (filter _ objs) |- _ => apply filter_In in X as [X _] end; [eapply PL|eapply OK]; eauto.
Qed.
Print Assumptions C74_learned_bounds_hold_partial.
(** Two empty maps; a packet writes one key to the second, and the same key to both. *)
Definition len0 : gst := get_st (do a <- map_new bt cl_fold 5 (ginit 3 2) 0 1 1 None; map_new bt cl_fold 5 a 1 1 1 None).
Definition len_end : gst :=
  get_st (do a <- set_ bt cl_fold 5 len0 1 (BVS 1 2) (BVV 1 1); set_ bt cl_fold 5 a 0 (BVS 1 2) (BVV 1 1)).
Definition len_next := infer_invariants bt cl_fold 5 no_guess [0; 1] [len0] [len_end] [].
Definition news_of (x : res inference) := match x with Ok (Next n _) => n | _ => [] end.
Definition lens_of (x : res inference) := match x with Ok (Next _ l) => l | _ => [] end.
Example C74_bounds_example :
  len_next = Ok (Next (news_of len_next) (lens_of len_next)) /\ lens_of len_next = [(0, [1]); (1, [0])] /\
  (exists c d, gmaps len0 0 = Some c /\ gmaps len0 1 = Some d /\ ginvs c = [BNot PRESENT] /\ ginvs d = [BNot PRESENT]) /\
  map_sized 1 1 0 len_end /\ map_sized 1 1 1 len_end /\ clean_state len_end /\
  (exists r, holds r (gcs len_end) /\ ev r (len_of len_end 0) = 1).
Proof.
  assert (OK : forall x, match x with Ok (Next _ _) => true | _ => false end = true -> x = Ok (Next (news_of x) (lens_of x)))
    by (intros [[|a b]| |]; cbn; congruence).
  split; [apply OK; vm_compute; reflexivity|]. split; [vm_compute; reflexivity|].
  split. { do 2 eexists. repeat split; vm_compute; reflexivity. }
  split. { eexists. split; [vm_compute; reflexivity|]. repeat constructor. }
  split. { eexists. split; [vm_compute; reflexivity|]. repeat constructor. }
  split.
  { intros c Hc. vm_compute in Hc. repeat destruct Hc as [<-|Hc]; try destruct Hc; unfold cleanb; cbn;
    repeat split; intros; repeat match goal with H : _ \/ _ |- _ => destruct H end; try contradiction;
    try match goal with H : (_, _) = (_, _) |- _ => injection H as <- <- end; subst; discriminate. }
  exists (mkEnv (fun _ => 1) (fun _ => false)). split; [|vm_compute; reflexivity].
  intros c' Hc; vm_compute in Hc; repeat (destruct Hc as [<-|Hc]; [vm_compute; reflexivity|]); destruct Hc.
Qed.

(** The handler of C73's example reaches its fixpoint after the invariant was relaxed. *)
Definition one1 : gst :=
  match infer_invariants bt cl_fold 5 no_guess [0] [one0] one_end [] with Ok (Next [a] _) => a | _ => one0 end.
Definition one1_end : list gst := match one_pkt one1 with Ok l => l | _ => [] end.
Example C74_example : exists ga g st e r,
  infer_invariants bt cl_fold 5 no_guess [0] [one1] one1_end [(0, [])] = Ok Fixpoint_ /\
  gmaps one1 0 = Some ga /\ glayers ga = [] /\ ginvs ga = [e] /\ nolkb e = true /\ kv_sized 1 1 e = true /\
  one1_end = [st] /\ gmaps st 0 = Some g /\ map_sized 1 1 0 st /\ holds r (gcs st) /\
  existsb (changed_in 0 one1) one1_end = true /\
  top r (glayers g) 1 = Some (1, true) /\
  (forall q, snd (if q =? 1 then (1, true) else (0, false)) = true ->
     holds_at r (fun q => if q =? 1 then (1, true) else (0, false)) e q) /\
  ~ holds_at r (fun _ => (0, true)) e 0.
Proof.
  do 4 eexists. exists (mkEnv (fun _ => 1) (fun x => negb (x =? 3))).
  split; [vm_compute; reflexivity|]. split; [vm_compute; reflexivity|]. split; [reflexivity|]. split; [vm_compute; reflexivity|].
  split; [reflexivity|]. split; [reflexivity|]. split; [vm_compute; reflexivity|]. split; [vm_compute; reflexivity|].
  split. { eexists. split; [vm_compute; reflexivity|]. repeat constructor. }
  split. { intros c' Hc; vm_compute in Hc; repeat (destruct Hc as [<-|Hc]; [vm_compute; reflexivity|]); destruct Hc. }
  split; [vm_compute; reflexivity|]. split; [vm_compute; reflexivity|]. split.
  - intros q Hq. destruct (N.eqb_spec q 1) as [E|NE]; [rewrite E; vm_compute; reflexivity|discriminate Hq].
  - unfold holds_at. vm_compute. discriminate.
Qed.

(** Parts of results, so that they can be named without being computed. *)
Definition ok_list (x : res (list gst)) : list gst := match x with Ok l => l | _ => [] end.
Definition is_ok {A} (x : res A) : bool := match x with Ok _ => true | _ => false end.
Definition next_start (x : res inference) : gst := match x with Ok (Next [a] _) => a | _ => ginit 2 2 end.
Definition next_prev (x : res inference) : list (N * list N) := match x with Ok (Next _ p) => p | _ => [] end.
Definition is_next1 (x : res inference) : bool := match x with Ok (Next [_] _) => true | _ => false end.
Definition is_fix (x : res inference) : bool := match x with Ok Fixpoint_ => true | _ => false end.
Lemma is_ok_list : forall x, is_ok x = true -> x = Ok (ok_list x).
Proof. intros [l| |]; cbn; congruence. Qed.
Lemma is_next1_next : forall x, is_next1 x = true -> x = Ok (Next [next_start x] (next_prev x)).
Proof. intros [[|[|a [|b l]] p]| |]; cbn; congruence. Qed.
Lemma is_fix_fix : forall x, is_fix x = true -> x = Ok Fixpoint_.
Proof. intros [[|l p]| |]; cbn; congruence. Qed.
Lemma runs1 : forall st (f : handler) l, f st = Ok l -> runs [(st, f)] = Ok l.
Proof. intros st f l H. cbn [runs]. rewrite H. cbn. rewrite app_nil_r. reflexivity. Qed.
Lemma find_next : forall s k fuel guesses n objs st f prev l st' prev',
  runs [(st, f)] = Ok l -> infer_invariants s k fuel guesses objs [st] l prev = Ok (Next [st'] prev') ->
  find_fixedpoint s k fuel guesses (S n) objs [(st, f)] prev = find_fixedpoint s k fuel guesses n objs [(st', f)] prev'.
Proof. intros * R I. cbn [find_fixedpoint map fst snd]. rewrite R. cbn [bindr]. rewrite I. reflexivity. Qed.
Lemma find_last : forall s k fuel guesses n objs st f prev l,
  runs [(st, f)] = Ok l -> infer_invariants s k fuel guesses objs [st] l prev = Ok Fixpoint_ ->
  find_fixedpoint s k fuel guesses (S n) objs [(st, f)] prev = Ok l.
Proof. intros * R I. cbn [find_fixedpoint map fst snd]. rewrite R. cbn [bindr]. rewrite I. reflexivity. Qed.

Lemma search2 : forall s k fuel g objs f st0 st1 st2 l0 l1 l2 p0 p1 p2,
  runs [(st0, f)] = Ok l0 -> runs [(st1, f)] = Ok l1 -> runs [(st2, f)] = Ok l2 ->
  infer_invariants s k fuel g objs [st0] l0 p0 = Ok (Next [st1] p1) ->
  infer_invariants s k fuel g objs [st1] l1 p1 = Ok (Next [st2] p2) ->
  infer_invariants s k fuel g objs [st2] l2 p2 = Ok Fixpoint_ ->
  find_fixedpoint s k fuel g 3 objs [(st0, f)] p0 = Ok l2 /\
  iterates (infer_invariants s k fuel g objs) [(st0, f)] p0 [(st2, f)] p2.
Proof.
  intros * R0 R1 R2 S0 S1 S2. split.
  - rewrite (find_next _ _ _ _ _ _ _ _ _ _ _ _ R0 S0), (find_next _ _ _ _ _ _ _ _ _ _ _ _ R1 S1). apply find_last; auto.
  - eapply it_next; [exact R0|exact S0|]. eapply it_next; [exact R1|exact S1|]. apply it_here.
Qed.
Lemma search1 : forall s k fuel g objs f st0 st1 l0 l1 p0 p1,
  runs [(st0, f)] = Ok l0 -> runs [(st1, f)] = Ok l1 ->
  infer_invariants s k fuel g objs [st0] l0 p0 = Ok (Next [st1] p1) ->
  infer_invariants s k fuel g objs [st1] l1 p1 = Ok Fixpoint_ ->
  find_fixedpoint s k fuel g 3 objs [(st0, f)] p0 = Ok l1 /\
  iterates (infer_invariants s k fuel g objs) [(st0, f)] p0 [(st1, f)] p1.
Proof.
  intros * R0 R1 S0 S1. split.
  - rewrite (find_next _ _ _ _ _ _ _ _ _ _ _ _ R0 S0). apply find_last; auto.
  - eapply it_next; [exact R0|exact S0|]. apply it_here.
Qed.

(** C74 fails for invariants about several maps: they are only checked again where their own
    map was written. Two maps are created empty; a packet either writes key 0 to both, or
    removes key 0 from the second. The search ends with a fixpoint whose starting state says
    that the second map has key 0 whenever the first does. Processing one packet of each kind
    makes that false. [both_guess] is what get_items_invariants tries first (the identity). *)
Definition both_guess (m : N) (_ : list N) (_ : list gst) : list bexp :=
  if m =? 0 then [MapHas 1 (KEY 1) None] else [].
Definition key0 := BVV 1 0.
Definition both0 : gst :=
  get_st (do a <- map_new bt cl_fold 5 (ginit 2 2) 0 1 1 None; map_new bt cl_fold 5 a 1 1 1 None).
Definition both_pkt : handler := fun st =>
  do a <- set_ bt cl_fold 5 st 0 key0 (BVV 1 1); do a' <- set_ bt cl_fold 5 a 1 key0 (BVV 1 1);
  do b <- remove bt cl_fold 5 st 1 key0; Ok [a'; b].
(** The iterations of the search. *)
Notation both_infer st := (infer_invariants bt cl_fold 5 both_guess [0; 1] [st] (ok_list (both_pkt st))).
Definition both1 := next_start (both_infer both0 []).
Definition both1_prev := next_prev (both_infer both0 []).
Definition both2 := next_start (both_infer both1 both1_prev).
Definition both2_prev := next_prev (both_infer both1 both1_prev).
Definition both_out := ok_list (both_pkt both2).
Lemma both_runs : runs [(both0, both_pkt)] = Ok (ok_list (both_pkt both0)) /\ runs [(both1, both_pkt)] = Ok (ok_list (both_pkt both1)) /\
  runs [(both2, both_pkt)] = Ok both_out.
Proof. split; [|split]; apply runs1; apply is_ok_list; vm_compute; reflexivity. Qed.
Lemma both_steps : both_infer both0 [] = Ok (Next [both1] both1_prev) /\ both_infer both1 both1_prev = Ok (Next [both2] both2_prev) /\
  infer_invariants bt cl_fold 5 both_guess [0; 1] [both2] both_out both2_prev = Ok Fixpoint_.
Proof. split; [|split]; [apply is_next1_next|apply is_next1_next|apply is_fix_fix]; vm_compute; reflexivity. Qed.
Notation reading0 k2 st := (get bt cl_fold 5 st 0 k2 None BTrue None).
Notation reading1 k2 st := (get bt cl_fold 5 st 1 k2 None BTrue None).
Definition rd_st (x : res (gst * (bv * bexp))) := match x with Ok (a, _) => a | _ => ginit 2 2 end.
Definition rd_v (x : res (gst * (bv * bexp))) := match x with Ok (_, (v, _)) => v | _ => BVV 0 0 end.
Definition rd_p (x : res (gst * (bv * bexp))) := match x with Ok (_, (_, p)) => p | _ => BFalse end.
Lemma rd_ok : forall x, is_ok x = true -> x = Ok (rd_st x, (rd_v x, rd_p x)).
Proof. intros [[a [v p]]| |]; cbn; congruence. Qed.
Theorem C74_cross_map_invariants_refuted :
  exists last_start prev out,
    (* the search ends, and this is its last starting state *)
    find_fixedpoint bt cl_fold 5 both_guess 3 [0; 1] [(both0, both_pkt)] [] = Ok out /\
    iterates (infer_invariants bt cl_fold 5 both_guess [0; 1]) [(both0, both_pkt)] [] [(last_start, both_pkt)] prev /\
    infer_invariants bt cl_fold 5 both_guess [0; 1] [last_start] out prev = Ok Fixpoint_ /\
    (* in it, no assignment has key 0 in the first map and not in the second *)
    (exists st1 v1 p1 st2 v2 p2,
       get bt cl_fold 5 last_start 0 key0 None BTrue None = Ok (st1, (v1, p1)) /\
       get bt cl_fold 5 st1 1 key0 None BTrue None = Ok (st2, (v2, p2)) /\
       forall r, holds r (gcs st2) -> eb r p1 = true -> eb r p2 = true) /\
    (* real maps, after one packet of each kind: key 0 in the first, not in the second *)
    (exists cm, crun env0 2 2 (fun _ => 1) (fun _ => None, [])
       [OEmpty 0 1 1; OEmpty 1 1 1; OSet 0 key0 (BVV 1 1); OSet 1 key0 (BVV 1 1); ORemove 1 key0; OGet 0 key0; OGet 1 key0]
       (cm, [done; done; done; done; done; (1, true); (0, false)])).
Proof.
  destruct both_runs as [R0 [R1 R2]]. destruct both_steps as [S0 [S1 S2]].
  destruct (search2 _ _ _ _ _ _ _ _ _ _ _ _ _ _ _ R0 R1 R2 S0 S1 S2) as [F IT].
  exists both2, both2_prev, both_out. split; [exact F|]. split; [exact IT|]. split; [exact S2|]. split.
  - exists (rd_st (reading0 key0 both2)). exists (rd_v (reading0 key0 both2)), (rd_p (reading0 key0 both2)).
    exists (rd_st (reading1 key0 (rd_st (reading0 key0 both2)))), (rd_v (reading1 key0 (rd_st (reading0 key0 both2)))), (rd_p (reading1 key0 (rd_st (reading0 key0 both2)))).
    split; [exact (rd_ok (reading0 key0 both2) ltac:(vm_compute; reflexivity))|].
    split; [exact (rd_ok (reading1 key0 (rd_st (reading0 key0 both2))) ltac:(vm_compute; reflexivity))|].
    intros r HR. apply BImp_true. revert r HR. apply (definitely_true_spec bt bt_ok). vm_compute. reflexivity.
  - eexists.
    eapply crun_cons; [vm_compute; reflexivity|apply (c_empty _ _ _ _ _ _ _ _ (fun _ => (0, false))); intros; reflexivity|].
    eapply crun_cons; [vm_compute; reflexivity|apply (c_empty _ _ _ _ _ _ _ _ (fun _ => (0, false))); intros; reflexivity|].
    eapply crun_cons; [vm_compute; discriminate|eapply c_set; reflexivity|].
    eapply crun_cons; [vm_compute; discriminate|eapply c_set; reflexivity|].
    eapply crun_cons; [vm_compute; discriminate|eapply (c_remove _ _ _ _ _ _ _ _ 0); reflexivity|].
    eapply crun_cons; [exact I|eapply c_get; reflexivity|].
    eapply crun_cons; [exact I|eapply c_get; reflexivity|].
    apply crun_nil.
Qed.
Print Assumptions C74_cross_map_invariants_refuted.

(** C74 fails for invariants about absent keys: only items that may be present are checked.
    A packet removes item 0 of an array of two items; the search ends with a fixpoint whose
    starting state says that item 0 is there. *)
Definition arr0 : gst := get_st (new_array bt cl_fold 5 (ginit 2 2) 0 2 1 (LInt 2)).
Definition arr_key := BVV 2 0.
Definition arr_pkt : handler := fun st => do a <- remove bt cl_fold 5 st 0 arr_key; Ok [a].
Notation arr_infer st := (infer_invariants bt cl_fold 5 no_guess [0] [st] (ok_list (arr_pkt st))).
Definition arr1 := next_start (arr_infer arr0 []).
Definition arr1_prev := next_prev (arr_infer arr0 []).
Definition arr_out := ok_list (arr_pkt arr1).
Theorem C74_absent_items_refuted :
  exists last_start prev out,
    find_fixedpoint bt cl_fold 5 no_guess 3 [0] [(arr0, arr_pkt)] [] = Ok out /\
    iterates (infer_invariants bt cl_fold 5 no_guess [0]) [(arr0, arr_pkt)] [] [(last_start, arr_pkt)] prev /\
    infer_invariants bt cl_fold 5 no_guess [0] [last_start] out prev = Ok Fixpoint_ /\
    (exists st1 v1 p1, get bt cl_fold 5 last_start 0 arr_key None BTrue None = Ok (st1, (v1, p1)) /\
       forall r, holds r (gcs st1) -> eb r p1 = true) /\
    (exists cm, crun env0 2 2 (fun _ => 1) (fun _ => None, [])
       [OArray 0 2 1 (LInt 2); ORemove 0 arr_key; OGet 0 arr_key] (cm, [done; done; (0, false)])).
Proof.
  assert (R0 : runs [(arr0, arr_pkt)] = Ok (ok_list (arr_pkt arr0))) by (apply runs1; apply is_ok_list; vm_compute; reflexivity).
  assert (R1 : runs [(arr1, arr_pkt)] = Ok arr_out) by (apply runs1; apply is_ok_list; vm_compute; reflexivity).
  assert (S0 : arr_infer arr0 [] = Ok (Next [arr1] arr1_prev)) by (apply is_next1_next; vm_compute; reflexivity).
  assert (S1 : infer_invariants bt cl_fold 5 no_guess [0] [arr1] arr_out arr1_prev = Ok Fixpoint_) by (apply is_fix_fix; vm_compute; reflexivity).
  destruct (search1 _ _ _ _ _ _ _ _ _ _ _ _ R0 R1 S0 S1) as [F IT].
  exists arr1, arr1_prev, arr_out. split; [exact F|]. split; [exact IT|]. split; [exact S1|]. split.
  - exists (rd_st (reading0 arr_key arr1)), (rd_v (reading0 arr_key arr1)), (rd_p (reading0 arr_key arr1)).
    split; [exact (rd_ok (reading0 arr_key arr1) ltac:(vm_compute; reflexivity))|].
    apply (definitely_true_spec bt bt_ok). vm_compute. reflexivity.
  - eexists.
    eapply crun_cons; [vm_compute; reflexivity|apply (c_array_int _ _ _ _ _ _ _ _ _ (fun q => (0, q <? 2))); intros; reflexivity|].
    eapply crun_cons; [vm_compute; discriminate|eapply (c_remove _ _ _ _ _ _ _ _ 0); reflexivity|].
    eapply crun_cons; [exact I|eapply c_get; reflexivity|].
    apply crun_nil.
Qed.
Print Assumptions C74_absent_items_refuted.

(** ** C75 *)

(** C75: what the search returns is what the handlers explore from the starting states of
    the last iteration; inference reported no change there; each iteration starts from the
    states inference returned for the one before, with the same handlers. *)
Theorem C75_search_returns_converged_iteration : forall s k fuel guesses objs n data prev out,
  find_fixedpoint s k fuel guesses n objs data prev = Ok out ->
  exists data' prev', iterates (infer_invariants s k fuel guesses objs) data prev data' prev' /\
    runs data' = Ok out /\ infer_invariants s k fuel guesses objs (map fst data') out prev' = Ok Fixpoint_ /\
    map snd data' = map snd data.
Proof. exact find_fixedpoint_spec. Qed.
Print Assumptions C75_search_returns_converged_iteration.

(** C75: no starting state is lost between iterations. *)
Theorem C75_no_start_is_lost : forall s k fuel guesses objs ancs states prev news res,
  infer_invariants s k fuel guesses objs ancs states prev = Ok (Next news res) -> length news = length ancs.
Proof. exact infer_next_length. Qed.
Print Assumptions C75_no_start_is_lost.

Example C75_example :
  is_ok (find_fixedpoint bt cl_fold 5 both_guess 2 [0; 1] [(both0, both_pkt)] []) = false /\
  find_fixedpoint bt cl_fold 5 both_guess 3 [0; 1] [(both0, both_pkt)] [] = Ok both_out /\ length both_out = 2%nat /\
  infer_invariants bt cl_fold 5 both_guess [0; 1] [both0] (ok_list (both_pkt both0)) [] = Ok (Next [both1] both1_prev).
Proof.
  destruct both_runs as [R0 [R1 R2]]. destruct both_steps as [S0 [S1 S2]].
  split; [vm_compute; reflexivity|]. split; [|split; [vm_compute; reflexivity|exact S0]].
  exact (proj1 (search2 _ _ _ _ _ _ _ _ _ _ _ _ _ _ _ R0 R1 R2 S0 S1 S2)).
Qed.
