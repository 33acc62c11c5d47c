(** * Configuration lookups during verification (tool/klint/externals/os/config.py) and in
      specifications (tool/klint/verif/spec_prefix.py 217-229) *)

From Coq Require Import NArith List Bool Lia Arith.
From Verif Require Import Expr Solver GhostFacts Fork Config.
Import ListNotations.
Open Scope N_scope.

(** The next symbol and the metadata's dict (config.py 8, 26). *)
Record cfst := mkCf { f_next : N; f_items : list (cstr * bv) }.
Definition cstr_eqb (a b : cstr) : bool := if list_eq_dec N.eq_dec a b then true else false.
Definition find_item (l : list (cstr * bv)) (name : cstr) : option bv := option_map snd (find (fun p => cstr_eqb (fst p) name) l).

(** config.py 25-31; the result is what is stored and 1. *)
Definition case_true (name : cstr) (st : fstate cfst) : fstate cfst * option bv :=
  match find_item (f_items (snd st)) name with
  | Some v => (st, Some v)
  | None =>
      let v := BVS 64 (f_next (snd st)) in
      ((fst st, mkCf (f_next (snd st) + 1) (f_items (snd st) ++ [(name, v)])), Some v)
  end.
(** config.py 33-34 *)
Definition case_false (st : fstate cfst) : fstate cfst * option bv := (st, None).
(** config.py 16-36. The name is already read (C79); the accessibility of the pointers is
    C34's. *)
Definition config_try_get (s : solver) (st : fstate cfst) (name : cstr) : res (list (bool * fstate cfst * (fstate cfst * option bv))) :=
  fork_guarded s (fst st, mkCf (f_next (snd st) + 1) (f_items (snd st))) (BoolS (f_next (snd st))) (case_true name) case_false.

(** A program that looks names up and branches on what it gets. *)
Inductive cprog :=
| CRet
| CGet (name : cstr) (k : option bv -> cprog)
| CBranch (c : bexp) (a b : cprog).

(** One path of its symbolic execution, with the lookups made. *)
Inductive cexec (s : solver) : fstate cfst -> cprog -> list (cstr * option bv) -> fstate cfst -> Prop :=
| ce_ret : forall st, cexec s st CRet [] st
| ce_get : forall st name k succs b st0 st1 out log st2,
    config_try_get s st name = Ok succs -> In (b, st0, (st1, out)) succs -> cexec s st1 (k out) log st2 ->
    cexec s st (CGet name k) ((name, out) :: log) st2
| ce_branch : forall st c p1 p2 succs b st0 st1 log st2,
    fork_guarded s st c (fun x => (x, tt)) (fun x => (x, tt)) = Ok succs -> In (b, st0, (st1, tt)) succs ->
    cexec s st1 (if b : bool then p1 else p2) log st2 ->
    cexec s st (CBranch c p1 p2) log st2.

(** The program on a configuration: the lookups, branches decided by [r]. *)
Fixpoint crun (tbl : config) (r : env) (p : cprog) (log : list (cstr * option bv)) : Prop :=
  match p with
  | CRet => log = []
  | CGet name k => exists out log', log = (name, out) :: log' /\
      option_map (fun v => ev r v) out = os_config_try_get tbl name /\ crun tbl r (k out) log'
  | CBranch c a b => crun tbl r (if eb r c then a else b) log
  end.

(** spec_prefix.py 226-229 *)
Definition spec_config (st : fstate cfst) (name : cstr) : res bv :=
  match find_item (f_items (snd st)) name with None => Err | Some v => Ok v end.

(** Programs only use symbols they were given. *)
Fixpoint wfp (n : N) (p : cprog) : Prop :=
  match p with
  | CRet => True
  | CGet _ k => forall v n', n <= n' -> (forall w, v = Some w -> dep n' w) -> wfp n' (k v)
  | CBranch c a b => depb n c /\ wfp n a /\ wfp n b
  end.

(** ** Facts *)
Lemma cstr_eqb_eq : forall a b, cstr_eqb a b = true <-> a = b.
Proof. intros a b. unfold cstr_eqb. destruct (list_eq_dec N.eq_dec a b); split; congruence. Qed.

Lemma find_item_snoc : forall l name v name', find_item (l ++ [(name, v)]) name' =
  match find_item l name' with Some x => Some x | None => if cstr_eqb name name' then Some v else None end.
Proof.
  intros l name v name'. unfold find_item. induction l as [|[k x] l IH]; cbn [app find fst].
  - destruct (cstr_eqb name name'); reflexivity.
  - destruct (cstr_eqb k name'); [reflexivity|exact IH].
Qed.

(** The dict's symbols are those of different names, below the next symbol. *)
Definition cf_ok (x : cfst) : Prop :=
  (forall name v, find_item (f_items x) name = Some v -> exists y, v = BVS 64 y /\ y < f_next x) /\
  (forall n1 n2 v, find_item (f_items x) n1 = Some v -> find_item (f_items x) n2 = Some v -> n1 = n2).

Lemma case_true_spec : forall name st st' out, case_true name st = (st', out) -> cf_ok (snd st) ->
  fst st' = fst st /\ f_next (snd st) <= f_next (snd st') /\ cf_ok (snd st') /\
  (forall n v, find_item (f_items (snd st)) n = Some v -> find_item (f_items (snd st')) n = Some v) /\
  (forall n, n <> name -> find_item (f_items (snd st')) n = find_item (f_items (snd st)) n) /\
  exists v, out = Some v /\ find_item (f_items (snd st')) name = Some v.
Proof.
  intros name [cs x] st' out H [O1 O2]. unfold case_true in H. cbn [fst snd] in *.
  destruct (find_item (f_items x) name) as [v|] eqn:F; injection H as <- <-; cbn [fst snd f_next f_items].
  - split; [reflexivity|]. split; [lia|]. split; [split; assumption|]. split; [auto|]. split; [reflexivity|]. exists v. auto.
  - split; [reflexivity|]. split; [lia|]. split; [|split; [|split]].
    + split; cbn [f_items f_next].
      * intros n v. rewrite find_item_snoc. destruct (find_item (f_items x) n) as [v'|] eqn:F'.
        -- intros E. injection E as <-. destruct (O1 _ _ F') as (y & -> & Hy). exists y. split; [reflexivity|lia].
        -- destruct (cstr_eqb name n); [|discriminate]. intros E. injection E as <-. exists (f_next x). split; [reflexivity|lia].
      * intros n1 n2 v. rewrite !find_item_snoc.
        destruct (find_item (f_items x) n1) as [v1|] eqn:F1, (find_item (f_items x) n2) as [v2|] eqn:F2.
        -- intros E1 E2. apply (O2 n1 n2 v1); [exact F1|]. rewrite F2. congruence.
        -- destruct (cstr_eqb name n2); [|discriminate]. intros E1 E2. destruct (O1 _ _ F1) as (y & -> & Hy). injection E1 as <-. injection E2 as E. lia.
        -- destruct (cstr_eqb name n1); [|discriminate]. intros E1 E2. destruct (O1 _ _ F2) as (y & -> & Hy). injection E2 as <-. injection E1 as E. lia.
        -- destruct (cstr_eqb name n1) eqn:C1; [|discriminate]. destruct (cstr_eqb name n2) eqn:C2; [|discriminate]. intros _ _.
           apply cstr_eqb_eq in C1, C2. congruence.
    + intros n v E. rewrite find_item_snoc, E. reflexivity.
    + intros n Hn. rewrite find_item_snoc. destruct (find_item (f_items x) n); [reflexivity|].
      destruct (cstr_eqb name n) eqn:C; [apply cstr_eqb_eq in C; congruence|reflexivity].
    + eexists. split; [reflexivity|]. rewrite find_item_snoc, F. rewrite (proj2 (cstr_eqb_eq _ _) eq_refl). reflexivity.
Qed.

Lemma fork_total : forall s, solver_ok s -> forall X R (st : fstate X) c (t f : fstate X -> fstate X * R), (exists r, holds r (fst st)) ->
  exists succs, fork_guarded s st c t f = Ok succs.
Proof.
  intros s SOK X R st c t f [r Hr]. unfold fork_guarded. pose proof (get_if_constant_b_spec s SOK (fst st) c) as G.
  destruct (get_if_constant_b s (fst st) c) as [[[|]|]| |]; cbn [bindr]; eauto.
  - destruct (G r Hr).
  - destruct G.
Qed.

(** What a path's log says of the final dict. *)
Lemma cexec_spec : forall s, solver_ok s -> forall st p log st', cexec s st p log st' -> cf_ok (snd st) ->
  cf_ok (snd st') /\ f_next (snd st) <= f_next (snd st') /\
  (forall n v, find_item (f_items (snd st)) n = Some v -> find_item (f_items (snd st')) n = Some v) /\
  (forall n v, In (n, Some v) log -> find_item (f_items (snd st')) n = Some v) /\
  (forall n v, find_item (f_items (snd st')) n = Some v -> find_item (f_items (snd st)) n = Some v \/ In (n, Some v) log).
Proof.
  intros s SOK st p log st' H. induction H as [st|st name k succs b st0 st1 out log st2 HG HI HC IH|st c p1 p2 succs b st0 st1 log st2 HG HI HC IH]; intros O.
  - split; [exact O|]. split; [lia|]. split; [auto|]. split; [intros n v []|auto].
  - unfold config_try_get in HG. destruct (fork_guarded_spec s SOK _ _ _ _ _ HG) as (_ & _ & SP). destruct (SP _ _ _ HI) as (_ & _ & E & EO).
    assert (O0 : cf_ok (snd st0)).
    { rewrite E. cbn [snd]. destruct O as [O1 O2]. split; cbn [f_items f_next]; [|exact O2]. intros n v F. destruct (O1 n v F) as (y & -> & Hy). exists y. split; [reflexivity|lia]. }
    assert (Q : f_items (snd st0) = f_items (snd st) /\ f_next (snd st) <= f_next (snd st0)) by (rewrite E; cbn [snd f_items f_next]; split; [reflexivity|lia]).
    destruct Q as [Q1 Q2]. destruct b.
    + symmetry in EO. destruct (case_true_spec _ _ _ _ EO O0) as (_ & N1 & O1 & K1 & K2 & v & -> & K3).
      destruct (IH O1) as (A1 & A2 & A3 & A4 & A5). split; [exact A1|]. split; [lia|]. rewrite Q1 in *. split; [auto|]. split.
      * intros n v' [X|X]; [|apply A4; exact X]. injection X as <- <-. apply A3. exact K3.
      * intros n v' F. apply A5 in F as [F|F]; [|right; right; exact F].
        destruct (list_eq_dec N.eq_dec n name) as [->|Hn]; [|left; rewrite <- K2 by exact Hn; exact F].
        right. left. rewrite K3 in F. congruence.
    + unfold case_false in EO. injection EO as -> ->. destruct (IH O0) as (A1 & A2 & A3 & A4 & A5). rewrite Q1 in *.
      split; [exact A1|]. split; [lia|]. split; [exact A3|]. split.
      * intros n v' [X|X]; [discriminate|apply A4; exact X].
      * intros n v' F. apply A5 in F as [F|F]; [left; exact F|right; right; exact F].
  - destruct (fork_guarded_spec s SOK _ _ _ _ _ HG) as (_ & _ & SP). destruct (SP _ _ _ HI) as (_ & _ & E & EO).
    assert (Q : st1 = st0) by (destruct b; congruence). subst st1. destruct (IH) as (A1 & A2 & A3 & A4 & A5); [rewrite E; exact O|].
    rewrite E in *. auto.
Qed.

(** Every configuration is explored. *)
Definition set_sym (r : env) (b : N) (bval : bool) (v : N) (vval : N) : env :=
  mkEnv (fun x => if x =? v then vval else ebv r x) (fun x => if x =? b then bval else ebool r x).

Lemma cexec_complete : forall s, solver_ok s -> forall tbl, (forall name v, os_config_try_get tbl name = Some v -> v < 2 ^ 64) ->
  forall p st r, holds r (fst st) -> Forall (depb (f_next (snd st))) (fst st) -> cf_ok (snd st) -> wfp (f_next (snd st)) p ->
  (forall name v, find_item (f_items (snd st)) name = Some v -> os_config_try_get tbl name = Some (ev r v)) ->
  exists log st' r', cexec s st p log st' /\ eqbelow (f_next (snd st)) r r' /\ holds r' (fst st') /\ crun tbl r' p log.
Proof.
  intros s SOK tbl TB p. induction p as [|name k IH|c a IHa b IHb]; intros st r HR DC O W AG.
  - exists [], st, r. split; [constructor|]. split; [apply eqbelow_refl|]. split; [exact HR|reflexivity].
  - set (n := f_next (snd st)) in *.
    set (want := os_config_try_get tbl name).
    set (r1 := set_sym r n (match want with Some _ => true | None => false end) (n + 1) (match want with Some v => v | None => 0 end)).
    assert (EB : eqbelow n r r1).
    { intros y Hy. unfold r1, set_sym. cbn [ebv ebool]. destruct (N.eqb_spec y (n + 1)); [lia|]. destruct (N.eqb_spec y n); [lia|]. auto. }
    assert (H1 : holds r1 (fst st)) by (eapply holds_dep; eauto).
    destruct (fork_total s SOK cfst (option bv) (fst st, mkCf (n + 1) (f_items (snd st))) (BoolS n) (case_true name) case_false) as (succs & HS); [exists r1; exact H1|].
    destruct (fork_guarded_spec s SOK _ _ _ _ _ HS) as (_ & CV & SP). destruct (CV r1 H1) as ([[b0 st0] out0] & HI & EB0). cbn [fst] in EB0.
    destruct (SP _ _ _ HI) as (C0 & _ & E0 & EO). cbn [fst snd] in C0, E0.
    assert (Eb : b0 = match want with Some _ => true | None => false end).
    { rewrite EB0. cbn [evalb]. unfold r1, set_sym. cbn [ebool]. rewrite N.eqb_refl. reflexivity. }
    assert (HR0 : holds r1 (fst st0)) by (apply C0; split; [exact H1|symmetry; exact EB0]).
    assert (O0 : cf_ok (snd st0)).
    { rewrite E0. destruct O as [O1 O2]. split; cbn [f_items f_next]; [|exact O2]. intros nm v F. destruct (O1 nm v F) as (y & -> & Hy). exists y. split; [reflexivity|]. fold n in Hy. lia. }
    assert (D0 : Forall (depb (n + 1)) (fst st0)).
    { assert (SH : fst st0 = fst st \/ fst st0 = fst st ++ [BNot (BoolS n)] \/ fst st0 = fst st ++ [BoolS n]).
      { unfold fork_guarded in HS. destruct (get_if_constant_b s _ _) as [[[|]|]| |]; cbn [bindr] in HS; try discriminate; injection HS as <-; cbn [fst snd] in HI.
        - destruct HI as [X|[]]. injection X as _ <- _. auto.
        - destruct HI as [X|[]]. injection X as _ <- _. auto.
        - destruct HI as [X|[X|[]]]; injection X as _ <- _; auto. }
      assert (DB : Forall (depb (n + 1)) (fst st)).
      { eapply Forall_impl; [|exact DC]. intros e He. eapply depb_le; [|exact He]. fold n. lia. }
      destruct SH as [->|[->| ->]]; [exact DB| |]; apply Forall_app; (split; [exact DB|]); constructor; auto;
        intros q1 q2 Q; cbn [evalb]; destruct (Q n) as [_ QB]; try lia; rewrite QB; reflexivity. }
    assert (AG0 : forall nm v, find_item (f_items (snd st0)) nm = Some v -> os_config_try_get tbl nm = Some (ev r1 v)).
    { intros nm v F. rewrite E0 in F. cbn [f_items] in F. rewrite (AG _ _ F). f_equal. destruct (proj1 O _ _ F) as (y & -> & Hy). cbn [evalv].
      fold n in Hy. destruct (EB y Hy) as [-> _]. reflexivity. }
    destruct out0 as [st1 out].
    assert (NX : exists n1, n1 = f_next (snd st1) /\ n + 1 <= n1 /\ fst st1 = fst st0 /\ cf_ok (snd st1) /\
              (forall nm v, find_item (f_items (snd st1)) nm = Some v -> os_config_try_get tbl nm = Some (ev r1 v)) /\
              option_map (fun v => ev r1 v) out = want /\ (forall w, out = Some w -> dep n1 w)).
    { eexists. split; [reflexivity|]. destruct b0.
      - destruct want as [v|] eqn:EW; [|discriminate]. unfold case_true in EO. rewrite E0 in EO. cbn [f_items f_next] in EO.
        destruct (find_item (f_items (snd st)) name) as [v0|] eqn:F; injection EO as -> ->; cbn [fst snd f_next f_items].
        + rewrite E0. cbn [f_next]. split; [lia|]. split; [reflexivity|]. split; [rewrite <- E0; exact O0|]. split; [rewrite <- E0; exact AG0|]. split.
          * cbn [option_map]. rewrite <- EW. unfold want. symmetry. apply AG0. rewrite E0. exact F.
          * intros w X. injection X as <-. destruct (proj1 O _ _ F) as (y & -> & Hy). intros q1 q2 Q. cbn [evalv]. destruct (Q y) as [-> _]; [fold n in Hy; lia|reflexivity].
        + split; [lia|]. split; [reflexivity|].
          assert (VV : ev r1 (BVS 64 (n + 1)) = v).
          { cbn [evalv]. unfold r1, set_sym. cbn [ebv]. rewrite N.eqb_refl. apply wrap_small. apply (TB name). exact EW. }
          assert (CT : case_true name (fst st0, mkCf (n + 1) (f_items (snd st))) = ((fst st0, mkCf (n + 1 + 1) (f_items (snd st) ++ [(name, BVS 64 (n + 1))])), Some (BVS 64 (n + 1)))).
          { unfold case_true. cbn [fst snd f_items f_next]. rewrite F. reflexivity. }
          destruct (case_true_spec _ _ _ _ CT) as (_ & _ & OK1 & _); [rewrite E0 in O0; exact O0|]. cbn [snd] in OK1.
          split; [exact OK1|]. split.
          * intros nm v1. rewrite find_item_snoc. destruct (find_item (f_items (snd st)) nm) as [v2|] eqn:F2.
            -- intros X. injection X as <-. apply AG0. rewrite E0. exact F2.
            -- destruct (cstr_eqb name nm) eqn:C; [|discriminate]. apply cstr_eqb_eq in C. subst nm. intros X. injection X as <-. rewrite VV. exact EW.
          * split; [cbn [option_map]; rewrite VV; reflexivity|]. intros w X. injection X as <-. intros q1 q2 Q. cbn [evalv]. destruct (Q (n + 1)) as [-> _]; [lia|reflexivity].
      - destruct want as [v|] eqn:EW; [discriminate|]. unfold case_false in EO. injection EO as -> ->. rewrite E0. cbn [f_next].
        split; [lia|]. split; [reflexivity|]. split; [rewrite <- E0; exact O0|]. split; [rewrite <- E0; exact AG0|]. split; [reflexivity|]. intros w X. discriminate. }
    destruct NX as (n1 & EN & LN & EC & O1 & AG1 & EW & DW).
    destruct (IH out st1 r1) as (log & st' & r' & EX & EB' & HR' & CR).
    + rewrite EC. exact HR0.
    + rewrite EC, <- EN. eapply Forall_impl; [|exact D0]. intros e He. eapply depb_le; [|exact He]. exact LN.
    + exact O1.
    + rewrite <- EN. apply W; [lia|]. exact DW.
    + exact AG1.
    + exists ((name, out) :: log), st', r'. split; [econstructor; eauto|]. split.
      { eapply eqbelow_trans; [exact EB|]. eapply eqbelow_le; [|exact EB']. lia. }
      split; [exact HR'|]. cbn [crun]. exists out, log. split; [reflexivity|]. split; [|exact CR].
      change (os_config_try_get tbl name) with want. rewrite <- EW. destruct out as [w|]; [|reflexivity]. cbn [option_map]. f_equal. symmetry. apply (DW w eq_refl). rewrite EN. exact EB'.
  - destruct W as (Wc & Wa & Wb).
    destruct (fork_total s SOK cfst unit st c (fun x => (x, tt)) (fun x => (x, tt))) as (succs & HS); [exists r; exact HR|].
    destruct (fork_guarded_spec s SOK _ _ _ _ _ HS) as (_ & CV & SP). destruct (CV r HR) as ([[b0 st0] out0] & HI & EB0). cbn [fst] in EB0.
    destruct (SP _ _ _ HI) as (C0 & _ & E0 & EO). assert (EQ : out0 = (st0, tt)) by (destruct b0; exact EO). rewrite EQ in HI. clear EQ EO.
    assert (HR0 : holds r (fst st0)) by (apply C0; split; [exact HR|symmetry; exact EB0]).
    assert (D0 : Forall (depb (f_next (snd st))) (fst st0)).
    { assert (SH : fst st0 = fst st \/ fst st0 = fst st ++ [BNot c] \/ fst st0 = fst st ++ [c]).
      { unfold fork_guarded in HS. destruct (get_if_constant_b s _ _) as [[[|]|]| |]; cbn [bindr] in HS; try discriminate; injection HS as <-; cbn [fst snd] in HI.
        - destruct HI as [X|[]]. apply (f_equal (fun q => fst (snd (fst q)))) in X; cbn [fst snd] in X; auto.
        - destruct HI as [X|[]]. apply (f_equal (fun q => fst (snd (fst q)))) in X; cbn [fst snd] in X; auto.
        - destruct HI as [X|[X|[]]]; apply (f_equal (fun q => fst (snd (fst q)))) in X; cbn [fst snd] in X; auto. }
      destruct SH as [->|[->| ->]]; [exact DC| |]; apply Forall_app; (split; [exact DC|]); constructor; auto.
      intros q1 q2 Q. cbn [evalb]. f_equal. apply Wc. exact Q. }
    assert (G : exists log st' r', cexec s st0 (if b0 then a else b) log st' /\ eqbelow (f_next (snd st)) r r' /\ holds r' (fst st') /\ crun tbl r' (if b0 then a else b) log).
    { rewrite <- E0. destruct b0; [apply IHa|apply IHb]; auto; rewrite ?E0; auto. }
    destruct G as (log & st' & r' & EX & EB' & HR' & CR). exists log, st', r'. split; [eapply ce_branch; [exact HS|exact HI|exact EX]|]. split; [exact EB'|]. split; [exact HR'|].
    cbn [crun]. rewrite <- (Wc r r' EB'), <- EB0. exact CR.
Qed.

(** A path is what a configuration gives, when no name is both found and missing. *)
Lemma cexec_sound : forall s, solver_ok s -> forall st p log st', cexec s st p log st' -> forall r, holds r (fst st') ->
  holds r (fst st) /\ forall tbl, (forall n out, In (n, out) log -> os_config_try_get tbl n = option_map (fun v => ev r v) out) -> crun tbl r p log.
Proof.
  intros s SOK st p log st' H. induction H as [st|st name k succs b st0 st1 out log st2 HG HI HC IH|st c p1 p2 succs b st0 st1 log st2 HG HI HC IH]; intros r HR.
  - split; [exact HR|]. intros tbl _. reflexivity.
  - destruct (IH r HR) as [H1 CR]. unfold config_try_get in HG. destruct (fork_guarded_spec s SOK _ _ _ _ _ HG) as (_ & _ & SP).
    destruct (SP _ _ _ HI) as (C & _ & E & EO). cbn [fst] in C.
    assert (Q : fst st1 = fst st0).
    { destruct b; [|unfold case_false in EO; congruence]. unfold case_true in EO. destruct (find_item _ _); injection EO as -> _; reflexivity. }
    split; [rewrite Q in H1; apply C in H1; tauto|]. intros tbl T. cbn [crun]. exists out, log. split; [reflexivity|]. split; [symmetry; apply T; left; reflexivity|].
    apply CR. intros n o I. apply T. right. exact I.
  - destruct (IH r HR) as [H1 CR]. destruct (fork_guarded_spec s SOK _ _ _ _ _ HG) as (_ & _ & SP). destruct (SP _ _ _ HI) as (C & _ & E & EO).
    assert (Q : st1 = st0) by (destruct b; congruence). subst st1. apply C in H1 as [H1 EB]. split; [exact H1|]. intros tbl T. cbn [crun]. rewrite EB. apply CR. exact T.
Qed.

(** The configuration of a path's lookups. *)
Definition log_config (r : env) (log : list (cstr * option bv)) : config :=
  flat_map (fun e => match snd e with Some v => [(fst e, ev r v)] | None => [] end) log.
Lemma log_config_in : forall r log n v, In (n, v) (log_config r log) <-> exists e, In (n, Some e) log /\ v = ev r e.
Proof.
  intros r log n v. unfold log_config. rewrite in_flat_map. split.
  - intros ([n' [e|]] & I & X); cbn [snd fst] in X; [|destruct X]. destruct X as [X|[]]. injection X as -> <-. exists e. auto.
  - intros (e & I & ->). exists (n, Some e). split; [exact I|]. left. reflexivity.
Qed.
Lemma log_config_get : forall r log, (forall n out, In (n, out) log -> cstr_ok n) ->
  (forall n v v', In (n, Some v) log -> In (n, Some v') log -> v = v') -> (forall n v, In (n, Some v) log -> ~ In (n, None) log) ->
  (forall n v, In (n, Some v) log -> ev r v < 2 ^ 64) ->
  config_ok (log_config r log) /\ forall n out, In (n, out) log -> os_config_try_get (log_config r log) n = option_map (fun v => ev r v) out.
Proof.
  intros r log SK U NB W.
  assert (CO : config_ok (log_config r log)).
  { apply Forall_forall. intros [n v] I. apply log_config_in in I as (e & I & ->). split; [exact (SK _ _ I)|]. exact (W _ _ I). }
  split; [exact CO|]. intros n out I. pose proof (SK _ _ I) as SN.
  assert (CI : forall tbl v, configured tbl n v -> In (n, v) tbl).
  { clear. intros tbl v C. induction C; [left; reflexivity|right; assumption]. }
  assert (CE : forall tbl v, In (n, v) tbl -> exists v', configured tbl n v').
  { induction tbl as [|[k0 v0] tbl IH]; intros v X; [destruct X|]. destruct (list_eq_dec N.eq_dec k0 n) as [->|NE]; [exists v0; constructor|].
    destruct X as [X|X]; [injection X as -> ->; congruence|]. destruct (IH _ X) as [v' C]. exists v'. constructor; auto. }
  destruct out as [v|]; cbn [option_map].
  - destruct (CE (log_config r log) (ev r v)) as [v' C]; [apply log_config_in; eauto|].
    pose proof (CI _ _ C) as X. apply log_config_in in X as (e & X & ->). rewrite (U _ _ _ I X). apply try_get_spec; auto.
  - destruct (os_config_try_get (log_config r log) n) as [v|] eqn:E; [|reflexivity]. exfalso.
    apply try_get_spec in E; auto. apply CI in E. apply log_config_in in E as (e & X & _). apply (NB _ _ X I).
Qed.
