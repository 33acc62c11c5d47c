(** Property theorems C148: the shipped specifications are judged by the structures they are meant to speak of. *)

From Coq Require Import NArith List Bool Lia Arith String Sorting.
From Verif Require Import Expr Solver Symbex SymbexFacts SymbexSearch SpecMaps Shipped.
Import ListNotations.
Open Scope nat_scope.

(** For all specifications that fail only by assertions: the verdict is that of the first choice, and of no other; when the first choice makes
    it fail, verification fails, whatever the others would do. *)
Theorem C148_first_choice_decides : forall s, solver_ok s -> forall L w sd, first_fit L w ->
  (forall cs sp, In (cs, sp) sd -> offers L 0 sp /\ assertive sp /\ assumes_nothing sp /\ exists r, holds r cs) ->
  (forall fuel pfuel v rs, symbex s fuel pfuel sd [] = Verified v rs ->
     (exists n, v = firstn n w) /\ forall cs sp r, In (cs, sp) sd -> holds r cs -> crun r w sp 0 <> CFail) /\
  exists m, forall fuel pfuel, m <= pfuel ->
    ((forall cs sp r, In (cs, sp) sd -> holds r cs -> crun r w sp 0 <> CFail) -> exists n rs, symbex s (S fuel) pfuel sd [] = Verified (firstn n w) rs) /\
    ((exists cs sp r, In (cs, sp) sd /\ holds r cs /\ crun r w sp 0 = CFail) -> symbex s (S fuel) pfuel sd [] = Failed).
Proof. intros s SOK L w sd FF HS. exact (symbex_first s SOK L w FF sd HS). Qed.
Print Assumptions C148_first_choice_decides.
(** Two lists that start alike: the second declaration gets the second candidate. *)
Example C148_first_example : first_fit [[1; 2]; [1; 3]]%N [1; 3]%N /\ ~ first_fit [[1; 2]; [1; 3]]%N [2; 1]%N.
Proof.
  split.
  - split; [reflexivity|]. intros [|[|i]] I; cbn [List.length] in I; [exists [], [2%N]|exists [1%N], []|lia]; cbn; (split; [reflexivity|]); (split; [intuition discriminate|]); intuition.
  - intros [_ H]. destruct (H 0) as (pre & post & E & X & P); [cbn; lia|]. cbn in E, P. destruct pre as [|y pre]; [discriminate|]. apply (P y). left. reflexivity.
Qed.

(** The shipped functions and the specifications of theirs that declare maps. *)
Inductive shipped := Firewall | FirewallSmall | NatBox | Maglev | Router.
Definition calls_of (nf : shipped) : list call :=
  match nf with Firewall | FirewallSmall => firewall_calls | NatBox => nat_calls | Maglev => maglev_calls | Router => router_calls end.
Definition decls_of (nf : shipped) : list (N * option N) :=
  match nf with Firewall => firewall_decls | FirewallSmall => firewall_small_decls | NatBox => nat_decls | Maglev => maglev_decls | Router => router_decls end.
Definition meant_of (nf : shipped) : list nat :=
  match nf with Firewall => firewall_meant | FirewallSmall => firewall_small_meant | NatBox => nat_meant | Maglev => maglev_meant | Router => router_meant end.
(** A path: its constraints, what is in the structures, and the specification: a first test, what it does if that holds, and what it does with
    the maps it declares otherwise. *)
Definition path := (list bexp * contents * bexp * spec * (list smap -> spec))%type.
Definition to_check (nf : shipped) (p : path) : list bexp * spec :=
  let '(cs, ct, c, early, k) := p in (cs, SIf c early (declare (decls_of nf) (structures (calls_of nf) ct) k)).
(** Only assertions, and no declarations, in the rest. *)
Definition plain (sp : spec) : Prop := choice_free sp /\ assertive sp /\ assumes_nothing sp.
Definition path_ok (p : path) : Prop := let '(cs, _, _, early, k) := p in (exists r, holds r cs) /\ plain early /\ forall ms, plain (k ms).
(** What the specification says of the structures it is meant to speak of. *)
Definition meets (nf : shipped) (p : path) (r : env) : Prop :=
  let '(cs, ct, c, early, k) := p in holds r cs -> crun r [] (SIf c early (k (map (structure_of (calls_of nf) ct) (meant_of nf)))) 0 <> CFail.

Definition cands (maps : list smap) (d : N * option N) : list N := map sm_obj (map_candidates (fst d) (snd d) maps).
Lemma plain_offers : forall L ci sp, choice_free sp -> offers L ci sp.
Proof. intros L ci sp; revert ci; induction sp; intros ci F; cbn [choice_free offers] in *; try tauto; try (destruct F; split; auto); auto. Qed.
Lemma declare_offers : forall ds maps k pre, (forall ms, choice_free (k ms)) -> offers (pre ++ map (cands maps) ds) (List.length pre) (declare ds maps k).
Proof.
  induction ds as [|[key value] ds IH]; intros maps k pre HK; cbn [declare]; [apply plain_offers, HK|]. unfold with_map, bind. cbn [offers]. split.
  - rewrite nth_error_app2, Nat.sub_diag by lia. reflexivity.
  - intros x. destruct (find _ maps) as [m|]; [|exact Logic.I]. cbn [map].
    specialize (IH maps (fun ms => k (m :: ms)) (pre ++ [cands maps (key, value)]) (fun ms => HK (m :: ms))). rewrite <- app_assoc, app_length in IH. cbn [app Datatypes.length] in IH.
    rewrite Nat.add_1_r in IH. exact IH.
Qed.
Lemma declare_plain : forall ds maps k, (forall ms, plain (k ms)) -> assertive (declare ds maps k) /\ assumes_nothing (declare ds maps k).
Proof.
  induction ds as [|[key value] ds IH]; intros maps k HK; cbn [declare]; [destruct (HK []) as (_ & A & B); auto|].
  unfold with_map, bind. cbn [assertive assumes_nothing]. split; intros x; (destruct (find _ maps) as [m|]; [apply IH; auto|exact Logic.I || reflexivity]).
Qed.
Lemma declare_run : forall ds maps k r w1 w2 ms, map (fun x => find (fun m => N.eqb (sm_obj m) x) maps) w2 = map Some ms -> List.length ds = List.length w2 ->
  crun r (w1 ++ w2) (declare ds maps k) (List.length w1) = crun r (w1 ++ w2) (k ms) (List.length (w1 ++ w2)).
Proof.
  induction ds as [|[key value] ds IH]; intros maps k r w1 w2 ms F LE.
  - destruct w2; [|discriminate]. destruct ms; [|discriminate]. cbn [declare]. rewrite app_nil_r. reflexivity.
  - destruct w2 as [|x w2]; [discriminate|]. destruct ms as [|m ms]; [discriminate|]. cbn [map] in F.
    assert (F1 : find (fun m0 => N.eqb (sm_obj m0) x) maps = Some m /\ map (fun x => find (fun m => N.eqb (sm_obj m) x) maps) w2 = map Some ms) by (split; congruence).
    destruct F1 as [F1 F2]. cbn [declare]. unfold with_map, bind. cbn [crun]. rewrite app_nth2, Nat.sub_diag by lia. cbn [nth]. rewrite F1.
    specialize (IH maps (fun ms => k (m :: ms)) r (w1 ++ [x]) w2 ms F2). rewrite <- app_assoc in IH. cbn [app] in IH. rewrite <- IH by (cbn [Datatypes.length] in LE; lia).
    f_equal. rewrite app_length. cbn [Datatypes.length]. lia.
Qed.

(** The candidates and the first choice, for each function. *)
Definition lists_of (nf : shipped) : list (list N) := map (cands (structures (calls_of nf) (fun _ => (BVV 1 0, BVV 1 0, BVV 1 0)))) (decls_of nf).
Definition objects_of (nf : shipped) : list N := map (fun j => N.of_nat (List.length (all_made (firstn j (calls_of nf))))) (meant_of nf).
Lemma lists_any : forall nf ct, map (cands (structures (calls_of nf) ct)) (decls_of nf) = lists_of nf.
Proof. intros [] ct; vm_compute; reflexivity. Qed.
Fixpoint fits_from (w : list N) (i : nat) (L : list (list N)) : bool :=
  match L with
  | [] => true
  | l :: L' => match undupe (firstn i w) l with Some (x :: _) => N.eqb x (nth i w 0%N) && negb (existsb (N.eqb x) (firstn i w)) | _ => false end && fits_from w (S i) L'
  end.
Lemma fits_from_ok : forall w L j, fits_from w j L = true -> forall i, i < List.length L -> exists pre post, nth i L [] = pre ++ nth (j + i) w 0%N :: post /\
  ~ In (nth (j + i) w 0%N) (firstn (j + i) w) /\ forall x, In x pre -> In x (firstn (j + i) w).
Proof.
  induction L as [|l L IH]; intros j H i I; [cbn in I; lia|]. cbn [fits_from] in H. apply andb_prop in H as [H1 H2]. destruct i as [|i].
  - rewrite Nat.add_0_r. cbn [nth]. destruct (undupe (firstn j w) l) as [[|x post]|] eqn:U; try discriminate. apply andb_prop in H1 as [E1 E2]. apply N.eqb_eq in E1. subst x.
    apply undupe_spec in U as (_ & _ & pre & -> & P). exists pre, post. split; [reflexivity|]. split; [|exact P]. intros Y. apply negb_true_iff in E2.
    assert (Z : existsb (N.eqb (nth j w 0%N)) (firstn j w) = true) by (apply existsb_exists; eexists; split; [exact Y|apply N.eqb_refl]). congruence.
  - cbn [nth]. rewrite <- Nat.add_succ_comm. apply IH; [exact H2|]. cbn [Datatypes.length] in I. lia.
Qed.
Lemma objects_first : forall nf, first_fit (lists_of nf) (objects_of nf).
Proof.
  intros nf. split; [destruct nf; reflexivity|]. apply (fits_from_ok (objects_of nf) (lists_of nf) 0). destruct nf; vm_compute; reflexivity.
Qed.
Lemma objects_found : forall nf ct, map (fun x => find (fun m => N.eqb (sm_obj m) x) (structures (calls_of nf) ct)) (objects_of nf) = map Some (map (structure_of (calls_of nf) ct) (meant_of nf)).
Proof. intros [] ct; vm_compute; reflexivity. Qed.

(** For all shipped functions, all contents of their structures, all paths, and all specifications with the shipped declarations that fail only
    by assertions: verification succeeds if and only if the specification holds of the structures it is meant to speak of. *)
Theorem C148_meant : forall nf s, solver_ok s -> forall sd : list path, (forall p, In p sd -> path_ok p) ->
  (forall fuel pfuel v rs, symbex s fuel pfuel (map (to_check nf) sd) [] = Verified v rs -> forall p r, In p sd -> meets nf p r) /\
  exists m, forall fuel pfuel, m <= pfuel ->
    ((forall p r, In p sd -> meets nf p r) -> exists v rs, symbex s (S fuel) pfuel (map (to_check nf) sd) [] = Verified v rs) /\
    ((exists p r, In p sd /\ ~ meets nf p r) -> symbex s (S fuel) pfuel (map (to_check nf) sd) [] = Failed).
Proof.
  intros nf s SOK sd HP.
  assert (RUN : forall p r, In p sd -> (holds r (fst (to_check nf p)) -> crun r (objects_of nf) (snd (to_check nf p)) 0 <> CFail) <-> meets nf p r).
  { intros p r I. specialize (HP p I). destruct p as [[[[cs ct] c] early] k]. destruct HP as (_ & (E1 & _) & K). cbn [to_check fst snd meets crun].
    assert (Q : crun r (objects_of nf) (declare (decls_of nf) (structures (calls_of nf) ct) k) 0 = crun r [] (k (map (structure_of (calls_of nf) ct) (meant_of nf))) 0).
    { rewrite (declare_run _ _ _ r [] (objects_of nf) _ (objects_found nf ct)) by (destruct nf; reflexivity). apply choice_free_crun. apply K. }
    rewrite Q, (choice_free_crun r (objects_of nf) [] early 0 0 E1). reflexivity. }
  assert (HS : forall cs sp, In (cs, sp) (map (to_check nf) sd) -> offers (lists_of nf) 0 sp /\ assertive sp /\ assumes_nothing sp /\ exists r, holds r cs).
  { intros cs sp I. apply in_map_iff in I as (p & E & I). specialize (HP p I). destruct p as [[[[cs0 ct] c] early] k]. cbn [to_check] in E. injection E as <- <-.
    destruct HP as (SAT & (E1 & E2 & E3) & K). pose proof (declare_plain (decls_of nf) (structures (calls_of nf) ct) k K) as [D1 D2].
    cbn [offers assertive assumes_nothing]. split; [|auto]. split; [apply plain_offers; exact E1|]. rewrite <- (lists_any nf ct).
    apply (declare_offers (decls_of nf) (structures (calls_of nf) ct) k []). intros ms. apply K. }
  destruct (C148_first_choice_decides s SOK (lists_of nf) (objects_of nf) (map (to_check nf) sd) (objects_first nf) HS) as [A [m B]]. split.
  - intros fuel pfuel v rs H p r I. apply RUN; [exact I|]. apply A in H as [_ H]. apply H. rewrite <- surjective_pairing. apply in_map. exact I.
  - exists m. intros fuel pfuel P. destruct (B fuel pfuel P) as [B1 B2]. split.
    + intros H. destruct B1 as (n & rs & ->); [|eauto]. intros cs sp r I Hr. apply in_map_iff in I as (p & E & I).
      pose proof (proj2 (RUN p r I) (H p r I)) as Z. rewrite E in Z. exact (Z Hr).
    + intros (p & r & I & N0). apply B2. exists (fst (to_check nf p)), (snd (to_check nf p)), r. split; [rewrite <- surjective_pairing; apply in_map; exact I|].
      assert (D : forall x : cres, x = CFail \/ x <> CFail) by (intros []; auto; right; discriminate).
      destruct (D (crun r (objects_of nf) (snd (to_check nf p)) 0)) as [D1|D1]; [|elim N0; apply RUN; auto].
      destruct (forallb (eb r) (fst (to_check nf p))) eqn:EH.
      * split; [|exact D1]. intros c C. rewrite forallb_forall in EH. exact (EH c C).
      * elim N0. apply RUN; [exact I|]. intros Hr. exfalso. assert (Z : forallb (eb r) (fst (to_check nf p)) = true); [|congruence].
        apply forallb_forall. intros c C. exact (Hr c C).
Qed.
Print Assumptions C148_meant.
(** The load balancer: five declarations; the two pools are alike and the flows' one comes first.  A specification of the backends' pool. *)
Definition ex_contents (n : N) : contents := fun i => (BVV 64 (if N.eqb i 9 then n else 0), BVV 64 0, BVV 64 0).
Definition ex_backends (ms : list smap) : spec := SIf (BEq (sm_len (nth 3 ms (mkSmap 0 "" 0 0 (BVV 64 7) (BVV 8 0) (BVV 8 0)))) (BVV 64 3)) SDone (SFail true).
Example C148_example :
  (exists rs, symbex bf 9 9 (map (to_check Maglev) [([], ex_contents 3, BUlt (BVS 2 1) (BVV 2 1), SDone, ex_backends)]) [] = Verified [2; 5; 4; 9; 7]%N rs) /\
  symbex bf 9 9 (map (to_check Maglev) [([], ex_contents 4, BUlt (BVS 2 1) (BVV 2 1), SDone, ex_backends)]) [] = Failed.
Proof. split; [eexists|]; vm_compute; reflexivity. Qed.

(** The bridge: a cell for the state of the spanning tree, and a map from addresses.  All paths on which that state is one structure. *)
Definition bpath := (list bexp * contents * (smap -> smap -> spec))%type.
Definition bridge_check (s : solver) (p : bpath) : list bexp * spec :=
  let '(cs, ct, k) := p in
  let maps := structures bridge_calls ct in
  (cs, with_cell s cs bridge_cell maps (fun m => declare bridge_decls maps (fun ms => match ms with db :: _ => k m db | [] => SFail true end))).
Definition bpath_ok (p : bpath) : Prop :=
  let '(cs, ct, k) := p in (exists r, holds r cs) /\ (forall m db, plain (k m db)) /\
  let stp := structure_of bridge_calls ct 1 in width (sm_len stp) = 64%N /\ forall r, holds r cs -> ev r (sm_len stp) = 1%N.
Definition bridge_meets (p : bpath) (r : env) : Prop :=
  let '(cs, ct, k) := p in holds r cs -> crun r [] (k (structure_of bridge_calls ct 1) (structure_of bridge_calls ct 4)) 0 <> CFail.
Lemma filter_swap : forall A (f g : A -> bool) l, filter f (filter g l) = filter g (filter f l).
Proof.
  intros A f g. induction l as [|x l IH]; [reflexivity|]. cbn [filter]. destruct (f x) eqn:F, (g x) eqn:G; cbn [filter]; rewrite ?F, ?G, IH; reflexivity.
Qed.
Lemma bridge_cells : forall s, solver_ok s -> forall cs ct, width (sm_len (structure_of bridge_calls ct 1)) = 64%N ->
  (forall r, holds r cs -> ev r (sm_len (structure_of bridge_calls ct 1)) = 1%N) ->
  cell_candidates s cs bridge_cell (structures bridge_calls ct) = [structure_of bridge_calls ct 1].
Proof.
  intros s [SOK _] cs ct W H. unfold cell_candidates. rewrite filter_swap.
  assert (E : filter (fun m => N.leb bridge_cell (sm_value m)) (filter (fun m => negb (excluded (sm_name m))) (filter (fun m => N.eqb (sm_key m) 64) (structures bridge_calls ct))) = [structure_of bridge_calls ct 1])
    by (vm_compute; reflexivity).
  rewrite E. cbn [filter]. assert (X : sat s (BNe (sm_len (structure_of bridge_calls ct 1)) (BVV (width (sm_len (structure_of bridge_calls ct 1))) 1) :: cs) = false).
  { apply not_true_iff_false. intros Y. apply SOK in Y as [r Y]. assert (Hr : holds r cs) by (intros c C; apply Y; right; exact C).
    assert (Z : eb r (BNe (sm_len (structure_of bridge_calls ct 1)) (BVV (width (sm_len (structure_of bridge_calls ct 1))) 1)) = true) by (apply Y; left; reflexivity).
    rewrite W in Z. specialize (H r Hr). unfold BNe, eb, ev in *. cbn [evalb evalv] in Z. rewrite H in Z. discriminate Z. }
  rewrite X. reflexivity.
Qed.
Definition bridge_lists : list (list N) := [2%N] :: map (cands (structures bridge_calls (fun _ => (BVV 1 0, BVV 1 0, BVV 1 0)))) bridge_decls.
Theorem C148_bridge : forall s, solver_ok s -> forall sd : list bpath, (forall p, In p sd -> bpath_ok p) ->
  (forall fuel pfuel v rs, symbex s fuel pfuel (map (bridge_check s) sd) [] = Verified v rs -> forall p r, In p sd -> bridge_meets p r) /\
  exists m, forall fuel pfuel, m <= pfuel -> (forall p r, In p sd -> bridge_meets p r) -> exists v rs, symbex s (S fuel) pfuel (map (bridge_check s) sd) [] = Verified v rs.
Proof.
  intros s SOK sd HP. set (w := [2; 8]%N).
  assert (FF : first_fit bridge_lists w) by (split; [reflexivity|]; apply (fits_from_ok w bridge_lists 0); vm_compute; reflexivity).
  assert (LA : forall ct, [2%N] :: map (cands (structures bridge_calls ct)) bridge_decls = bridge_lists) by (intros ct; vm_compute; reflexivity).
  assert (F2 : forall ct, find (fun m => N.eqb (sm_obj m) 2) (structures bridge_calls ct) = Some (structure_of bridge_calls ct 1)) by (intros ct; vm_compute; reflexivity).
  assert (F8 : forall ct, find (fun m => N.eqb (sm_obj m) 8) (structures bridge_calls ct) = Some (structure_of bridge_calls ct 4)) by (intros ct; vm_compute; reflexivity).
  assert (O2 : forall ct, sm_obj (structure_of bridge_calls ct 1) = 2%N) by (intros ct; vm_compute; reflexivity).
  assert (RUN : forall p r, In p sd -> (holds r (fst (bridge_check s p)) -> crun r w (snd (bridge_check s p)) 0 <> CFail) <-> bridge_meets p r).
  { intros p r I. specialize (HP p I). destruct p as [[cs ct] k]. destruct HP as (_ & K & W & ONE). cbn [bridge_check fst snd bridge_meets]. unfold with_cell, bind. cbn [crun nth w].
    rewrite F2. cbn [declare bridge_decls]. unfold with_map, bind. cbn [crun nth w]. rewrite F8.
    rewrite (choice_free_crun r w [] _ 2 0) by apply K. reflexivity. }
  assert (HS : forall cs sp, In (cs, sp) (map (bridge_check s) sd) -> offers bridge_lists 0 sp /\ assertive sp /\ assumes_nothing sp /\ exists r, holds r cs).
  { intros cs sp I. apply in_map_iff in I as (p & E & I). specialize (HP p I). destruct p as [[cs0 ct] k]. destruct HP as (SAT & K & W & ONE).
    cbn [bridge_check] in E. injection E as <- <-. unfold with_cell, bind. rewrite (bridge_cells s SOK cs0 ct W ONE). cbn [map]. rewrite O2, <- (LA ct).
    assert (PL : forall m ms, plain (match ms with db :: _ => k m db | [] => SFail true end)) by (intros m [|db ms]; [repeat split|apply K]).
    split; [cbn [offers nth_error]; split; [reflexivity|]; intros x|].
    - destruct (find _ (structures bridge_calls ct)) as [m|]; [|exact Logic.I].
      apply (declare_offers bridge_decls (structures bridge_calls ct) (fun ms => match ms with db :: _ => k m db | [] => SFail true end) [[2%N]]). intros ms. apply PL.
    - cbn [assertive assumes_nothing]. split; [|split; [|exact SAT]]; intros x; (destruct (find _ (structures bridge_calls ct)) as [m|]; [|exact Logic.I || reflexivity]);
      apply (declare_plain bridge_decls (structures bridge_calls ct) (fun ms => match ms with db :: _ => k m db | [] => SFail true end)); intros ms; apply PL. }
  destruct (C148_first_choice_decides s SOK bridge_lists w (map (bridge_check s) sd) FF HS) as [A [m B]]. split.
  - intros fuel pfuel v rs H p r I. apply RUN; [exact I|]. apply A in H as [_ H]. apply H. rewrite <- surjective_pairing. apply in_map. exact I.
  - exists m. intros fuel pfuel P H. destruct (B fuel pfuel P) as [B1 _]. destruct B1 as (n & rs & E); [|eauto]. intros cs sp r I Hr. apply in_map_iff in I as (p & E & I).
    pose proof (proj2 (RUN p r I) (H p r I)) as Z. rewrite E in Z. exact (Z Hr).
Qed.
Print Assumptions C148_bridge.
Definition ex_bridge_contents : contents := fun i => (BVV 64 (if N.eqb i 2 then 1 else 5), BVV 64 0, BVV 64 0).
Example C148_bridge_example : exists rs,
  symbex bf 9 9 (map (bridge_check bf) [([], ex_bridge_contents, fun stp db => SIf (BEq (sm_len db) (BVV 64 5)) SDone (SFail true))]) [] = Verified [2; 8]%N rs.
Proof. eexists. vm_compute. reflexivity. Qed.

(** What the structures meant are: maps from flows to indices (their values, not where the keys are stored), the arrays that hold the flows or
    what belongs to them, the pools, and the routing table, whatever they contain.  Name, size of a key, and size of a value in bits. *)
Definition described (nf : shipped) (ct : contents) : list (string * N * N) :=
  map (fun m => (sm_name m, sm_key m, sm_value m)) (map (structure_of (calls_of nf) ct) (meant_of nf)).
Theorem C148_kinds : forall nf ct, described nf ct =
  match nf with
  | Firewall | NatBox => [("map", 128, 64); ("allocated", 64, 128); ("pool_items", 64, 64)]
  | FirewallSmall => [("map", 128, 64)]
  | Maglev => [("map", 128, 64); ("allocated", 64, 128); ("pool_items", 64, 64); ("pool_items", 64, 64); ("allocated", 64, 16)]
  | Router => [("lpm_table", 96, 16)]
  end%N%string.
Proof. intros [] ct; reflexivity. Qed.
Print Assumptions C148_kinds.
(** The two pools of the load balancer are different ones. *)
Example C148_kinds_example : map (fun m => sm_obj m) (map (structure_of maglev_calls (ex_contents 0)) maglev_meant) = [2; 5; 4; 9; 7]%N.
Proof. reflexivity. Qed.
(** A flow is two addresses, two ports and a protocol; all structures of the firewall and of the bridge, with their sizes. *)
Example C148_sizes_example : FLOW = (2 * 32 + 2 * 16 + 8)%N /\ forall ct,
  let sizes cs := map (fun m => (sm_name m, sm_key m, sm_value m)) (firstn (List.length (all_made cs) - 3) (structures cs ct)) in
  sizes firewall_calls = [("allocated", 64, 24 * 8); ("allocated_fracs", 64, 8); ("allocated", 64, 16 * 8); ("allocated_fracs", 64, 8);
    ("map", 16 * 8, 64); ("map_addrs", 16 * 8, 64); ("pool_items", 64, 64)]%N%string /\
  sizes bridge_calls = [("allocated", 64, 8); ("allocated_fracs", 64, 8); ("allocated", 64, 32 * 8); ("allocated_fracs", 64, 8);
    ("allocated", 64, 48); ("allocated_fracs", 64, 8); ("allocated", 64, 16); ("allocated_fracs", 64, 8);
    ("map", 48, 64); ("map_addrs", 48, 64); ("pool_items", 64, 64)]%N%string.
Proof. repeat split. Qed.
