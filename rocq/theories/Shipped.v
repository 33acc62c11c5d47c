(** * The structures of the shipped network functions, and what their specifications declare

    The structures are listed in the order in which they are made: those of nf_init, then the packet (executor.py allocates it before
    nf_handle).  Sizes are those of the C types on amd64.  How many elements they have, and which, is arbitrary. *)

From Coq Require Import NArith List Bool Lia Arith String Sorting.
From Verif Require Import Expr Solver Symbex SymbexFacts SymbexSearch SpecMaps.
Import ListNotations.
Open Scope N_scope.

(** The calls that make maps, with sizes in bytes: externals/os/memory.py 20-32, structs/map.py 31-33, structs/index_pool.py 26-28,
    structs/lpm.py 27-29 (cht_alloc makes none), net/packet.py 23-32. *)
Inductive call := MemoryAlloc (size : N) | MapAlloc (key : N) | PoolAlloc | LpmAlloc (key value : N) | PacketAlloc.
(** The maps a call makes: where they come from and the sizes in bits of keys and values.  heap.py 33-34 and 54, then as above. *)
Definition made (c : call) : list (origin * N * N) :=
  match c with
  | MemoryAlloc size => [(Block BlockAllocated, 64, size * 8); (Fractions BlockAllocated, 64, 8)]
  | MapAlloc key => [(MapValues, key * 8, 64); (MapAddrs, key * 8, 64)]
  | PoolAlloc => [(PoolItems, 64, 64)]
  | LpmAlloc key value => [(LpmTable, key * 8 + 64, value * 8)]
  | PacketAlloc => [(Block BlockPacket, 64, 208); (Fractions BlockPacket, 64, 8); (Block BlockPacketData, 64, 8)]
  end.
Definition all_made (cs : list call) : list (origin * N * N) := flat_map made cs.
(** Their number of elements, and first element before and after the packet. *)
Definition contents := N -> bv * bv * bv.
Fixpoint numbered (i : N) (l : list (origin * N * N)) (ct : contents) : list smap :=
  match l with
  | [] => []
  | (o, k, v) :: l' => mkSmap i (origin_name o) k v (fst (fst (ct i))) (snd (fst (ct i))) (snd (ct i)) :: numbered (i + 1) l' ct
  end.
Definition structures (cs : list call) (ct : contents) : list smap := numbered 0 (all_made cs) ct.
(** The (first) structure made by the [j]-th call. *)
Definition structure_of (cs : list call) (ct : contents) (j : nat) : smap :=
  nth (List.length (all_made (firstn j cs))) (structures cs ct) (mkSmap 0 "" 0 0 (BVV 64 0) (BVV 8 0) (BVV 8 0)).

(** A specification that declares maps, one after the other (the value size is [None] for "..."). *)
Fixpoint declare (ds : list (N * option N)) (maps : list smap) (k : list smap -> spec) : spec :=
  match ds with
  | [] => k []
  | (key, value) :: ds' => with_map key value maps (fun m => declare ds' maps (fun ms => k (m :: ms)))
  end.

(** A flow in the specifications: 32 + 32 + 16 + 16 + 8 bits; spec_utils.py 13-15. *)
Definition FLOW : N := 104.
Definition expiring_set (elem : N) : list (N * option N) := [(elem, Some 64); (64, Some elem); (64, Some 64)].

(** nf/firewall/flow_table.h 27-34 and spec.py 16: the set is made of the map, the array of flows and the pool. *)
Definition firewall_calls : list call := [MemoryAlloc 24; MemoryAlloc 16; MapAlloc 16; PoolAlloc; PacketAlloc].
Definition firewall_decls := expiring_set FLOW.
Definition firewall_meant : list nat := [2; 1; 3]%nat.
(** nf/firewall/spec-small.py 15. *)
Definition firewall_small_decls : list (N * option N) := [(FLOW, None)].
Definition firewall_small_meant : list nat := [2]%nat.
(** nf/nat/flow_table.h 30-38 and spec.py 16. *)
Definition nat_calls : list call := [MemoryAlloc 40; MemoryAlloc 16; MapAlloc 16; PoolAlloc; PacketAlloc].
Definition nat_decls := expiring_set FLOW.
Definition nat_meant : list nat := [2; 1; 3]%nat.
(** nf/maglev/balancer.h 32-42 and spec.py 17-19: the flows' map, array and pool, the backends' pool, the flows' backends. *)
Definition maglev_calls : list call := [MemoryAlloc 48; MapAlloc 16; PoolAlloc; MemoryAlloc 16; MemoryAlloc 2; PoolAlloc; PacketAlloc].
Definition maglev_decls := expiring_set FLOW ++ [(16, Some 64); (64, Some 16)].
Definition maglev_meant : list nat := [1; 3; 2; 5; 4]%nat.
(** nf/router/router.c 17 and spec.py 15: a route is a length (64) and an address (32). *)
Definition router_calls : list call := [LpmAlloc 4 2; PacketAlloc].
Definition router_decls : list (N * option N) := [(96, Some 16)].
Definition router_meant : list nat := [0]%nat.
(** nf/bridge/spanning_tree.h 35-37, bridge.c 30-34 and spec.py 13-14: a cell for the spanning tree's state (64 * 3 + 32 + 16), then a map
    from addresses. *)
Definition bridge_calls : list call := [MemoryAlloc 1; MemoryAlloc 32; MemoryAlloc 6; MemoryAlloc 2; MapAlloc 6; PoolAlloc; PacketAlloc].
Definition bridge_cell : N := 240.
Definition bridge_decls : list (N * option N) := [(48, None)].

(** ** Specifications whose failures are Python's own: [assert], and [raise Exception] *)
Fixpoint assertive (sp : spec) : Prop :=
  match sp with
  | SDone => True
  | SFail b => b = true
  | SIf _ t f => assertive t /\ assertive f
  | SAssume _ k | SMust _ k => assertive k
  | SChoose _ k => forall x, assertive (k x)
  end.

(** The first choice: from each list the first candidate that no earlier list gave. *)
Definition first_fit (L : list (list N)) (w : list N) : Prop :=
  List.length w = List.length L /\
  forall i, (i < List.length L)%nat -> exists pre post, nth i L [] = pre ++ nth i w 0 :: post /\
    ~ In (nth i w 0) (firstn i w) /\ forall x, In x pre -> In x (firstn i w).

(** ** Facts *)
Open Scope nat_scope.
Section First.
Variable s : solver.
Hypothesis SOK : solver_ok s.
Variable L : list (list N).
Variable w : list N.
Hypothesis FF : first_fit L w.

(** The choices recorded after [n] calls. *)
Definition front (i : nat) : list N := match undupe (firstn i w) (nth i L []) with Some l => l | None => [] end.
Definition fronts (n : nat) : choices := map front (seq 0 n).
Lemma undupe_pre : forall used pre x post, (forall y, In y pre -> In y used) -> ~ In x used -> undupe used (pre ++ x :: post) = Some (x :: post).
Proof.
  intros used pre x post. induction pre as [|y pre IH]; intros P X; cbn [app undupe].
  - destruct (existsb (N.eqb x) used) eqn:E; [|reflexivity]. apply existsb_exists in E as (z & Z & E). apply N.eqb_eq in E. subst. contradiction.
  - assert (E : existsb (N.eqb y) used = true) by (apply existsb_exists; exists y; split; [apply P; left; reflexivity|apply N.eqb_refl]).
    rewrite E. apply IH; [|exact X]. intros z Z. apply P. right. exact Z.
Qed.
Lemma front_spec : forall i, i < List.length L -> exists post, undupe (firstn i w) (nth i L []) = Some (nth i w 0%N :: post) /\ front i = nth i w 0%N :: post /\
  undupe (firstn i w) (front i) = Some (front i) /\ nth i L [] <> [].
Proof.
  intros i I. destruct FF as [_ F]. destruct (F i I) as (pre & post & E & X & P). exists post. unfold front. rewrite E, (undupe_pre _ _ _ _ P X).
  split; [reflexivity|]. split; [reflexivity|]. split; [apply (undupe_pre _ []); [intros ? []|exact X]|]. destruct pre; discriminate.
Qed.
Lemma fronts_length : forall n, List.length (fronts n) = n.
Proof. intros. unfold fronts. rewrite map_length, seq_length. reflexivity. Qed.
Lemma fronts_S : forall n, fronts (S n) = fronts n ++ [front n].
Proof. intros. unfold fronts. rewrite seq_S, map_app. reflexivity. Qed.
Lemma fronts_nth : forall n i, i < n -> nth i (fronts n) [] = front i.
Proof.
  intros n i I. unfold fronts. rewrite (nth_indep _ [] (front 0)) by (rewrite map_length, seq_length; exact I). rewrite map_nth, seq_nth by exact I. reflexivity.
Qed.
Lemma fronts_firstn : forall n i, i <= n -> firstn i (fronts n) = fronts i.
Proof.
  induction n as [|n IH]; intros i I; [replace i with 0 by lia; reflexivity|]. rewrite fronts_S.
  destruct (Nat.eq_dec i (S n)) as [->|]; [rewrite <- fronts_S; rewrite <- (fronts_length (S n)) at 1; apply firstn_all|].
  rewrite firstn_app, fronts_length. replace (i - n) with 0 by lia. cbn [firstn]. rewrite app_nil_r. apply IH. lia.
Qed.
Lemma fronts_heads : forall n, n <= List.length L -> heads (fronts n) = firstn n w.
Proof.
  induction n as [|n IH]; intros I; [reflexivity|]. rewrite fronts_S. unfold heads in *. rewrite map_app, IH by lia. cbn [map].
  destruct (front_spec n) as (post & _ & -> & _); [lia|]. cbn [hd]. destruct FF as [LW _].
  clear - I LW. revert n I. rewrite <- LW. clear LW. induction w as [|x l IHl]; intros n I; [cbn in I; lia|].
  destruct n; [reflexivity|]. cbn [firstn nth app]. f_equal. apply IHl. cbn [Datatypes.length] in I. lia.
Qed.
Lemma set_nth_same : forall A (l : list A) i d, i < List.length l -> set_nth i (nth i l d) l = l.
Proof. induction l as [|x l IH]; intros i d I; [cbn in I; lia|]. destruct i; [reflexivity|]. cbn [nth set_nth]. f_equal. apply IH. cbn [Datatypes.length] in I. lia. Qed.
Lemma set_nth_last : forall A (l : list A) x y, set_nth (List.length l) x (l ++ [y]) = l ++ [x].
Proof. induction l as [|z l IH]; intros x y; [reflexivity|]. cbn [Datatypes.length set_nth app]. f_equal. apply IH. Qed.
Lemma choose_first : forall ci n, ci <= n -> n <= List.length L -> ci < List.length L ->
  choose ci (nth ci L []) (fronts n) = Some (nth ci w 0%N, fronts (Nat.max n (S ci))).
Proof.
  intros ci n C N0 I. destruct (front_spec ci I) as (post & U & F & U' & NE). unfold choose. destruct (nth ci L []) as [|c0 cl] eqn:EL; [congruence|]. rewrite <- EL in *.
  rewrite fronts_length. destruct (Nat.eqb_spec ci n) as [->|NC].
  - rewrite firstn_app, fronts_length, Nat.sub_diag, fronts_firstn, app_nil_r, fronts_heads by lia.
    rewrite app_nth2 by (rewrite fronts_length; lia). rewrite fronts_length, Nat.sub_diag. cbn [nth]. rewrite U. cbn [hd].
    replace (Nat.max n (S n)) with (S n) by lia. rewrite fronts_S. f_equal. f_equal. rewrite <- (fronts_length n) at 1. rewrite set_nth_last, F. reflexivity.
  - rewrite fronts_firstn, fronts_heads, fronts_nth by lia. rewrite U'. rewrite F at 1. cbn [hd]. f_equal. f_equal. replace (Nat.max n (S ci)) with n by lia.
    rewrite <- (fronts_nth n ci) by lia. apply set_nth_same. rewrite fronts_length. lia.
Qed.

Lemma dfs_first : forall sp cs pc ci n, implied cs pc -> (exists r, holds r cs) -> offers L ci sp -> assertive sp -> assumes_nothing sp -> ci <= n -> n <= List.length L ->
  exists n', n <= n' /\ n' <= List.length L /\
  ((exists ps, dfs s sp cs pc ci (fronts n) = DOk ps (fronts n') /\ forall r, holds r cs -> crun r w sp ci <> CFail) \/
   (dfs s sp cs pc ci (fronts n) = DExc true (fronts n') /\ exists r, holds r cs /\ crun r w sp ci = CFail)).
Proof.
  induction sp as [|b|c t IHt f IHf|c k IH|c k IH|cands k IH]; intros cs pc ci n Hi Hsat HO HA HN C N0; cbn [dfs crun offers assertive assumes_nothing] in *.
  - exists n. split; [lia|]. split; [lia|]. left. eexists. split; [reflexivity|]. discriminate.
  - subst b. exists n. split; [lia|]. split; [lia|]. right. split; [reflexivity|]. destruct Hsat as [r Hr]. exists r. auto.
  - destruct HO as [O1 O2], HA as [A1 A2], HN as [N1 N2]. pose proof (outcomes_spec s SOK cs pc c Hi) as HC. destruct (outcomes s cs pc c) as [|b|].
    + destruct HC as [S1 S2]. destruct (IHt (c :: cs) (c :: pc) ci n) as (n1 & L1 & L1' & [(ps1 & E1 & G1)|(E1 & r & Hr & G1)]); try assumption; [apply implied_cons; exact Hi| |].
      * rewrite E1. destruct (IHf (BNot c :: cs) (BNot c :: pc) ci n1) as (n2 & L2 & L2' & [(ps2 & E2 & G2)|(E2 & r & Hr & G2)]); try assumption; [apply implied_cons; exact Hi|lia| |].
        -- rewrite E2. exists n2. split; [lia|]. split; [exact L2'|]. left. eexists. split; [reflexivity|]. intros r Hr.
           destruct (eb r c) eqn:Ec; [apply G1|apply G2]; apply holds_cons; rewrite ?eb_not, Ec; auto.
        -- rewrite E2. exists n2. split; [lia|]. split; [exact L2'|]. right. split; [reflexivity|]. exists r. apply holds_cons in Hr as [Hc Hr].
           rewrite eb_not in Hc. destruct (eb r c); [discriminate|]. auto.
      * rewrite E1. exists n1. split; [lia|]. split; [exact L1'|]. right. split; [reflexivity|]. exists r. apply holds_cons in Hr as [Hc Hr]. rewrite Hc. auto.
    + assert (X : exists n', n <= n' /\ n' <= List.length L /\
        ((exists ps, dfs s (if b then t else f) cs pc ci (fronts n) = DOk ps (fronts n') /\ forall r, holds r cs -> crun r w (if b then t else f) ci <> CFail) \/
         (dfs s (if b then t else f) cs pc ci (fronts n) = DExc true (fronts n') /\ exists r, holds r cs /\ crun r w (if b then t else f) ci = CFail))).
      { destruct b; [apply IHt|apply IHf]; assumption. }
      destruct X as (n' & M1 & M2 & [(ps & E & G)|(E & r & Hr & G)]); exists n'; (split; [exact M1|]); (split; [exact M2|]).
      * left. exists ps. split; [exact E|]. intros r Hr. rewrite (HC r Hr). specialize (G r Hr). destruct b; exact G.
      * right. split; [exact E|]. exists r. split; [exact Hr|]. rewrite (HC r Hr). destruct b; exact G.
    + exfalso. destruct Hsat as [r Hr]. exact (HC r Hr).
  - destruct HN.
  - destruct (sat s (BNot c :: cs)) eqn:Es.
    + exists n. split; [lia|]. split; [lia|]. right. split; [reflexivity|]. apply SOK in Es as [r Hr]. exists r.
      assert (Hr' : holds r (BNot c :: cs)) by exact Hr. apply holds_cons in Hr' as [Hc Hr']. rewrite eb_not in Hc. destruct (eb r c); [discriminate|]. auto.
    + assert (T : forall r, holds r cs -> eb r c = true).
      { intros r Hr. destruct (eb r c) eqn:Ec; [reflexivity|]. exfalso. assert (X : sat s (BNot c :: cs) = true); [|congruence].
        apply SOK. exists r. assert (Y : holds r (BNot c :: cs)) by (apply holds_cons; rewrite eb_not, Ec; auto). exact Y. }
      destruct (IH cs pc ci n Hi Hsat HO HA HN C N0) as (n' & M1 & M2 & [(ps & E & G)|(E & r & Hr & G)]); exists n'; (split; [exact M1|]); (split; [exact M2|]).
      * left. exists ps. split; [exact E|]. intros r Hr. rewrite (T r Hr). auto.
      * right. split; [exact E|]. exists r. rewrite (T r Hr). auto.
  - destruct HO as [O1 O2]. assert (I : ci < List.length L) by (apply nth_error_Some; congruence).
    assert (EC : cands = nth ci L []) by (symmetry; apply nth_error_nth; exact O1). rewrite EC, (choose_first ci n C N0 I).
    destruct (IH (nth ci w 0%N) cs pc (S ci) (Nat.max n (S ci)) Hi Hsat (O2 _) (HA _) (HN _)) as (n' & M1 & M2 & X); [lia|lia|]. exists n'. split; [lia|]. split; [exact M2|exact X].
Qed.

Variable sd : list (list bexp * spec).
Hypothesis HS : forall cs sp, In (cs, sp) sd -> offers L 0 sp /\ assertive sp /\ assumes_nothing sp /\ exists r, holds r cs.
Lemma dall_first : forall sd', incl sd' sd -> forall n, n <= List.length L -> exists n', n <= n' /\ n' <= List.length L /\
  ((exists rs, dall s sd' (fronts n) = APassed rs (fronts n') /\ forall cs sp r, In (cs, sp) sd' -> holds r cs -> crun r w sp 0 <> CFail) \/
   (dall s sd' (fronts n) = ARaised true (fronts n') /\ exists cs sp r, In (cs, sp) sd' /\ holds r cs /\ crun r w sp 0 = CFail)).
Proof.
  induction sd' as [|[cs sp] sd' IH]; intros INC n N0; cbn [dall].
  - exists n. split; [lia|]. split; [exact N0|]. left. eexists. split; [reflexivity|]. intros ? ? ? [].
  - destruct (HS cs sp (INC _ (or_introl eq_refl))) as (O & A & NN & SAT).
    destruct (dfs_first sp cs [] 0 n) as (n1 & L1 & L1' & [(ps & E & G)|(E & r & Hr & G)]); try assumption; [intros r _; apply holds_nil|lia| |].
    + rewrite E. destruct (IH (fun x Hx => INC x (or_intror Hx)) n1 L1') as (n2 & L2 & L2' & [(rs & E2 & G2)|(E2 & cs2 & sp2 & r & I2 & Hr & G2)]); rewrite E2; exists n2; (split; [lia|]); (split; [exact L2'|]).
      * left. eexists. split; [reflexivity|]. intros cs' sp' r [X|X] Hr; [injection X as <- <-; auto|eauto].
      * right. split; [reflexivity|]. exists cs2, sp2, r. split; [right; exact I2|auto].
    + rewrite E. exists n1. split; [exact L1|]. split; [exact L1'|]. right. split; [reflexivity|]. exists cs, sp, r. split; [left; reflexivity|auto].
Qed.
Lemma symbex_first :
  (forall fuel pfuel v rs, symbex s fuel pfuel sd [] = Verified v rs ->
     (exists n, v = firstn n w) /\ forall cs sp r, In (cs, sp) sd -> holds r cs -> crun r w sp 0 <> CFail) /\
  exists m, forall fuel pfuel, m <= pfuel ->
    ((forall cs sp r, In (cs, sp) sd -> holds r cs -> crun r w sp 0 <> CFail) -> exists n rs, symbex s (S fuel) pfuel sd [] = Verified (firstn n w) rs) /\
    ((exists cs sp r, In (cs, sp) sd /\ holds r cs /\ crun r w sp 0 = CFail) -> symbex s (S fuel) pfuel sd [] = Failed).
Proof.
  destruct (dall_first sd (incl_refl sd) 0 (Nat.le_0_l _)) as (n & _ & N1 & X). change (fronts 0) with (@nil (list N)) in X. destruct (dall_spec s sd []) as [m HD]. split.
  - intros [|fuel] pfuel v rs H; cbn [symbex] in H; [discriminate|]. destruct (HD pfuel) as [_ [E|E]]; rewrite E in H; [discriminate|].
    destruct X as [(rs' & E' & G)|(E' & _)]; rewrite E' in H; [|discriminate]. injection H as <- <-. split; [exists n; apply fronts_heads; exact N1|exact G].
  - exists m. intros fuel pfuel P. cbn [symbex]. destruct (HD pfuel) as [E _]. rewrite (E P). destruct X as [(rs' & E' & G)|(E' & cs & sp & r & I & Hr & G)]; rewrite E'; split.
    + intros _. exists n, rs'. rewrite fronts_heads by exact N1. reflexivity.
    + intros (cs & sp & r & I & Hr & F). elim (G cs sp r I Hr F).
    + intros H. elim (H cs sp r I Hr G).
    + reflexivity.
Qed.
End First.
