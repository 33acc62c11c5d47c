(** * What a specification's maps and cells stand for (tool/klint/verif/spec_prefix.py 95-190)

    A map of the explored state: the number that stands for its object, its name, the sizes of its keys and values in bits, and its length
    (ghostmaps.py 41, MapMeta).  [old] and [now] are the value at index 0 before and after the packet, for cells. *)

From Coq Require Import NArith List Bool Lia Arith String Sorting.
From Verif Require Import Expr Solver Symbex SymbexFacts SymbexSearch.
Import ListNotations.
Open Scope N_scope.

Record smap := mkSmap { sm_obj : N; sm_name : string; sm_key : N; sm_value : N; sm_len : bv; sm_old : bv; sm_now : bv }.

(** Python's [sub in s] on strings. *)
Fixpoint substring_of (sub s : string) : bool :=
  String.prefix sub s || match s with EmptyString => false | String _ s' => substring_of sub s' end.
(** spec_prefix.py 108 and 166. *)
Definition excluded (name : string) : bool := negb (negb (substring_of "fracs_" name) && negb (substring_of "packet_" name)).

(** Python's [sorted] with a key: stable. *)
Section Sorted.
Variable key : smap -> N.
Fixpoint insert (x : smap) (l : list smap) : list smap :=
  match l with
  | [] => [x]
  | y :: l' => if key x <=? key y then x :: l else y :: insert x l'
  end.
Fixpoint sort_by (l : list smap) : list smap :=
  match l with [] => [] | x :: l' => insert x (sort_by l') end.
End Sorted.

(** 102-118; [value] is [None] for the literal "...". *)
Definition map_waste (key : N) (value : option N) (m : smap) : N :=
  (sm_key m - key) + match value with None => 0 | Some v => sm_value m - v end.
Definition map_candidates (key : N) (value : option N) (maps : list smap) : list smap :=
  let candidates := filter (fun m => negb (excluded (sm_name m))) maps in
  let candidates := filter (fun m => key <=? sm_key m) candidates in
  match value with
  | None => sort_by (map_waste key None) candidates
  | Some v => sort_by (map_waste key (Some v)) (filter (fun m => v <=? sm_value m) candidates)
  end.
(** 159-173; the size of a pointer is 64 bits (plugins/sizes.py on amd64). *)
Definition cell_candidates (s : solver) (cs : list bexp) (value : N) (maps : list smap) : list smap :=
  let candidates := filter (fun m => sm_key m =? 64) maps in
  let candidates := filter (fun m => negb (excluded (sm_name m))) candidates in
  let candidates := filter (fun m => negb (sat s (BNe (sm_len m) (BVV (width (sm_len m)) 1) :: cs))) candidates in
  sort_by (fun m => sm_value m - value) (filter (fun m => value <=? sm_value m) candidates).
(** 119-120 and 174-175: choose an object, then find this state's map of it ([next] raises StopIteration if there is none). *)
Definition bind (candidates maps : list smap) (k : smap -> spec) : spec :=
  SChoose (map sm_obj candidates) (fun obj => match find (fun m => sm_obj m =? obj) maps with Some m => k m | None => SFail true end).
(** A specification that declares a map, or a cell, and goes on with it. *)
Definition with_map (key : N) (value : option N) (maps : list smap) (k : smap -> spec) : spec := bind (map_candidates key value maps) maps k.
Definition with_cell (s : solver) (cs : list bexp) (value : N) (maps : list smap) (k : smap -> spec) : spec :=
  bind (cell_candidates s cs value maps) maps k.

(** The names of the maps that the tool makes: heap.py 33-34 and 54 (with the names of net/packet.py 26 and 32, os/memory.py 30 and
    os/pci.py 61), structs/index_pool.py 28, structs/lpm.py 29, structs/map.py 32-33. *)
Inductive block := BlockPacket | BlockPacketData | BlockAllocated | BlockPci | BlockUnnamed.
Inductive origin := Block (b : block) | Fractions (b : block) | PoolItems | LpmTable | MapValues | MapAddrs.
Definition block_name (b : block) : string :=
  match b with BlockPacket => "pkt" | BlockPacketData => "pkt_data" | BlockAllocated => "allocated" | BlockPci => "pci_devices" | BlockUnnamed => "memory" end.
Definition origin_name (o : origin) : string :=
  match o with
  | Block b => block_name b
  | Fractions b => block_name b ++ "_fracs"
  | PoolItems => "pool_items" | LpmTable => "lpm_table" | MapValues => "map" | MapAddrs => "map_addrs"
  end.
(** The ones that belong to the program, and not to the tool's own bookkeeping or to the packet. *)
Definition of_program (o : origin) : bool :=
  match o with Fractions _ | Block BlockPacket | Block BlockPacketData => false | _ => true end.

(** ** Facts *)
Section Facts.
Variable key : smap -> N.
Lemma insert_in : forall x l y, In y (insert key x l) <-> y = x \/ In y l.
Proof.
  induction l as [|z l IH]; intros y; cbn [insert]; [cbn; intuition|].
  destruct (key x <=? key z); cbn [In]; [intuition|]. rewrite IH. intuition.
Qed.
Lemma sort_in : forall l y, In y (sort_by key l) <-> In y l.
Proof. induction l as [|x l IH]; intros y; cbn [sort_by]; [reflexivity|]. rewrite insert_in, IH. cbn [In]. intuition. Qed.
Lemma insert_sorted : forall x l, StronglySorted (fun a b => key a <= key b) l -> StronglySorted (fun a b => key a <= key b) (insert key x l).
Proof.
  induction l as [|z l IH]; intros H; cbn [insert]; [repeat constructor|]. destruct (N.leb_spec (key x) (key z)) as [L|L].
  - constructor; [exact H|]. inversion_clear H as [|? ? H1 H2]. constructor; [exact L|]. eapply Forall_impl; [|exact H2]. cbv beta. lia.
  - inversion_clear H as [|? ? H1 H2]. constructor; [apply IH; exact H1|]. apply Forall_forall. intros y Y. apply insert_in in Y as [->|Y]; [lia|].
    rewrite Forall_forall in H2. apply H2. exact Y.
Qed.
Lemma sort_sorted : forall l, StronglySorted (fun a b => key a <= key b) (sort_by key l).
Proof. induction l as [|x l IH]; cbn [sort_by]; [constructor|apply insert_sorted; exact IH]. Qed.
Lemma insert_filter : forall x l w, filter (fun m => key m =? w) (insert key x l) = if key x =? w then x :: filter (fun m => key m =? w) l else filter (fun m => key m =? w) l.
Proof.
  induction l as [|z l IH]; intros w; cbn [insert filter]; [reflexivity|].
  destruct (N.leb_spec (key x) (key z)) as [L|L]; cbn [filter]; [reflexivity|]. rewrite IH.
  destruct (N.eqb_spec (key x) w), (N.eqb_spec (key z) w); try reflexivity. lia.
Qed.
Lemma sort_stable : forall l w, filter (fun m => key m =? w) (sort_by key l) = filter (fun m => key m =? w) l.
Proof. induction l as [|x l IH]; intros w; cbn [sort_by]; [reflexivity|]. rewrite insert_filter, IH. reflexivity. Qed.
End Facts.

(** Candidates depend on what the objects are, not on what is in them. *)
Definition same_shape (m m' : smap) : Prop := sm_obj m = sm_obj m' /\ sm_name m = sm_name m' /\ sm_key m = sm_key m' /\ sm_value m = sm_value m'.
Lemma map_candidates_in : forall key value maps m, In m (map_candidates key value maps) <->
  In m maps /\ excluded (sm_name m) = false /\ key <= sm_key m /\ match value with None => True | Some v => v <= sm_value m end.
Proof.
  intros key value maps m. unfold map_candidates. destruct value as [v|]; rewrite sort_in, ?filter_In, negb_true_iff, ?N.leb_le; tauto.
Qed.
Lemma cell_candidates_in : forall s, solver_ok s -> forall cs value maps m, (forall m, In m maps -> 1 < 2 ^ width (sm_len m)) ->
  In m (cell_candidates s cs value maps) <->
  In m maps /\ excluded (sm_name m) = false /\ sm_key m = 64 /\ value <= sm_value m /\ forall r, holds r cs -> ev r (sm_len m) = 1.
Proof.
  intros s [SOK _] cs value maps m W. unfold cell_candidates. rewrite sort_in, !filter_In, !negb_true_iff, N.leb_le, N.eqb_eq.
  assert (X : In m maps -> (sat s (BNe (sm_len m) (BVV (width (sm_len m)) 1) :: cs) = false <-> forall r, holds r cs -> ev r (sm_len m) = 1)).
  { intros I. assert (V : forall r, eb r (BNe (sm_len m) (BVV (width (sm_len m)) 1)) = negb (ev r (sm_len m) =? 1)).
    { intros r. unfold BNe, eb, ev. cbn [evalb evalv]. unfold wrap. rewrite (N.mod_small 1) by (apply W; exact I). reflexivity. }
    split.
    - intros H r Hr. destruct (N.eqb_spec (ev r (sm_len m)) 1) as [E|E]; [exact E|]. exfalso.
      assert (Y : sat s (BNe (sm_len m) (BVV (width (sm_len m)) 1) :: cs) = true); [|congruence]. apply SOK. exists r. intros c [<-|C]; [|exact (Hr c C)].
      rewrite V. apply negb_true_iff, N.eqb_neq. exact E.
    - intros H. apply not_true_iff_false. intros Y. apply SOK in Y as [r Y].
      assert (Z : eb r (BNe (sm_len m) (BVV (width (sm_len m)) 1)) = true) by (apply Y; left; reflexivity).
      rewrite V, (H r) in Z; [discriminate|]. intros c C. apply Y. right. exact C. }
  tauto.
Qed.
