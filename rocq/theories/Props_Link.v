(** * Property theorems: programs verified with the contracts, run with the implementations (C131) *)

From Coq Require Import NArith List Bool Lia Arith.
From Verif Require Import Solver Heap HeapOwn HashMap MapLink.
Import ListNotations.
Open Scope N_scope.

(** ** C131 *)

(** Any number of maps with keys in an array of elements of the size of a key, and any
    program whose calls and writes the contract accepts: the C map, with any hash function,
    answers each call as the contract does. *)
Theorem C131_map_contract_partial : forall hash pw ksz base st n xs st' tr m k, 0 < base -> kstart pw ksz st n ->
  nth_error (kmaps st) m = Some k -> klen k = 0 -> kcap k * 64 <= 2 ^ 64 - 1 ->
  contract_run pw ksz base ksz st xs = Ok (st', tr) ->
  map_run hash (map_alloc (N.to_nat ksz) (kcap k)) (map (fun c => (c_mem c, c_op c)) (calls_of m tr)) = map c_out (calls_of m tr).
Proof.
  intros hash pw ksz base st n xs st' tr m k Hb KS Hn Hl Hc R. apply map_history; [lia|].
  apply (run_same pw ksz base xs st st' tr n m k []); [exact Hb|apply kstart_inv; exact KS|exact R|exact Hn|].
  destruct KS as (f & _ & _ & _ & _ & _ & _ & _ & KM). rewrite Forall_forall in KM. apply nth_error_In in Hn.
  constructor; try (intros key _; destruct (KM k Hn key) as [V A]; rewrite ?V, ?A; reflexivity).
  - rewrite Hl. reflexivity.
  - constructor.
  - constructor.
Qed.
Print Assumptions C131_map_contract_partial.
(** Four keys of two bytes; two maps share one key, an unused key is overwritten. *)
Definition four_keys : hobj :=
  mkH 16 (fun i => if i <? 4 then ((i + 1) * 4369, true) else (0, false)) (Some (fun i => (if i <? 4 then 100 else 0, i <? 4))).
Definition two_maps : kst := mkKst four_keys [mkK (fun _ => None) (fun _ => None) 0 2; mkK (fun _ => None) (fun _ => None) 0 1].
Definition a_program : list pcall := [PGet 0 1; PSet 0 1 7; PSet 1 1 8; PWrite 2 0 4369 16 false; PGet 0 2; PSet 0 2 9; PRemove 1 1; PGet 1 1; PGet 0 0; PGet 0 1].
Lemma ran : forall pw ksz base esz st xs (P : list made -> Prop),
  match contract_run pw ksz base esz st xs with Ok (_, tr) => P tr | _ => False end ->
  exists st' tr, contract_run pw ksz base esz st xs = Ok (st', tr) /\ P tr.
Proof. intros pw ksz base esz st xs P H. destruct (contract_run pw ksz base esz st xs) as [[st' tr]| |] eqn:E; try contradiction H. exists st', tr. split; [reflexivity|exact H]. Qed.
Example C131_ex : kstart 64 2 two_maps 4 /\ exists st' tr, contract_run 64 2 4096 2 two_maps a_program = Ok (st', tr) /\
  map c_out (calls_of 0 tr) = [MVal None; MDone true; MVal None; MDone true; MVal (Some 9); MVal (Some 7)] /\
  map c_out (calls_of 1 tr) = [MDone true; MDone true; MVal None] /\
  map_run (fun _ => 5) (map_alloc 2 2) (map (fun c => (c_mem c, c_op c)) (calls_of 0 tr)) = [MVal None; MDone true; MVal None; MDone true; MVal (Some 9); MVal (Some 7)].
Proof.
  split.
  - eexists. split; [reflexivity|]. split; [intros i; reflexivity|]. split; [|split; [reflexivity|split; [discriminate|split; [|split; [discriminate|repeat constructor]]]]].
    + intros i. change (2 ^ hes (kheap two_maps)) with 65536. cbn [two_maps kheap four_keys hel]. destruct (N.ltb_spec i 4); cbn [fst]; lia.
    + intros i. cbn [two_maps kheap four_keys hel]. destruct (i <? 4); reflexivity.
  - apply ran. vm_compute. repeat split; reflexivity.
Qed.
(** A key of two elements: the contract accepts a write to its second element while the key
    is in the map, and then still has the key; the C map does not find it, whatever the hash
    function. *)
Definition one_map : kst :=
  mkKst (mkH 16 (fun i => if i <? 4 then (5, true) else (0, false)) (Some (fun i => (if i <? 4 then 100 else 0, i <? 4)))) [mkK (fun _ => None) (fun _ => None) 0 1].
Lemma one_item : forall x h i, pidx [x] h i = 0%nat.
Proof. intros x h i. unfold pidx, probe. change (N.of_nat (length [x]) - 1) with 0. rewrite !N.land_0_r. reflexivity. Qed.
Lemma one_miss : forall hash ksize mem1 p v mem2 q, p <> 0 -> os_memory_eq (mem2 p) (mem2 q) ksize = false ->
  map_run hash (map_alloc ksize 1) [(mem1, MSet p v); (mem2, MGet q)] = [MDone true; MVal None].
Proof.
  intros hash ksize mem1 p v mem2 q Hp E. unfold map_alloc. change (repeat item0 (N.to_nat (get_real_capacity 1))) with [item0].
  cbn [map_run map_step fst snd]. unfold map_set. cbn [items key_size length set_loop]. rewrite one_item. cbn [IndexPool.set_nth item_at nth item0 key_addr N.eqb chain].
  unfold map_get. cbn [items key_size length get_loop firstn app skipn]. rewrite one_item. cbn [item_at nth key_addr key_hash]. rewrite E.
  destruct (negb (p =? 0) && (hash (mem1 p) =? hash (mem2 q))); reflexivity.
Qed.
Definition set_then_missed (tr : list made) : bool :=
  match tr with
  | [mkMade _ _ (MSet p _) (MDone true); mkMade _ mem (MGet q) (MVal (Some v))] => if (p =? 0) || negb (v =? 7) then false else negb (os_memory_eq (mem p) (mem q) 4)
  | _ => false
  end.
Lemma set_then_missed_run : forall tr, set_then_missed tr = true -> map c_out tr = [MDone true; MVal (Some 7)] /\
  forall hash, map_run hash (map_alloc 4 1) (map (fun c => (c_mem c, c_op c)) tr) = [MDone true; MVal None].
Proof.
  intros tr H. destruct tr as [|[? ? [?|p v|?] [?|[|]]] [|[? mem [q|? ?|?] [[x|]|?]] [|]]]; try discriminate H. cbn [set_then_missed] in H.
  destruct (N.eqb_spec p 0); [discriminate H|]. destruct (N.eqb_spec x 7) as [Ex|]; [|discriminate H]; rewrite Ex in *. cbn [orb negb] in H. split; [reflexivity|].
  intros hash. cbn [map MapLink.c_mem MapLink.c_op]. apply one_miss; [assumption|]. apply negb_true_iff. exact H.
Qed.
Theorem C131_long_keys_refuted : exists xs st' tr, contract_run 64 4 4096 2 one_map xs = Ok (st', tr) /\
  map c_out (calls_of 0 tr) = [MDone true; MVal (Some 7)] /\
  forall hash, map_run hash (map_alloc 4 1) (map (fun c => (c_mem c, c_op c)) (calls_of 0 tr)) = [MDone true; MVal None].
Proof.
  exists [PSet 0 0 7; PWrite 1 0 6 16 false; PGet 0 2].
  assert (G : exists st' tr, contract_run 64 4 4096 2 one_map [PSet 0 0 7; PWrite 1 0 6 16 false; PGet 0 2] = Ok (st', tr) /\ set_then_missed (calls_of 0 tr) = true) by (apply ran; vm_compute; reflexivity).
  destruct G as (st' & tr & R & T). exists st', tr. split; [exact R|]. apply set_then_missed_run. exact T.
Qed.
Print Assumptions C131_long_keys_refuted.
