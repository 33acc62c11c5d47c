(** * Properties of the verified program's loads and stores (C146) *)

From Coq Require Import NArith ZArith List Bool Lia.
From Verif Require Import Expr Solver Wt Simplify MultAdd BaseIndex ObjMem Props_Utils.
Import ListNotations.
Open Scope N_scope.

(** ** C146 *)

(** An access goes to angr's memory only if its address has one value, and goes there. *)
Theorem C146_ordinary_partial : forall k s, solver_ok s -> forall fuel cs m addr a,
  place_of k s fuel cs m addr = Ok (Ordinary a) -> forall r, holds r cs -> ev r addr = a.
Proof. exact place_ordinary. Qed.
Print Assumptions C146_ordinary_partial.

(** An access that goes to an object goes to the element and byte of its address, under the
    conditions of C10 and within bounds (C34). *)
Theorem C146_object_partial : forall k s fuel cs m addr0 addr base size idx off r d count,
  claripy_ok k -> solver_ok s -> istrue_consts k -> wtv addr0 = true ->
  place_of k s fuel cs m addr0 = Ok (Special base idx off) -> holds r cs ->
  simplify k s fuel cs addr0 BTrue = Ok addr -> is_add addr = true ->
  meta_find m (add_args addr) = Ok (Some (base, size)) ->
  wtv size = true -> width size = width addr -> symbolic size = false -> (0 < zev r size)%Z ->
  as_mult_add_outer s cs (mksub k (the_rest k addr base) (BVV (width addr) (off / 8))) = Ok d ->
  all_mults r (width addr) (zev r size) d -> (0 <= zev r idx < count base)%Z ->
  right_place r count (width addr0) m (zev r addr0) (Special base idx off).
Proof.
  intros k s fuel cs m addr0 addr base size idx off r d count KOK SOK IC T0 H Hr SI IA MF Tz Wz Sz P A AM IB.
  apply place_special in H.
  destruct (C10_resolution_partial k s fuel cs m addr0 addr base size idx off r d KOK SOK IC T0 H Hr SI IA MF Tz Wz Sz P A AM) as (Hin & O8 & OL & E).
  exists size. repeat split; auto; tauto.
Qed.
Print Assumptions C146_object_partial.

(** Two accesses to the same address reach the same element and byte: what one stores, the other
    loads. Objects do not overlap, and angr's own memory is where no object is. Missing: pointers
    resolved wrongly (C10), and objects at fixed addresses, see the refutations. *)
Theorem C146_same_address_partial : forall k s fuel cs m addr1 addr2 p1 p2 r count w, solver_ok s ->
  place_of k s fuel cs m addr1 = Ok p1 -> place_of k s fuel cs m addr2 = Ok p2 -> holds r cs -> ev r addr1 = ev r addr2 ->
  apart r count w m ->
  (forall addr b i o, In (addr, Special b i o) [(addr1, p1); (addr2, p2)] -> right_place r count w m (zev r addr) (Special b i o)) ->
  (forall a kv, In (Ordinary a) [p1; p2] -> In kv m -> ~ extent r count kv (Z.of_N a)) ->
  same_place r p1 p2.
Proof.
  intros k s fuel cs m addr1 addr2 p1 p2 r count w SOK H1 H2 Hr E A HS HO.
  assert (R1 : right_place r count w m (zev r addr1) p1).
  { destruct p1 as [b i o|a]; [apply HS; left; reflexivity|].
    assert (V : zev r addr1 = Z.of_N a) by (unfold zev; rewrite (place_ordinary k s SOK _ _ _ _ _ H1 r Hr); reflexivity).
    split; [exact V|]. rewrite V. intros kv Hk. apply HO; [left; reflexivity|exact Hk]. }
  assert (R2 : right_place r count w m (zev r addr1) p2).
  { assert (EZ : zev r addr1 = zev r addr2) by (unfold zev; rewrite E; reflexivity). rewrite EZ.
    destruct p2 as [b i o|a]; [apply HS; right; left; reflexivity|].
    assert (V : zev r addr2 = Z.of_N a) by (unfold zev; rewrite (place_ordinary k s SOK _ _ _ _ _ H2 r Hr); reflexivity).
    split; [exact V|]. rewrite V. intros kv Hk. apply HO; [right; left; reflexivity|exact Hk]. }
  exact (right_same r count w m (zev r addr1) p1 p2 A R1 R2).
Qed.
Print Assumptions C146_same_address_partial.

(** Two objects: [p] with 10 elements of 6 bytes at 16, [q] with 3 of 2 bytes at 200; the same
    byte reached with two indices. *)
Definition ex_p := BVS 8 1. Definition ex_q := BVS 8 9. Definition ex_i := BVS 8 2. Definition ex_j := BVS 8 3.
Definition ex_meta : meta := [(ex_q, BVV 8 2); (ex_p, BVV 8 6)].
Definition ex_r : env := updv (updv (updv (updv env0 1 16) 9 200) 2 3) 3 2.
Definition ex_count (b : bv) : Z := if bv_eqb b ex_p then 10%Z else 3%Z.
Definition ex_addr1 : bv := BvAdd (BvAdd ex_p (BvMul ex_i (BVV 8 6))) (BVV 8 4).
Ltac values := unfold extent in *; cbn [fst snd] in *;
  repeat match goal with
         | H : context [zev ?r ?e] |- _ => let v := eval vm_compute in (zev r e) in change (zev r e) with v in H
         | H : context [ex_count ?b] |- _ => let v := eval vm_compute in (ex_count b) in change (ex_count b) with v in H
         end; lia.
Lemma ex_apart : apart ex_r ex_count 8 ex_meta.
Proof.
  split.
  - intros kv [<-|[<-|[]]]; vm_compute; discriminate.
  - intros kv kv' x [<-|[<-|[]]] [<-|[<-|[]]] H H'; try reflexivity; exfalso; values.
Qed.
Lemma ex_right1 : right_place ex_r ex_count 8 ex_meta (zev ex_r ex_addr1) (Special ex_p ex_i 32).
Proof. exists (BVV 8 6). split; [right; left; reflexivity|]. vm_compute. repeat split; auto; discriminate. Qed.
Example C146_example :
  place_of cl_arith bf 9 [] ex_meta ex_addr1 = Ok (Special ex_p ex_i 32) /\
  place_of cl_arith bf 9 [] ex_meta (BVV 8 9) = Ok (Ordinary 9) /\
  apart ex_r ex_count 8 ex_meta /\ right_place ex_r ex_count 8 ex_meta (zev ex_r ex_addr1) (Special ex_p ex_i 32) /\
  forall kv, In kv ex_meta -> ~ extent ex_r ex_count kv 9.
Proof.
  split; [vm_compute; reflexivity|]. split; [vm_compute; reflexivity|]. split; [exact ex_apart|]. split; [exact ex_right1|].
  intros kv [<-|[<-|[]]] H; values.
Qed.

(** p + (j * 2) * 6 and p + i * 6 are the same address when i is 2 j, but the accesses reach the
    elements j and i. *)
Theorem C146_scaled_index_refuted : exists k s m addr1 addr2 p1 p2 r count,
  claripy_ok k /\ solver_ok s /\ istrue_consts k /\ wtv addr1 = true /\ wtv addr2 = true /\ apart r count 8 m /\
  ev r addr1 = ev r addr2 /\ (exists kv, In kv m /\ extent r count kv (zev r addr1)) /\
  place_of k s 9 [] m addr1 = Ok p1 /\ place_of k s 9 [] m addr2 = Ok p2 /\ ~ same_place r p1 p2.
Proof.
  exists cl_arith, bf, ex_meta, (BvAdd ex_p (BvMul (BvMul ex_j (BVV 8 2)) (BVV 8 6))), (BvAdd ex_p (BvMul ex_i (BVV 8 6))),
    (Special ex_p ex_j 0), (Special ex_p ex_i 0), (updv ex_r 2 4), ex_count.
  split; [exact cl_arith_ok|]. split; [exact bf_ok|]. split; [exact cl_arith_consts|]. split; [reflexivity|]. split; [reflexivity|].
  split.
  { split.
    - intros kv [<-|[<-|[]]]; vm_compute; discriminate.
    - intros kv kv' x [<-|[<-|[]]] [<-|[<-|[]]] H H'; try reflexivity; exfalso; values. }
  split; [reflexivity|]. split; [exists (ex_p, BVV 8 6); split; [right; left; reflexivity|]; vm_compute; split; congruence|].
  split; [vm_compute; reflexivity|]. split; [vm_compute; reflexivity|]. intros (_ & H & _). vm_compute in H. discriminate.
Qed.
Print Assumptions C146_scaled_index_refuted.

(** An object at the fixed address 100: byte 4 of its first element is reached by 104 + i * 6,
    but the constant address 104 goes to angr's own memory. *)
Theorem C146_fixed_address_refuted : exists k s m addr1 addr2 p1 p2 r count,
  claripy_ok k /\ solver_ok s /\ istrue_consts k /\ wtv addr1 = true /\ wtv addr2 = true /\ apart r count 8 m /\
  ev r addr1 = ev r addr2 /\ right_place r count 8 m (zev r addr1) p1 /\ (exists kv, In kv m /\ extent r count kv (zev r addr2)) /\
  place_of k s 9 [] m addr1 = Ok p1 /\ place_of k s 9 [] m addr2 = Ok p2 /\ ~ same_place r p1 p2.
Proof.
  exists cl_near, bf, [(BVV 8 100, BVV 8 6)], (BvAdd (BvMul ex_i (BVV 8 6)) (BVV 8 104)), (BVV 8 104),
    (Special (BVV 8 100) ex_i 32), (Ordinary 104), env0, (fun _ => 10%Z).
  split; [exact cl_near_ok|]. split; [exact bf_ok|]. split; [exact cl_near_consts|]. split; [reflexivity|]. split; [reflexivity|].
  split; [split; [intros kv [<-|[]]; vm_compute; discriminate|intros kv kv' x [<-|[]] [<-|[]] _ _; reflexivity]|].
  split; [reflexivity|].
  split; [exists (BVV 8 6); split; [left; reflexivity|]; vm_compute; repeat split; auto; discriminate|].
  split; [exists (BVV 8 100, BVV 8 6); split; [left; reflexivity|]; vm_compute; split; congruence|].
  split; [vm_compute; reflexivity|]. split; [vm_compute; reflexivity|]. intros H. exact H.
Qed.
Print Assumptions C146_fixed_address_refuted.

(** Bytes are reversed exactly if the access asks for the other byte order than the machine's. *)
Theorem C146_byte_order : forall big arch_big, should_reverse big arch_big = true <-> big = Some (negb arch_big).
Proof. intros [[|]|] [|]; cbn; split; congruence. Qed.
Print Assumptions C146_byte_order.
