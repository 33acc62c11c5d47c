(** Property theorems C06-C11 (expression utilities) and C13 (exploration). *)

From Coq Require Import NArith ZArith List Bool Lia.
From Verif Require Import Expr Solver Structural Wt Simplify MultAdd BaseIndex KMerge Explore.
Import ListNotations.
Open Scope N_scope.

(** C06: structural comparison is "built identically". *)
Theorem C06_structural_eq : forall a b, wfv a -> wfv b -> (structural_eq a b = true <-> same a b).
Proof. exact structural_eq_spec. Qed.
Print Assumptions C06_structural_eq.

Theorem C06_structural_diff : forall left right only_left both only_right,
  structural_diff left right = (only_left, both, only_right) ->
  (forall x, In x only_left <-> In x left /\ ~ In x right) /\
  (forall x, In x both <-> In x left /\ In x right) /\
  (forall x, In x only_right <-> In x right /\ ~ In x left) /\
  (length left = length only_left + length both)%nat /\
  NoDup only_right.
Proof. exact structural_diff_spec. Qed.
Print Assumptions C06_structural_diff.

Example C06_example :
  structural_eq (PDict [(1, PSeq [PAtom 3; PBv (BVS 8 2)]); (2, PNone)])
                (PDict [(2, PNone); (1, PSeq [PAtom 3; PBv (BVS 8 2)])]) = true /\
  structural_eq (PDict [(1, PNone)]) (PDict [(1, PNone); (2, PNone)]) = false /\
  structural_diff [BoolS 1; BoolS 2] [BoolS 2; BoolS 3] = ([BoolS 1], [BoolS 2], [BoolS 3]).
Proof. vm_compute. auto. Qed.

(** C07: the terms, each times its multiplier, add up to the expression modulo
    2^width. [sized]: all the terms and expression multipliers have the size of the
    expression, i.e. claripy can build the products. *)
Theorem C07_decomposition_exact : forall e d r, wtv e = true -> as_mult_add e = Ok d ->
  sized (width e) d = true -> zev r e = (wsum r d mod p2 (width e))%Z.
Proof. intros e d r T H S. rewrite <- (zev_small r e). symmetry. exact (as_mult_add_spec e d r T H S). Qed.
Print Assumptions C07_decomposition_exact.

Theorem C07_grouped_decomposition_exact : forall s cs e d r, solver_ok s -> wtv e = true ->
  as_mult_add_outer s cs e = Ok d -> sized (width e) d = true -> holds r cs ->
  zev r e = (wsum r d mod p2 (width e))%Z.
Proof.
  intros s cs e d r SOK T H S Hr. rewrite <- (zev_small r e). symmetry.
  exact (as_mult_add_outer_spec s SOK cs e d r T H S Hr).
Qed.
Print Assumptions C07_grouped_decomposition_exact.

(** Sums, differences, products, shifts, concatenations and conditionals at once; the
    truncation is grouped with its variable thanks to the path constraint. *)
Example C07_example :
  let x := BVS 4 1 in let y := BVS 4 2 in let z := BVS 2 3 in
  let e := BvAdd (BvSub (BvMul x (BVV 4 6)) (BvZext 1 (BvExtract 2 0 y)))
                 (BvAdd (BvConcat z (BVV 2 0)) (BvIte (BoolS 7) (BvMul y (BVV 4 3)) (BvMul x (BVV 4 3)))) in
  let cs := [BUlt y (BVV 4 8)] in
  wtv e = true /\
  as_mult_add_outer bf cs e =
    Ok [(x, MI 6); (y, MI (-1)); (BvZext 2 z, MI 4); (BvIte (BoolS 7) y x, MI 3)]%Z /\
  sized 4 [(x, MI 6); (y, MI (-1)); (BvZext 2 z, MI 4); (BvIte (BoolS 7) y x, MI 3)]%Z = true.
Proof. vm_compute. auto. Qed.
(** A shift by an expression. *)
Example C07_example_shift :
  let e := BvShl (BVS 8 1) (BVS 8 2) in
  as_mult_add e = Ok [(BVS 8 1, MB (BvShl (BVV 8 1) (BVS 8 2)))] /\
  sized 8 [(BVS 8 1, MB (BvShl (BVV 8 1) (BVS 8 2)))] = true.
Proof. vm_compute. auto. Qed.

(** C08: dropping multiples of the divisor is right when the divisor divides
    2^width, or when the weighted sum of the terms does not wrap around. *)
Theorem C08_modulo_partial : forall k s cs a b v d r, claripy_ok k -> solver_ok s ->
  wtv a = true -> wtv b = true -> width b = width a ->
  modulo_simplify k s cs a b = Ok v -> holds r cs -> (0 < zev r b)%Z ->
  as_mult_add_outer s cs a = Ok d -> sized (width a) d = true ->
  (p2 (width a) mod zev r b = 0)%Z \/
  (Forall (fun em => (0 <= mval r (snd em) < p2 (width a))%Z) d /\ (wsum r d < p2 (width a))%Z) ->
  zev r v = (zev r a mod zev r b)%Z.
Proof.
  intros k s cs a b v d r KOK SOK Ta Tb W H Hr P A S M.
  exact (modulo_simplify_spec k s KOK SOK cs a b v d r Ta Tb W A S H Hr P M).
Qed.
Print Assumptions C08_modulo_partial.

(** For power-of-two divisors nothing else is needed. *)
Theorem C08_modulo_pow2_partial : forall k s cs a n v d r, claripy_ok k -> solver_ok s ->
  wtv a = true -> n < width a ->
  modulo_simplify k s cs a (BVV (width a) (2 ^ n)) = Ok v -> holds r cs ->
  as_mult_add_outer s cs a = Ok d -> sized (width a) d = true ->
  ev r v = ev r a mod 2 ^ n.
Proof.
  intros k s cs a n v d r KOK SOK Ta Ln H Hr A S.
  assert (L : 2 ^ n < 2 ^ width a) by (apply N.pow_lt_mono_r; lia).
  assert (Zb : zev r (BVV (width a) (2 ^ n)) = p2 n).
  { rewrite zev_bvv. unfold p2. apply Z.mod_small. lia. }
  apply N2Z.inj. rewrite N2Z.inj_mod. fold (zev r v) (zev r a) (p2 n). rewrite <- Zb.
  apply (modulo_simplify_spec k s KOK SOK cs a (BVV (width a) (2 ^ n)) v d r); auto.
  - cbn. apply N.ltb_lt. pose proof (wtv_pos a Ta). lia.
  - rewrite Zb. apply p2_pos.
  - left. rewrite Zb. unfold p2. replace (width a) with (width a - n + n) by lia.
    rewrite N.pow_add_r, N2Z.inj_mul. apply Z_mod_mult.
Qed.
Print Assumptions C08_modulo_pow2_partial.

Example C08_example :
  let a := BvAdd (BvMul (BVS 4 1) (BVV 4 12)) (BVS 4 2) in
  modulo_simplify cl_id bf [] a (BVV 4 4) = Ok (BvUrem (BvAdd (BVV 4 0) (BvMul (BVS 4 2) (BVV 4 1))) (BVV 4 4)) /\
  as_mult_add_outer bf [] a = Ok [(BVS 4 1, MI 12); (BVS 4 2, MI 1)]%Z.
Proof. vm_compute. auto. Qed.

(** Not so in general: (x * 6) mod 3 is simplified to 0, but the product wraps. *)
Theorem C08_modulo_refuted : exists k s a b v r,
  claripy_ok k /\ solver_ok s /\ wtv a = true /\ wtv b = true /\ width b = width a /\
  modulo_simplify k s [] a b = Ok v /\ ev r b <> 0 /\ ev r v <> ev r a mod ev r b.
Proof.
  exists cl_id, bf, (BvMul (BVS 3 1) (BVV 3 6)), (BVV 3 3), (BvUrem (BVV 3 0) (BVV 3 3)), (updv env0 1 2).
  split; [exact cl_id_ok|]. split; [exact bf_ok|]. vm_compute. repeat split; auto; discriminate.
Qed.
Print Assumptions C08_modulo_refuted.

(** C09: right when every term's multiplier is the divisor and the sum of the terms
    times the divisor does not wrap. *)
Theorem C09_division_partial : forall k s cs a b v d r, claripy_ok k -> solver_ok s -> istrue_consts k ->
  wtv a = true -> wtv b = true -> width b = width a -> symbolic b = false ->
  div_simplify k s cs a b = Ok v -> holds r cs -> (0 < zev r b)%Z ->
  as_mult_add_outer s cs a = Ok d ->
  all_mults r (width a) (zev r b) d -> (ksum r d * zev r b < p2 (width a))%Z ->
  width v = width a /\ zev r v = (zev r a / zev r b)%Z.
Proof.
  intros k s cs a b v d r KOK SOK IC Ta Tb W Sb H Hr P A AM NW.
  destruct (div_simplify_spec k s KOK SOK cs a b v d r IC Ta Tb W Sb A Hr P AM H) as [W' [_ E]]. auto.
Qed.
Print Assumptions C09_division_partial.

Example C09_example :
  let a := BvAdd (BvMul (BVS 8 1) (BVV 8 6)) (BvMul (BVS 8 2) (BVV 8 6)) in
  let r := updv (updv env0 1 5) 2 7 in
  div_simplify cl_arith bf [] a (BVV 8 6) = Ok (BvAdd (BVS 8 1) (BVS 8 2)) /\
  as_mult_add_outer bf [] a = Ok [(BVS 8 1, MI 6); (BVS 8 2, MI 6)]%Z /\
  (ksum r [(BVS 8 1, MI 6); (BVS 8 2, MI 6)] * zev r (BVV 8 6) < p2 8)%Z /\ ev r a / 6 = 12.
Proof. vm_compute. auto. Qed.

(** (x * 6) / 3 is simplified to x. *)
Theorem C09_division_refuted : exists k s a b v r,
  claripy_ok k /\ solver_ok s /\ wtv a = true /\ wtv b = true /\ width b = width a /\
  div_simplify k s [] a b = Ok v /\ ev r b <> 0 /\ ev r v <> ev r a / ev r b.
Proof.
  exists cl_arith, bf, (BvMul (BVS 8 1) (BVV 8 6)), (BVV 8 3), (BVS 8 1), (updv env0 1 2).
  split; [exact cl_arith_ok|]. split; [exact bf_ok|]. vm_compute. repeat split; auto; discriminate.
Qed.
Print Assumptions C09_division_refuted.

(** C10: an address whose base is found among its terms, and whose remaining terms
    are all multiples of exactly the element size once the offset is subtracted, is
    base + index * size + offset, and the offset is inside the element. Missing: other
    multiples of the size (see the refutation). *)
Theorem C10_resolution_partial : forall k s fuel cs m addr0 addr base size idx off r d,
  claripy_ok k -> solver_ok s -> istrue_consts k -> wtv addr0 = true ->
  base_index_offset k s fuel cs m addr0 = Ok (base, idx, off) -> holds r cs ->
  simplify k s fuel cs addr0 BTrue = Ok addr -> is_add addr = true ->
  meta_find m (add_args addr) = Ok (Some (base, size)) ->
  wtv size = true -> width size = width addr -> symbolic size = false -> (0 < zev r size)%Z ->
  as_mult_add_outer s cs (mksub k (the_rest k addr base) (BVV (width addr) (off / 8))) = Ok d ->
  all_mults r (width addr) (zev r size) d ->
  In (base, size) m /\ off = 8 * (off / 8) /\ (Z.of_N (off / 8) < zev r size)%Z /\
  zev r addr0 = ((zev r base + zev r idx * zev r size + Z.of_N (off / 8)) mod p2 (width addr0))%Z.
Proof.
  intros k s fuel cs m addr0 addr base size idx off r d KOK SOK IC T0 H Hr SI IA MF Tz Wz Sz P A AM.
  exact (base_index_offset_spec k s KOK SOK fuel cs m addr0 addr base size idx off r d IC T0 SI H IA MF Tz Wz Sz P Hr A AM).
Qed.
Print Assumptions C10_resolution_partial.

Example C10_example :
  let p := BVS 8 1 in let i := BVS 8 2 in
  let addr := BvAdd (BvAdd p (BvMul i (BVV 8 6))) (BVV 8 4) in
  let m := [(BVS 8 9, BVV 8 2); (p, BVV 8 6)] in
  base_index_offset cl_arith bf 9 [] m addr = Ok (p, i, 32) /\
  simplify cl_arith bf 9 [] addr BTrue = Ok addr /\
  meta_find m (add_args addr) = Ok (Some (p, BVV 8 6)) /\
  as_mult_add_outer bf [] (mksub cl_arith (the_rest cl_arith addr p) (BVV 8 4)) = Ok [(i, MI 6)]%Z.
Proof. vm_compute. auto. Qed.

(** C10, arrays at fixed addresses: when no term of the address is a known pointer, the
    base is a known constant such that some constant term lies in its first element; the
    address is again base + index * size + offset. *)
Theorem C10_fixed_address_partial : forall k s fuel cs m addr0 addr base size idx off r d,
  claripy_ok k -> solver_ok s -> istrue_consts k -> wtv addr0 = true ->
  base_index_offset k s fuel cs m addr0 = Ok (base, idx, off) -> holds r cs ->
  simplify k s fuel cs addr0 BTrue = Ok addr -> is_add addr = true -> meta_find m (add_args addr) = Ok None ->
  find (try_key s cs addr) m = Some (base, size) -> is_add (mksub k addr base) = true ->
  wtv base = true -> width base = width addr ->
  wtv size = true -> width size = width addr -> symbolic size = false -> (0 < zev r size)%Z ->
  as_mult_add_outer s cs (mksub k (the_rest k (mksub k addr base) base) (BVV (width addr) (off / 8))) = Ok d ->
  all_mults r (width addr) (zev r size) d ->
  In (base, size) m /\ symbolic base = false /\
  (exists a, In a (add_args addr) /\ symbolic a = false /\ ((zev r a - zev r base) mod p2 (width addr) < zev r size)%Z) /\
  off = 8 * (off / 8) /\ (Z.of_N (off / 8) < zev r size)%Z /\
  zev r addr0 = ((zev r base + zev r idx * zev r size + Z.of_N (off / 8)) mod p2 (width addr0))%Z.
Proof.
  intros k s fuel cs m addr0 addr base size idx off r d KOK SOK IC T0 H Hr SI IA MF FK IS Tb Wb Tz Wz Sz P A AM.
  destruct (base_index_offset_fixed k s KOK SOK fuel cs m addr0 addr base size idx off r d IC T0 SI H IA MF FK IS Tb Wb Tz Wz Sz P Hr A AM)
    as [Hin [O8 [OL E]]].
  destruct (try_key_spec k s KOK SOK fuel cs m addr0 addr base size r T0 SI FK Wb Wz Hr) as [SB [a [Ha [Sa La]]]].
  split; [auto|]. split; [auto|]. split; [exists a; auto|]. auto.
Qed.
Print Assumptions C10_fixed_address_partial.

Example C10_fixed_example :
  let i := BVS 8 2 in let addr := BvAdd (BvMul i (BVV 8 6)) (BVV 8 104) in
  let m := [(BVV 8 20, BVV 8 6); (BVV 8 100, BVV 8 6)] in
  claripy_ok cl_near /\ istrue_consts cl_near /\
  base_index_offset cl_near bf 9 [] m addr = Ok (BVV 8 100, i, 32) /\ simplify cl_near bf 9 [] addr BTrue = Ok addr /\
  meta_find m (add_args addr) = Ok None /\ find (try_key bf [] addr) m = Some (BVV 8 100, BVV 8 6) /\
  is_add (mksub cl_near addr (BVV 8 100)) = true /\
  as_mult_add_outer bf [] (mksub cl_near (the_rest cl_near (mksub cl_near addr (BVV 8 100)) (BVV 8 100)) (BVV 8 4)) = Ok [(i, MI 6)]%Z /\
  all_mults (updv env0 2 3) 8 6 [(i, MI 6)]%Z.
Proof.
  split; [exact cl_near_ok|]. split; [exact cl_near_consts|]. split; [vm_compute; reflexivity|]. split; [vm_compute; reflexivity|].
  split; [vm_compute; reflexivity|]. split; [vm_compute; reflexivity|]. split; [vm_compute; reflexivity|]. split; [vm_compute; reflexivity|].
  constructor; [|constructor]. split; [reflexivity|eexists; reflexivity].
Qed.

(** Only the first element is looked at: in an array of 6-byte elements at the fixed
    address 100, the address 106 + i * 6 (the element i + 1) is refused. *)
Theorem C10_fixed_address_refused : exists k s m i addr base size,
  claripy_ok k /\ solver_ok s /\ istrue_consts k /\ wtv addr = true /\ In (base, size) m /\
  (forall r, zev r addr = ((zev r base + (zev r i + 1) * zev r size) mod p2 (width addr))%Z) /\
  base_index_offset k s 9 [] m addr = Err.
Proof.
  exists cl_near, bf, [(BVV 8 100, BVV 8 6)], (BVS 8 2), (BvAdd (BvMul (BVS 8 2) (BVV 8 6)) (BVV 8 106)), (BVV 8 100), (BVV 8 6).
  split; [exact cl_near_ok|]. split; [exact bf_ok|]. split; [exact cl_near_consts|]. split; [reflexivity|]. split; [left; reflexivity|].
  split; [|vm_compute; reflexivity]. intros r. rewrite zev_add, zev_mul by reflexivity. cbn [width].
  rewrite Zplus_mod_idemp_l. f_equal. change (zev r (BVV 8 6)) with 6%Z. change (zev r (BVV 8 106)) with 106%Z.
  change (zev r (BVV 8 100)) with 100%Z. ring.
Qed.
Print Assumptions C10_fixed_address_refused.

(** base + (j * 2) * size resolves to index j. *)
Theorem C10_resolution_refuted : exists k s m addr base size idx r,
  claripy_ok k /\ solver_ok s /\ istrue_consts k /\ wtv addr = true /\ In (base, size) m /\
  base_index_offset k s 9 [] m addr = Ok (base, idx, 0) /\
  ev r addr <> wrap (width addr) (ev r base + ev r idx * ev r size).
Proof.
  exists cl_arith, bf, [(BVS 8 1, BVV 8 6)],
    (BvAdd (BVS 8 1) (BvMul (BvMul (BVS 8 2) (BVV 8 2)) (BVV 8 6))), (BVS 8 1), (BVV 8 6), (BVS 8 2), (updv env0 2 1).
  split; [exact cl_arith_ok|]. split; [exact bf_ok|]. split; [exact cl_arith_consts|].
  vm_compute. repeat split; auto; discriminate.
Qed.
Print Assumptions C10_resolution_refuted.

(** With a claripy that does not cancel [(x + c) - c], even base + i * size + 4 is
    resolved wrongly: the cancelled constant is a term of multiplier 0, which division turns
    into the constant itself. *)
Theorem C10_needs_cancelling_refuted : exists k s m addr base size idx off r,
  claripy_ok k /\ solver_ok s /\ istrue_consts k /\ wtv addr = true /\ In (base, size) m /\
  addr = BvAdd (BvAdd base (BvMul (BVS 8 2) size)) (BVV 8 4) /\
  base_index_offset k s 9 [] m addr = Ok (base, idx, off) /\ off = 32 /\
  ev r addr <> wrap (width addr) (ev r base + ev r idx * ev r size + off / 8).
Proof.
  eexists cl_id, bf, [(BVS 8 1, BVV 8 6)],
    (BvAdd (BvAdd (BVS 8 1) (BvMul (BVS 8 2) (BVV 8 6))) (BVV 8 4)), (BVS 8 1), (BVV 8 6), _, _, (updv env0 2 1).
  split; [exact cl_id_ok|]. split; [exact bf_ok|]. split; [exact cl_id_consts|].
  split; [reflexivity|]. split; [left; reflexivity|]. split; [reflexivity|]. split; [vm_compute; reflexivity|].
  split; [reflexivity|]. vm_compute. discriminate.
Qed.
Print Assumptions C10_needs_cancelling_refuted.

(** C11: simplification preserves the value under path constraints and condition. *)
Theorem C11_simplify_preserves : forall k s, claripy_ok k -> solver_ok s ->
  forall fuel cs value cond v, wtv value = true -> simplify k s fuel cs value cond = Ok v ->
  width v = width value /\ forall r, holds r cs -> eb r cond = true -> ev r v = ev r value.
Proof. exact simplify_preserves. Qed.
Print Assumptions C11_simplify_preserves.

(** A conditional decided by the path constraints disappears, and a base common to
    both branches comes out of the other. *)
Example C11_example :
  let x := BVS 4 1 in let p := BVS 4 2 in
  let value := BvIte (BUlt x (BVV 4 8)) (BvIte (BoolS 3) (BvAdd p (BVV 4 1)) (BvAdd (BVV 4 2) p)) (BVV 4 0) in
  simplify cl_arith bf 9 [BUlt x (BVV 4 4)] value BTrue = Ok (BvAdd p (BvIte (BoolS 3) (BVV 4 1) (BVV 4 2))).
Proof. vm_compute. reflexivity. Qed.

(** C13: exploration with merging loses no execution. [covers] says which concrete
    executions a symbolic state stands for; stepping a state and merging a pile are
    assumed not to lose executions (merging: shown below for path constraints). *)
Theorem C13_steps_cover : forall A rip returned engine record_ok cs_eqb ret_eqb plugins merge E (covers : A -> E -> Prop),
  (forall a succs e, engine a = Ok succs -> covers a e -> succs <> [] -> covered A E covers succs e) ->
  (forall pile m e, merge pile = Some m -> covered A E covers pile e -> covers m e) ->
  forall n st st' e,
  steps A rip returned engine record_ok cs_eqb ret_eqb plugins merge n st = Ok st' ->
  covered A E covers (active A st ++ deferred A st ++ deadended A st) e ->
  covered A E covers (active A st' ++ deferred A st' ++ deadended A st') e.
Proof. exact steps_cover. Qed.
Print Assumptions C13_steps_cover.

(** A completed exploration has all the initial executions among its final states. *)
Theorem C13_run_covers : forall A rip returned engine record_ok cs_eqb ret_eqb plugins merge E (covers : A -> E -> Prop),
  (forall a succs e, engine a = Ok succs -> covers a e -> succs <> [] -> covered A E covers succs e) ->
  (forall pile m e, merge pile = Some m -> covered A E covers pile e -> covers m e) ->
  forall fuel a st' e,
  run A rip returned engine record_ok cs_eqb ret_eqb plugins merge fuel (mkSt A [a] [] []) = Ok st' ->
  covers a e -> covered A E covers (deadended A st') e.
Proof.
  intros A rip returned engine record_ok cs_eqb ret_eqb plugins merge E covers HE HM fuel a st' e H C.
  eapply (run_covers A rip returned engine record_ok cs_eqb ret_eqb plugins merge E covers HE HM fuel _ st' e H).
  - left. reflexivity.
  - exists a. split; [left; reflexivity|exact C].
Qed.
Print Assumptions C13_run_covers.

(** The merge of path constraints (C01) with a selector no state uses does not lose
    executions. *)
Theorem C13_constraint_merge_covers : forall pile m r,
  merge_cs pile = Some m -> covered cstate env covers_cs pile r -> covers_cs m r.
Proof. exact merge_cs_ok. Qed.
Print Assumptions C13_constraint_merge_covers.

(** The states explored next are exactly those at the lowest instruction pointer. *)
Theorem C13_lowest_first : forall A rip returned engine record_ok cs_eqb ret_eqb plugins merge st st',
  (forall pile m, merge pile = Some m -> exists a, In a pile /\ ripv A rip m = ripv A rip a) ->
  step A rip returned engine record_ok cs_eqb ret_eqb plugins merge st = Ok st' ->
  forall a b, In a (active A st') -> In b (deferred A st') -> ripv A rip a < ripv A rip b.
Proof. exact step_lowest. Qed.
Print Assumptions C13_lowest_first.
(** A step stops the exploration only for one of three reasons: the engine or the recording failed, or some state's instruction pointer is
    not a number. *)
Theorem C13_step_goes_on : forall A rip returned engine record_ok cs_eqb ret_eqb plugins merge a others def fin,
  (exists st', step A rip returned engine record_ok cs_eqb ret_eqb plugins merge (mkSt A (a :: others) def fin) = Ok st') <->
  exists succs, engine a = Ok succs /\ record_ok a succs = true /\ forall b, In b def \/ In b others \/ In b succs -> rip b <> None.
Proof.
  intros. unfold step. cbn [active deferred deadended].
  assert (X : forall l, existsb (fun b => match rip b with None => true | Some _ => false end) l = false <-> forall b, In b l -> rip b <> None).
  { intros l. rewrite <- not_true_iff_false, existsb_exists. split.
    - intros H b I E. apply H. exists b. split; [exact I|]. rewrite E. reflexivity.
    - intros H (b & I & E). specialize (H b I). destruct (rip b); [discriminate|congruence]. }
  destruct (engine a) as [succs| |]; cbn [bindr]; [|split; [intros [? H]; discriminate H|intros (? & H & _); discriminate H]..].
  destruct (record_ok a succs) eqn:RO; cbn [negb]; [|split; [intros [? H]; discriminate H|intros (s0 & H & R & _); congruence]].
  assert (Y : (forall b, In b ((def ++ others) ++ succs) -> rip b <> None) <-> forall b, In b def \/ In b others \/ In b succs -> rip b <> None).
  { split; intros H b I; apply H; rewrite !in_app_iff in *; tauto. }
  specialize (X ((def ++ others) ++ succs)). destruct ((def ++ others) ++ succs) as [|c l] eqn:EL.
  - split; [|intros _; eexists; reflexivity]. intros _. exists succs. split; [reflexivity|]. split; [exact RO|]. apply Y. intros b [].
  - destruct (existsb _ (c :: l)).
    + split; [intros [? H]; discriminate H|]. intros (s0 & H & _ & R). injection H as <-. exfalso. pose proof (proj2 X (proj2 Y R)) as Z. discriminate Z.
    + split; [intros _; exists succs; split; [reflexivity|]; split; [exact RO|]; apply (proj1 Y), (proj1 X); reflexivity|]. intros _.
      destruct (rev (sort_desc A rip (c :: l))) as [|l0 rl] eqn:ER.
      * exfalso. apply (f_equal (@rev A)) in ER. rewrite rev_involutive in ER. cbn [rev] in ER.
        pose proof (sort_perm A rip (c :: l)) as P. rewrite ER in P. exact (Permutation.Permutation_nil_cons P).
      * destruct (take_lowest A rip l0 rl). destruct (returned l0); eexists; reflexivity.
Qed.
Print Assumptions C13_step_goes_on.

(** A diamond: the program at 1 forks to 2 and 3, 2 goes to 3, and the two paths merge
    at 3 before finishing. *)
Definition diamond (a : cstate) : res (list cstate) :=
  match fst a with
  | 1 => Ok [(2, snd a ++ [BoolS 1]); (3, snd a ++ [BNot (BoolS 1)])]
  | 2 => Ok [(3, snd a ++ [BUlt (BVS 4 1) (BVV 4 5)])]
  | _ => Ok []
  end.
Example C13_example :
  match run cstate (fun a => Some (fst a)) (fun _ => false) diamond (fun _ _ => true) (fun _ _ => true)
          (fun _ => None) [] merge_cs 9 (mkSt cstate [(1, [])] [] []) with
  | Ok st => length (deadended cstate st) = 1%nat /\ active cstate st = [] /\ deferred cstate st = []
  | _ => False
  end.
Proof. vm_compute. auto. Qed.
