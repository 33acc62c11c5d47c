(** * Pointer resolution: base, index, offset (tool/kalm/utils.py 189-233) *)

From Coq Require Import NArith ZArith List Bool Lia.
From Verif Require Import Expr Solver Wt Simplify MultAdd.
Import ListNotations.
Open Scope N_scope.

Section BaseIndex.
Variable k : claripy.
Variable s : solver.

(** The metadata of one type: known pointers, in insertion order, with the element
    size of what they point to (the other fields play no role here). *)
Definition meta := list (bv * bv).

(** kalm/plugins/metadata.py 53-67. *)
Definition meta_find (m : meta) (keys : list bv) : res (option (bv * bv)) :=
  match flat_map (fun key => filter (fun kv => bv_eqb key (fst kv)) m) keys with
  | [] => Ok None
  | [kv] => Ok (Some kv)
  | _ => Err
  end.

(** [.args] of a node, where every argument is an expression; an Extract, an If, a
    constant or a symbol has arguments that cannot be compared and summed here. *)
Definition args_of (e : bv) : option (list bv) :=
  match e with
  | BvAdd _ _ => Some (add_args e)
  | BvSub a b | BvMul a b | BvUdiv a b | BvUrem a b | BvAnd a b | BvOr a b | BvXor a b
  | BvShl a b | BvLshr a b => Some [a; b]
  | _ => None
  end.

(** utils.py 205-218: the non-symbolic keys, tried in order against the non-symbolic
    arguments. *)
Definition try_key (cs : list bexp) (addr : bv) (kv : bv * bv) : bool :=
  negb (symbolic (fst kv)) &&
  existsb (fun arg => negb (symbolic arg) && definitely_true s cs (BUlt (BvSub arg (fst kv)) (snd kv))) (add_args addr).

(** state.solver.eval_one: the single value, or an exception. *)
Definition eval_one (cs : list bexp) (e : bv) : res N :=
  do v <- get_if_constant s cs e;
  match v with Some n => Ok n | None => Err end.

(** utils.py 223-226, from the chosen base on. *)
Definition resolve (cs : list bexp) (addr : bv) (kv : bv * bv) : res (bv * bv * N) :=
  match args_of addr with
  | None => Err
  | Some args =>
      let added := sum_from k (zero (width addr)) (filter (fun a => negb (bv_eqb a (fst kv))) args) in
      do m <- modulo_simplify k s cs added (snd kv);
      do offset <- eval_one cs m;
      do index <- div_simplify k s cs (mksub k added (BVV (width addr) offset)) (snd kv);
      Ok (fst kv, index, offset * 8)
  end.

(** utils.py 195-233 with allow_failure = False. *)
Definition base_index_offset (fuel : nat) (cs : list bexp) (m : meta) (addr0 : bv) : res (bv * bv * N) :=
  do addr <- simplify k s fuel cs addr0 BTrue;
  if is_add addr then
    do found <- meta_find m (add_args addr);
    match found with
    | Some kv => resolve cs addr kv
    | None =>
        match find (try_key cs addr) m with
        | None => Err
        | Some kv =>
            let addr' := mksub k addr (fst kv) in
            match args_of addr' with
            | None => Err
            | Some args =>
                if existsb (fun a => bv_eqb a (fst kv)) args then Err else resolve cs addr' kv
            end
        end
    end
  else
    if existsb (fun kv => bv_eqb addr (fst kv)) m then Ok (addr, zero (width addr), 0) else Err.

End BaseIndex.

Section BaseIndexProofs.
Variable k : claripy.
Variable s : solver.
Hypothesis KOK : claripy_ok k.
Hypothesis SOK : solver_ok s.

Lemma meta_find_one : forall m keys kv, meta_find m keys = Ok (Some kv) ->
  In kv m /\ exists l1 l2, keys = l1 ++ fst kv :: l2 /\
    (forall a, In a (l1 ++ l2) -> a <> fst kv).
Proof.
  intros m keys kv H. unfold meta_find in H.
  remember (flat_map (fun key => filter (fun kv => bv_eqb key (fst kv)) m) keys) as L.
  destruct L as [|x [|? ?]]; try discriminate. injection H as ->. symmetry in HeqL.
  assert (IN : forall key, In key keys -> forall kv', In kv' m -> key = fst kv' -> kv' = kv).
  { intros key Hk kv' Hm E. assert (In kv' (flat_map (fun key => filter (fun kv => bv_eqb key (fst kv)) m) keys)).
    { apply in_flat_map. exists key. split; auto. apply filter_In. split; auto. apply bv_eqb_eq. auto. }
    rewrite HeqL in H. destruct H as [H|[]]. auto. }
  assert (MM : In kv m /\ exists key, In key keys /\ key = fst kv).
  { assert (In kv [kv]) by (left; auto). rewrite <- HeqL in H. apply in_flat_map in H as [key [H1 H2]].
    apply filter_In in H2 as [H2 H3]. apply bv_eqb_eq in H3. split; eauto. }
  destruct MM as [Hm [key [Hk E]]]. split; [auto|]. subst key.
  clear IN. apply in_split in Hk as [l1 [l2 ->]]. exists l1, l2. split; auto.
  intros a Ha ->. rewrite flat_map_app in HeqL. cbn [flat_map] in HeqL.
  assert (NE : forall l, In (fst kv) l -> flat_map (fun key => filter (fun kv0 => bv_eqb key (fst kv0)) m) l <> []).
  { intros l Hl C. assert (In kv (flat_map (fun key => filter (fun kv0 => bv_eqb key (fst kv0)) m) l)).
    { apply in_flat_map. exists (fst kv). split; auto. apply filter_In. split; auto. apply bv_eqb_eq. auto. }
    rewrite C in H. exact H. }
  assert (NF : filter (fun kv0 => bv_eqb (fst kv) (fst kv0)) m <> []).
  { intros C. assert (In kv (filter (fun kv0 => bv_eqb (fst kv) (fst kv0)) m)).
    { apply filter_In. split; auto. apply bv_eqb_eq. auto. }
    rewrite C in H. exact H. }
  apply (f_equal (@length _)) in HeqL. rewrite !app_length in HeqL. cbn [length] in HeqL.
  apply in_app_iff in Ha. destruct (filter _ m); [contradiction|]. cbn [length] in HeqL.
  set (F := flat_map (fun key : bv => filter (fun kv0 : bv * bv => bv_eqb key (fst kv0)) m)) in *.
  destruct Ha as [Ha|Ha]; apply NE in Ha.
  - destruct (F l1); [contradiction|cbn [length] in HeqL; lia].
  - destruct (F l2); [contradiction|cbn [length] in HeqL; lia].
Qed.

Lemma zsum_filter_base : forall r base l1 l2, (forall a, In a (l1 ++ l2) -> a <> base) ->
  (zsum r (l1 ++ base :: l2) = zev r base + zsum r (filter (fun a => negb (bv_eqb a base)) (l1 ++ base :: l2)))%Z.
Proof.
  intros r base l1 l2 H. rewrite filter_app. cbn [filter]. rewrite (proj2 (bv_eqb_eq base base) eq_refl). cbn [negb].
  assert (F : forall l, (forall a, In a l -> a <> base) -> filter (fun a => negb (bv_eqb a base)) l = l).
  { induction l as [|x l IH]; intros Hl; [auto|]. cbn [filter].
    destruct (bv_eqb x base) eqn:E. { apply bv_eqb_eq in E. exfalso. apply (Hl x); [left; auto|auto]. }
    cbn [negb]. f_equal. apply IH. intros. apply Hl. right. auto. }
  rewrite !F by (intros; apply H; apply in_app_iff; auto).
  rewrite !zsum_app. cbn [zsum fold_right]. fold (zsum r l2). lia.
Qed.

Lemma allw_filter : forall w f l, allw w l -> allw w (filter f l).
Proof. intros w f l H. unfold allw in *. rewrite Forall_forall in *. intros x Hx. apply filter_In in Hx as [Hx _]. auto. Qed.

(** The address with the chosen base taken out. *)
Definition the_rest (addr base : bv) : bv :=
  sum_from k (zero (width addr)) (filter (fun a => negb (bv_eqb a base)) (add_args addr)).

(** After resolution against [base]/[size], with [added] what remains once the base
    is removed: *)
Lemma resolve_spec : forall cs addr base size b idx off r d,
  istrue_consts k -> wtv addr = true -> is_add addr = true ->
  wtv size = true -> width size = width addr -> symbolic size = false ->
  resolve k s cs addr (base, size) = Ok (b, idx, off) ->
  holds r cs -> (0 < zev r size)%Z ->
  as_mult_add_outer s cs (mksub k (the_rest addr base) (BVV (width addr) (off / 8))) = Ok d ->
  all_mults r (width addr) (zev r size) d ->
  b = base /\ width idx = width addr /\ off = 8 * (off / 8) /\ (Z.of_N (off / 8) < zev r size)%Z /\
  eqm (width addr) (zev r (the_rest addr base)) (zev r idx * zev r size + Z.of_N (off / 8)).
Proof.
  intros cs addr base size b idx off r d IC Ta IA Tz Wz Sz H Hr P A AM.
  unfold resolve in H. cbn [fst snd] in H.
  assert (AO : args_of addr = Some (add_args addr)) by (destruct addr; try discriminate; reflexivity).
  rewrite AO in H. fold (the_rest addr base) in H. set (added := the_rest addr base) in *.
  destruct (modulo_simplify k s cs added size) as [m| |] eqn:M; try discriminate. cbn [bindr] in H.
  unfold eval_one in H. pose proof (get_if_constant_spec s SOK cs m) as GC.
  destruct (get_if_constant s cs m) as [[o|]| |]; try discriminate. cbn [bindr] in H.
  destruct (div_simplify k s cs (mksub k added (BVV (width addr) o)) size) as [ix| |] eqn:D; try discriminate.
  cbn [bindr] in H. injection H as <- <- <-.
  assert (O8 : o * 8 / 8 = o) by (apply N.div_mul; lia). rewrite O8 in *.
  destruct (add_args_spec addr Ta) as [AA _].
  pose proof (wtv_pos addr Ta) as WP.
  destruct (sum_from_spec k KOK (filter (fun a => negb (bv_eqb a base)) (add_args addr)) (zero (width addr)) (width addr))
    as [Tadd [Wadd _]]; [apply zero_wt; auto|reflexivity|apply allw_filter; auto|].
  fold (the_rest addr base) in Tadd, Wadd. fold added in Tadd, Wadd.
  pose proof (ok_sub k KOK added (BVV (width addr) o)) as EQ.
  assert (Tsub : wtv (BvSub added (BVV (width addr) o)) = true).
  { cbn [wtv width]. rewrite Tadd, Wadd, N.eqb_refl. cbn. apply N.ltb_lt in WP. rewrite WP. reflexivity. }
  assert (Wsub : width (mksub k added (BVV (width addr) o)) = width addr) by (rewrite (bveq_w _ _ EQ); exact Wadd).
  destruct (div_simplify_spec k s KOK SOK cs _ size ix d r IC (bveq_wt _ _ EQ Tsub) Tz) as [Wi [E _]]; auto;
    rewrite ?Wsub; auto.
  rewrite Wsub in Wi, E. split; [auto|]. split; [auto|]. split; [lia|]. split.
  - (* the offset is a remainder by the size *)
    unfold modulo_simplify in M. destruct (as_mult_add_outer s cs added) as [dd| |]; try discriminate. cbn [bindr] in M.
    destruct (modulo_terms k (width added) size dd (zero (width added))) as [sm| |]; try discriminate. injection M as <-.
    destruct GC as [_ GC]. specialize (GC r Hr). rewrite <- GC.
    unfold zev in *. cbn [evalv]. destruct (N.eqb_spec (ev r size) 0); [lia|].
    pose proof (N.mod_lt (ev r sm) (ev r size) ltac:(auto)).
    assert (wrap (width sm) (ev r sm mod ev r size) <= ev r sm mod ev r size) by (unfold wrap; apply N.mod_le; apply pow2_ne).
    lia.
  - rewrite <- (bveq_zev _ _ r EQ), zev_sub in E by (cbn; auto). rewrite Wadd, zev_bvv in E.
    apply eqm_sym. eapply eqm_trans; [apply eqm_add; [exact E|apply eqm_refl]|].
    unfold eqm. rewrite Zplus_mod_idemp_l.
    replace (zev r added - Z.of_N o mod p2 (width addr) + Z.of_N o)%Z
      with (zev r added + (Z.of_N o - Z.of_N o mod p2 (width addr)))%Z by ring.
    rewrite <- (Z.add_0_r (zev r added)) at 2. apply eqm_add; [apply eqm_refl|].
    unfold eqm. rewrite Zminus_mod_idemp_r, Z.sub_diag. reflexivity.
Qed.

Lemma base_index_offset_spec : forall fuel cs m addr0 addr base size idx off r d,
  istrue_consts k -> wtv addr0 = true ->
  simplify k s fuel cs addr0 BTrue = Ok addr ->
  base_index_offset k s fuel cs m addr0 = Ok (base, idx, off) ->
  is_add addr = true -> meta_find m (add_args addr) = Ok (Some (base, size)) ->
  wtv size = true -> width size = width addr -> symbolic size = false -> (0 < zev r size)%Z ->
  holds r cs ->
  as_mult_add_outer s cs (mksub k (the_rest addr base) (BVV (width addr) (off / 8))) = Ok d ->
  all_mults r (width addr) (zev r size) d ->
  In (base, size) m /\ off = 8 * (off / 8) /\ (Z.of_N (off / 8) < zev r size)%Z /\
  zev r addr0 = ((zev r base + zev r idx * zev r size + Z.of_N (off / 8)) mod p2 (width addr0))%Z.
Proof.
  intros fuel cs m addr0 addr base size idx off r d IC T0 SI H IA MF Tz Wz Sz P Hr A AM.
  unfold base_index_offset in H. rewrite SI in H. cbn [bindr] in H. rewrite IA, MF in H. cbn [bindr] in H.
  pose proof (simplify_wt k s KOK SOK fuel cs addr0 BTrue addr T0 SI) as Ta.
  destruct (simplify_preserves k s KOK SOK fuel cs addr0 BTrue addr T0 SI) as [W V].
  destruct (resolve_spec cs addr base size base idx off r d IC Ta IA Tz Wz Sz H Hr P A AM) as [_ [Wi [O8 [OL E]]]].
  destruct (meta_find_one m (add_args addr) (base, size) MF) as [Hin [l1 [l2 [AL NB]]]]. cbn [fst] in *.
  split; [auto|]. split; [auto|]. split; [auto|].
  assert (Z0 : zev r addr0 = zev r addr) by (unfold zev; rewrite (V r Hr eq_refl); reflexivity).
  rewrite Z0, <- W. destruct (add_args_spec addr Ta) as [AA AV]. rewrite AV. fold (eqm (width addr) (zsum r (add_args addr)) (zev r base + zev r idx * zev r size + Z.of_N (off / 8))).
  rewrite AL, (zsum_filter_base r base l1 l2 NB), <- AL.
  rewrite <- Z.add_assoc. apply eqm_add; [apply eqm_refl|].
  eapply eqm_trans; [|exact E]. unfold the_rest.
  destruct (sum_from_spec k KOK (filter (fun a => negb (bv_eqb a base)) (add_args addr)) (zero (width addr)) (width addr))
    as [_ [_ SV]]; [apply zero_wt; apply wtv_pos; auto|reflexivity|apply allw_filter; auto|].
  rewrite SV, zero_ev, Z.add_0_l. apply eqm_sym. apply eqm_mod.
Qed.
(** The base is a constant of the metadata, near a constant of the sum (utils.py 200-218). *)
Lemma base_index_offset_fixed : forall fuel cs m addr0 addr base size idx off r d,
  istrue_consts k -> wtv addr0 = true ->
  simplify k s fuel cs addr0 BTrue = Ok addr ->
  base_index_offset k s fuel cs m addr0 = Ok (base, idx, off) ->
  is_add addr = true -> meta_find m (add_args addr) = Ok None ->
  find (try_key s cs addr) m = Some (base, size) -> is_add (mksub k addr base) = true ->
  wtv base = true -> width base = width addr ->
  wtv size = true -> width size = width addr -> symbolic size = false -> (0 < zev r size)%Z ->
  holds r cs ->
  as_mult_add_outer s cs (mksub k (the_rest (mksub k addr base) base) (BVV (width addr) (off / 8))) = Ok d ->
  all_mults r (width addr) (zev r size) d ->
  In (base, size) m /\ off = 8 * (off / 8) /\ (Z.of_N (off / 8) < zev r size)%Z /\
  zev r addr0 = ((zev r base + zev r idx * zev r size + Z.of_N (off / 8)) mod p2 (width addr0))%Z.
Proof.
  intros fuel cs m addr0 addr base size idx off r d IC T0 SI H IA MF FK IS Tb Wb Tz Wz Sz P Hr A AM.
  unfold base_index_offset in H. rewrite SI in H. cbn [bindr] in H. rewrite IA, MF in H. cbn [bindr] in H.
  rewrite FK in H. cbn [fst] in H.
  pose proof (simplify_wt k s KOK SOK fuel cs addr0 BTrue addr T0 SI) as Ta.
  destruct (simplify_preserves k s KOK SOK fuel cs addr0 BTrue addr T0 SI) as [W V].
  pose proof (ok_sub k KOK addr base) as EQ. set (addr' := mksub k addr base) in *.
  assert (Tsub : wtv (BvSub addr base) = true).
  { cbn [wtv]. rewrite Ta, Tb, Wb, N.eqb_refl. reflexivity. }
  pose proof (bveq_wt _ _ EQ Tsub) as Ta'.
  assert (W' : width addr' = width addr) by (rewrite (bveq_w _ _ EQ); reflexivity).
  assert (AO : args_of addr' = Some (add_args addr')) by (destruct addr'; try discriminate; reflexivity).
  rewrite AO in H. destruct (existsb (fun a => bv_eqb a base) (add_args addr')) eqn:EX; [discriminate|].
  rewrite <- W' in A, AM, Wz.
  destruct (resolve_spec cs addr' base size base idx off r d IC Ta' IS Tz Wz Sz H Hr P A AM) as [_ [Wi [O8 [OL E]]]].
  apply find_some in FK as [Hin _].
  split; [auto|]. split; [auto|]. split; [auto|].
  assert (Z0 : zev r addr0 = zev r addr) by (unfold zev; rewrite (V r Hr eq_refl); reflexivity).
  destruct (add_args_spec addr' Ta') as [AA AV].
  assert (FA : filter (fun a => negb (bv_eqb a base)) (add_args addr') = add_args addr').
  { clear - EX. induction (add_args addr') as [|x l IH]; [reflexivity|]. cbn [existsb] in EX.
    apply orb_false_iff in EX as [E1 E2]. cbn [filter]. rewrite E1. cbn [negb]. f_equal. auto. }
  destruct (sum_from_spec k KOK (add_args addr') (zero (width addr')) (width addr'))
    as [_ [_ SV]]; [apply zero_wt; apply wtv_pos; auto|reflexivity|auto|].
  unfold the_rest in E. rewrite FA in E. rewrite SV, zero_ev, Z.add_0_l, <- AV in E.
  rewrite <- (bveq_zev _ _ r EQ), zev_sub in E by auto. rewrite W' in E.
  assert (E2 : eqm (width addr) (zev r addr) (zev r base + zev r idx * zev r size + Z.of_N (off / 8))).
  { rewrite <- Z.add_assoc. eapply eqm_trans; [|apply eqm_add; [apply eqm_refl|exact E]].
    unfold eqm. rewrite Zplus_mod_idemp_r. f_equal. ring. }
  rewrite Z0, <- W. rewrite <- (zev_small r addr). exact E2.
Qed.
Lemma try_key_spec : forall fuel cs m addr0 addr base size r, wtv addr0 = true ->
  simplify k s fuel cs addr0 BTrue = Ok addr -> find (try_key s cs addr) m = Some (base, size) ->
  width base = width addr -> width size = width addr -> holds r cs ->
  symbolic base = false /\
  exists a, In a (add_args addr) /\ symbolic a = false /\ ((zev r a - zev r base) mod p2 (width addr) < zev r size)%Z.
Proof.
  intros fuel cs m addr0 addr base size r T0 SI FK Wb Wz Hr.
  pose proof (simplify_wt k s KOK SOK fuel cs addr0 BTrue addr T0 SI) as Ta.
  apply find_some in FK as [_ TK]. unfold try_key in TK. cbn [fst snd] in TK. apply andb_prop in TK as [SB EX].
  apply negb_true_iff in SB. split; [auto|]. apply existsb_exists in EX as [a [Ha EX]]. apply andb_prop in EX as [Sa DT].
  apply negb_true_iff in Sa. exists a. split; [auto|]. split; [auto|].
  pose proof (proj1 (definitely_true_spec s SOK _ _) DT r Hr) as LT. clear DT. rename LT into DT. cbn [evalb] in DT. apply N.ltb_lt in DT.
  assert (Wa : width a = width addr).
  { destruct (add_args_spec addr Ta) as [F _]. unfold allw in F. rewrite Forall_forall in F. apply F. auto. }
  rewrite <- Wa, <- zev_sub by congruence. unfold zev. lia.
Qed.
End BaseIndexProofs.

(** A claripy that drops zeroes and cancels [(x + c) - c] while building nodes; it
    shows that the theorem above applies to addresses with an offset. *)
Definition add_fold (a b : bv) : bv :=
  match a with
  | BVV w 0 => if w =? width b then b else BvAdd a b
  | _ => BvAdd a b
  end.
Definition sub_fold (a b : bv) : bv :=
  match b with
  | BVV w v =>
      if width a =? w then
        if v =? 0 then a
        else match a with
             | BvAdd x c => if bv_eqb b c then x else BvSub a b
             | _ => BvSub a b
             end
      else BvSub a b
  | _ => BvSub a b
  end.
Definition cl_arith : claripy :=
  mkClaripy (fun e => e) (fun e => e) (fun _ e => e) BvIte add_fold sub_fold (istrue cl_id).

Lemma add_fold_ok : forall a b, bveq (BvAdd a b) (add_fold a b).
Proof.
  intros a b. unfold add_fold. destruct a; try apply bveq_refl. destruct v; try apply bveq_refl.
  destruct (N.eqb_spec w (width b)) as [W|]; [|apply bveq_refl].
  split; [cbn; auto|]. split; [intros H; cbn [wtv] in H; rewrite !andb_true_iff in H; tauto|].
  intros r. cbn [evalv width]. unfold wrap at 2. rewrite N.mod_0_l by apply pow2_ne. rewrite N.add_0_l, W.
  apply wrap_small, evalv_lt.
Qed.
Lemma sub_fold_ok : forall a b, bveq (BvSub a b) (sub_fold a b).
Proof.
  intros a b. unfold sub_fold. destruct b; try apply bveq_refl.
  destruct (N.eqb_spec (width a) w) as [W|]; [|apply bveq_refl]. destruct (N.eqb_spec v 0) as [->|].
  - split; [cbn; auto|]. split; [intros H; cbn [wtv] in H; rewrite !andb_true_iff in H; tauto|].
    intros r. apply N2Z.inj. change (zev r (BvSub a (BVV w 0)) = zev r a). rewrite zev_sub, zev_bvv by auto.
    rewrite Z.mod_0_l by (pose proof (p2_pos w); lia). rewrite Z.sub_0_r. apply zev_small.
  - destruct a; try apply bveq_refl. destruct (bv_eqb (BVV w v) a2) eqn:E; [|apply bveq_refl].
    apply bv_eqb_eq in E. subst a2.
    split; [cbn; auto|]. split; [intros H; cbn [wtv] in H; rewrite !andb_true_iff in H; tauto|].
    intros r. apply N2Z.inj. change (zev r (BvSub (BvAdd a1 (BVV w v)) (BVV w v)) = zev r a1).
    cbn [width] in W. rewrite zev_sub, zev_add by auto. cbn [width]. rewrite Zminus_mod_idemp_l.
    replace (zev r a1 + zev r (BVV w v) - zev r (BVV w v))%Z with (zev r a1) by ring. apply zev_small.
Qed.
Lemma cl_arith_ok : claripy_ok cl_arith.
Proof.
  constructor; intros; try apply bveq_refl.
  - apply add_fold_ok.
  - apply sub_fold_ok.
  - apply (ok_istrue cl_id cl_id_ok c); auto.
Qed.
Lemma cl_id_consts : istrue_consts cl_id.
Proof. intros x y Sx Sy E. cbn. rewrite Sx, Sy. cbn. apply N.eqb_eq. apply E. Qed.
Lemma cl_arith_consts : istrue_consts cl_arith.
Proof. exact cl_id_consts. Qed.

(** Also folds [(x + c) - d] into [x + (c - d)] when d < c. *)
Definition sub_near (a b : bv) : bv :=
  match a, b with
  | BvAdd x (BVV w c), BVV w' v =>
      if (width x =? w) && (w =? w') && (v <? c) && (c <? 2 ^ w) then BvAdd x (BVV w (c - v)) else sub_fold a b
  | _, _ => sub_fold a b
  end.
Definition cl_near : claripy :=
  mkClaripy (fun e => e) (fun e => e) (fun _ e => e) BvIte add_fold sub_near (istrue cl_id).
Lemma sub_near_ok : forall a b, bveq (BvSub a b) (sub_near a b).
Proof.
  intros a b. unfold sub_near. destruct a; try apply sub_fold_ok. destruct a2; try apply sub_fold_ok. destruct b; try apply sub_fold_ok.
  destruct ((width a1 =? w) && (w =? w0) && (v0 <? v) && (v <? 2 ^ w)) eqn:E; [|apply sub_fold_ok].
  rewrite !andb_true_iff in E. destruct E as [[[E1 E2] E3] E4]. apply N.eqb_eq in E1, E2. apply N.ltb_lt in E3, E4. subst w0.
  split; [cbn; auto|]. split.
  - intros H. cbn [wtv width] in *. rewrite !andb_true_iff in *. intuition (auto; try (apply N.ltb_lt; lia)).
  - intros r. apply N2Z.inj. change (zev r (BvSub (BvAdd a1 (BVV w v)) (BVV w v0)) = zev r (BvAdd a1 (BVV w (v - v0)))).
    rewrite zev_sub, !zev_add, !zev_bvv by auto. cbn [width]. rewrite E1.
    assert (P : (Z.of_N v < p2 w)%Z) by (unfold p2; lia).
    rewrite !(Z.mod_small (Z.of_N _)) by lia. rewrite Zminus_mod_idemp_l, N2Z.inj_sub by lia. f_equal. ring.
Qed.
Lemma cl_near_ok : claripy_ok cl_near.
Proof.
  constructor; intros; try apply bveq_refl.
  - apply add_fold_ok.
  - apply sub_near_ok.
  - apply (ok_istrue cl_id cl_id_ok c); auto.
Qed.
Lemma cl_near_consts : istrue_consts cl_near.
Proof. exact cl_id_consts. Qed.
