(** * Loads and stores of the verified program (tool/kalm/memory/objects.py) *)

From Coq Require Import NArith ZArith List Bool Lia.
From Verif Require Import Expr Solver Wt Simplify MultAdd BaseIndex.
Import ListNotations.
Open Scope N_scope.

Section ObjMem.
Variable k : claripy.
Variable s : solver.

(** utils.py 195-233 with allow_failure = True. *)
Definition base_index_offset_opt (fuel : nat) (cs : list bexp) (m : meta) (addr0 : bv) : res (option (bv * bv * N)) :=
  do addr <- simplify k s fuel cs addr0 BTrue;
  if is_add addr then
    do found <- meta_find m (add_args addr);
    match found with
    | Some kv => do x <- resolve k s cs addr kv; Ok (Some x)
    | None =>
        match find (try_key s cs addr) m with
        | None => Ok None
        | Some kv =>
            let addr' := mksub k addr (fst kv) in
            match args_of addr' with
            | None => Err
            | Some args =>
                if existsb (fun a => bv_eqb a (fst kv)) args then Err
                else do x <- resolve k s cs addr' kv; Ok (Some x)
            end
        end
    end
  else
    if existsb (fun kv => bv_eqb addr (fst kv)) m then Ok (Some (addr, zero (width addr), 0)) else Ok None.

(** Where an access goes: to the reader or writer of an object, or to angr's own memory. *)
Inductive place := Special (obj index : bv) (offset : N) | Ordinary (a : N).
(** objects.py 11-17 and 19-26: the same in [load] and [store]. *)
Definition place_of (fuel : nat) (cs : list bexp) (m : meta) (addr : bv) : res place :=
  do o <- base_index_offset_opt fuel cs m addr;
  match o with
  | Some (obj, index, offset) =>
      if existsb (fun kv => bv_eqb obj (fst kv)) m then Ok (Special obj index offset)
      else do a <- eval_one s cs addr; Ok (Ordinary a)
  | None => do a <- eval_one s cs addr; Ok (Ordinary a)
  end.
(** objects.py 28-29: the byte order asked for is not the machine's. *)
Definition should_reverse (big : option bool) (arch_big : bool) : bool :=
  match big with None => false | Some b => negb (Bool.eqb b arch_big) end.

(** With and without the flag the same addresses are resolved, to the same. *)
Lemma opt_some : forall fuel cs m addr x, base_index_offset_opt fuel cs m addr = Ok (Some x) <-> base_index_offset k s fuel cs m addr = Ok x.
Proof.
  intros fuel cs m addr x. unfold base_index_offset_opt, base_index_offset.
  destruct (simplify k s fuel cs addr BTrue) as [a| |]; cbn [bindr]; try (split; discriminate).
  destruct (is_add a).
  - destruct (meta_find m (add_args a)) as [[kv|]| |]; cbn [bindr]; try (split; discriminate).
    + destruct (resolve k s cs a kv) as [y| |]; cbn [bindr]; split; congruence.
    + destruct (find (try_key s cs a) m) as [kv|]; [|split; discriminate]. cbn zeta. destruct (args_of _); [|split; discriminate].
      destruct (existsb _ _); [split; discriminate|]. destruct (resolve k s cs _ kv) as [y| |]; cbn [bindr]; split; congruence.
  - destruct (existsb _ m); split; congruence.
Qed.

Lemma resolve_base : forall cs addr kv b i o, resolve k s cs addr kv = Ok (b, i, o) -> b = fst kv.
Proof.
  intros cs addr kv b i o H. unfold resolve in H. destruct (args_of addr); [|discriminate].
  destruct (modulo_simplify _ _ _ _ _) as [mo| |]; cbn [bindr] in H; try discriminate.
  destruct (eval_one _ _ _) as [off| |]; cbn [bindr] in H; try discriminate.
  destruct (div_simplify _ _ _ _ _) as [ix| |]; cbn [bindr] in H; congruence.
Qed.

(** What is resolved is resolved to a known object. *)
Lemma opt_known : forall fuel cs m addr b i o, base_index_offset_opt fuel cs m addr = Ok (Some (b, i, o)) ->
  existsb (fun kv => bv_eqb b (fst kv)) m = true.
Proof.
  intros fuel cs m addr b i o H. unfold base_index_offset_opt in H.
  destruct (simplify k s fuel cs addr BTrue) as [a| |]; cbn [bindr] in H; try discriminate.
  destruct (is_add a).
  - destruct (meta_find m (add_args a)) as [[kv|]| |] eqn:MF; cbn [bindr] in H; try discriminate.
    + destruct (resolve k s cs a kv) as [[[b' i'] o']| |] eqn:R; cbn [bindr] in H; try discriminate.
      apply resolve_base in R. assert (b = fst kv) by congruence. subst b. apply existsb_exists. exists kv.
      split; [apply meta_find_one in MF; tauto|]. apply bv_eqb_eq. reflexivity.
    + destruct (find (try_key s cs a) m) as [kv|] eqn:F; [|discriminate]. cbn zeta in H. destruct (args_of _); [|discriminate].
      destruct (existsb _ _); [discriminate|]. destruct (resolve k s cs _ kv) as [[[b' i'] o']| |] eqn:R; cbn [bindr] in H; try discriminate.
      apply resolve_base in R. assert (b = fst kv) by congruence. subst b. apply existsb_exists. exists kv.
      split; [apply find_some in F; tauto|]. apply bv_eqb_eq. reflexivity.
  - destruct (existsb (fun kv => bv_eqb a (fst kv)) m) eqn:E; [|discriminate]. assert (b = a) by congruence. subst b. exact E.
Qed.

Lemma place_special : forall fuel cs m addr b i o, place_of fuel cs m addr = Ok (Special b i o) <->
  base_index_offset k s fuel cs m addr = Ok (b, i, o).
Proof.
  intros fuel cs m addr b i o. rewrite <- opt_some. unfold place_of.
  destruct (base_index_offset_opt fuel cs m addr) as [[[[b' i'] o']|]| |] eqn:E; cbn [bindr]; try (split; discriminate).
  - rewrite (opt_known _ _ _ _ _ _ _ E). split; congruence.
  - destruct (eval_one s cs addr); cbn [bindr]; split; discriminate.
Qed.

Lemma place_ordinary : solver_ok s -> forall fuel cs m addr a, place_of fuel cs m addr = Ok (Ordinary a) ->
  forall r, holds r cs -> ev r addr = a.
Proof.
  intros SOK fuel cs m addr a H r Hr.
  assert (E : eval_one s cs addr = Ok a).
  { unfold place_of in H. destruct (base_index_offset_opt fuel cs m addr) as [[[[b' i'] o']|]| |] eqn:E; cbn [bindr] in H; try discriminate.
    - rewrite (opt_known _ _ _ _ _ _ _ E) in H. discriminate.
    - destruct (eval_one s cs addr); cbn [bindr] in H; congruence. }
  unfold eval_one in E. pose proof (get_if_constant_spec s SOK cs addr) as G.
  destruct (get_if_constant s cs addr) as [[v|]| |]; cbn [bindr] in E; try discriminate.
  assert (v = a) by congruence. subst v. apply G. exact Hr.
Qed.
End ObjMem.

(** ** Specification *)

Open Scope Z_scope.
(** The objects of an execution [r]: [count] elements each; they do not overlap, and do not
    wrap around the address space. *)
Definition extent (r : env) (count : bv -> Z) (kv : bv * bv) (x : Z) : Prop :=
  zev r (fst kv) <= x < zev r (fst kv) + count (fst kv) * zev r (snd kv).
Definition apart (r : env) (count : bv -> Z) (w : N) (m : meta) : Prop :=
  (forall kv, In kv m -> zev r (fst kv) + count (fst kv) * zev r (snd kv) <= p2 w) /\
  forall kv kv' x, In kv m -> In kv' m -> extent r count kv x -> extent r count kv' x -> kv = kv'.
(** The place is the one of address [x]: an element within bounds (C34) and a byte of it, with the
    arithmetic of C10; or angr's memory, where there is no object. *)
Definition right_place (r : env) (count : bv -> Z) (w : N) (m : meta) (x : Z) (p : place) : Prop :=
  match p with
  | Special b i o => exists size, In (b, size) m /\ (o = 8 * (o / 8))%N /\ Z.of_N (o / 8) < zev r size /\
      0 <= zev r i < count b /\ x = (zev r b + zev r i * zev r size + Z.of_N (o / 8)) mod p2 w
  | Ordinary a => x = Z.of_N a /\ forall kv, In kv m -> ~ extent r count kv x
  end.
Definition same_place (r : env) (p q : place) : Prop :=
  match p, q with
  | Special b i o, Special b' i' o' => b = b' /\ zev r i = zev r i' /\ o = o'
  | Ordinary a, Ordinary a' => a = a'
  | _, _ => False
  end.

Lemma special_extent : forall r count w m x b i o, apart r count w m -> right_place r count w m x (Special b i o) ->
  exists size, In (b, size) m /\ extent r count (b, size) x /\ x = zev r b + zev r i * zev r size + Z.of_N (o / 8) /\
  (o = 8 * (o / 8))%N /\ 0 <= Z.of_N (o / 8) < zev r size /\ 0 <= zev r i.
Proof.
  intros r count w m x b i o [W _] (size & Hin & O8 & OL & IB & E). exists size. split; [exact Hin|].
  specialize (W _ Hin). cbn [fst snd] in W. unfold extent. cbn [fst snd].
  assert (B : 0 <= zev r b) by (unfold zev; lia). assert (P : 0 <= Z.of_N (o / 8)) by apply N2Z.is_nonneg.
  assert (L : zev r i * zev r size + Z.of_N (o / 8) < count b * zev r size).
  { assert (Q : (zev r i + 1) * zev r size <= count b * zev r size) by (apply Z.mul_le_mono_nonneg_r; lia). lia. }
  assert (L0 : 0 <= zev r i * zev r size) by (apply Z.mul_nonneg_nonneg; lia).
  rewrite Z.mod_small in E by lia. repeat split; try assumption; try lia.
Qed.

Lemma right_same : forall r count w m x p q, apart r count w m -> right_place r count w m x p -> right_place r count w m x q -> same_place r p q.
Proof.
  intros r count w m x p q A P Q. destruct p as [b i o|a], q as [b' i' o'|a'].
  - destruct (special_extent _ _ _ _ _ _ _ _ A P) as (sz & I1 & X1 & E1 & O1 & L1 & N1).
    destruct (special_extent _ _ _ _ _ _ _ _ A Q) as (sz' & I2 & X2 & E2 & O2 & L2 & N2).
    assert (K : (b, sz) = (b', sz')) by (eapply (proj2 A); eassumption). injection K as <- <-. cbn [same_place]. split; [reflexivity|].
    assert (D : zev r i * zev r sz + Z.of_N (o / 8) = zev r i' * zev r sz + Z.of_N (o' / 8)) by lia.
    assert (zev r i = zev r i' /\ Z.of_N (o / 8) = Z.of_N (o' / 8)) as [EI EO].
    { apply (Z.div_mod_unique (zev r sz)); [left; exact L1|left; exact L2|]. rewrite !(Z.mul_comm (zev r sz)). exact D. }
    split; [exact EI|]. rewrite O1, O2. apply N2Z.inj in EO. rewrite EO. reflexivity.
  - destruct (special_extent _ _ _ _ _ _ _ _ A P) as (sz & I1 & X1 & _). exfalso. exact (proj2 Q _ I1 X1).
  - destruct (special_extent _ _ _ _ _ _ _ _ A Q) as (sz & I1 & X1 & _). exfalso. exact (proj2 P _ I1 X1).
  - destruct P as [P _], Q as [Q _]. cbn [same_place]. lia.
Qed.
