(** * Values in specifications: arithmetic, structures, headers, existence

    Models tool/klint/verif/value_proxy.py 49-77 ([ValueProxy._op]) and
    tool/klint/verif/spec_prefix.py 29-66 (structures), 82-85 ([exists]), 262-296
    (packet headers). *)

From Coq Require Import NArith ZArith List Bool Lia Arith.
From Verif Require Import Expr Solver.
Import ListNotations.
Open Scope N_scope.

(** ** Arithmetic, value_proxy.py 49-77 and 127-186 *)

(** The operators of lines 127-186; [Oradd] and the like are the reflected forms,
    called when the left operand is a plain number. *)
Inductive oper :=
| Oand | Oor | Oeq | One | Olt | Ole | Ogt | Oge | Oadd | Osub | Omul | Odiv | Oshr | Oshl
| Orand | Oror | Oradd | Orsub | Ormul | Ordiv.

(** The operand: another specification value over a bit-vector, or a Python integer. *)
Inductive operand := PBv (e : bv) | PInt (z : Z).

Inductive opres := RBv (e : bv) | RBool (c : bexp).

(** Line 72: claripy's method of that name on operands of equal width; comparisons and
    division are unsigned, the right shift is [LShR]. *)
Definition claripy_op (o : oper) (a b : bv) : opres :=
  match o with
  | Oand => RBv (BvAnd a b) | Oor => RBv (BvOr a b)
  | Oeq => RBool (BEq a b) | One => RBool (BNe a b)
  | Olt => RBool (BUlt a b) | Ole => RBool (BUle a b)
  | Ogt => RBool (BUlt b a) | Oge => RBool (BUle b a)
  | Oadd => RBv (BvAdd a b) | Osub => RBv (BvSub a b) | Omul => RBv (BvMul a b)
  | Odiv => RBv (BvUdiv a b) | Oshr => RBv (BvLshr a b) | Oshl => RBv (BvShl a b)
  | Orand => RBv (BvAnd b a) | Oror => RBv (BvOr b a)
  | Oradd => RBv (BvAdd b a) | Orsub => RBv (BvSub b a) | Ormul => RBv (BvMul b a)
  | Ordiv => RBv (BvUdiv b a)
  end.

(** Lines 49-77, for a proxy over a bit-vector. Floats and proxies over Python values
    are left out. *)
Definition proxy_op (self : bv) (other : operand) (o : oper) : opres :=
  let other_value :=
    match other with
    | PBv e => e
    | PInt z => let w := N.max 8 (width self) in BVV w (Z.to_N (z mod 2 ^ Z.of_N w))
    end in
  if width other_value <? width self then
    claripy_op o self (BvZext (width self - width other_value) other_value)
  else if width self <? width other_value then
    match claripy_op o self (BvExtract (width self - 1) 0 other_value) with
    | RBv e => RBv (BvZext (width other_value - width e) e)
    | r => r
    end
  else claripy_op o self other_value.

(** What an operation on unsigned values of [w] bits means. *)
Inductive meaning := MNum (n : N) | MBool (b : bool).
Definition sub_w (w x y : N) : N := Z.to_N ((Z.of_N x - Z.of_N y) mod 2 ^ Z.of_N w).
Definition math (o : oper) (w x y : N) : meaning :=
  match o with
  | Oand | Orand => MNum (N.land x y)
  | Oor | Oror => MNum (N.lor x y)
  | Oeq => MBool (x =? y) | One => MBool (negb (x =? y))
  | Olt => MBool (x <? y) | Ole => MBool (x <=? y)
  | Ogt => MBool (y <? x) | Oge => MBool (y <=? x)
  | Oadd | Oradd => MNum ((x + y) mod 2 ^ w)
  | Osub => MNum (sub_w w x y) | Orsub => MNum (sub_w w y x)
  | Omul | Ormul => MNum ((x * y) mod 2 ^ w)
  | Odiv => MNum (x / y) | Ordiv => MNum (y / x)
  | Oshr => MNum (x / 2 ^ y)
  | Oshl => MNum ((x * 2 ^ y) mod 2 ^ w)
  end.
(** Division by zero has no meaning. *)
Definition defined (o : oper) (x y : N) : Prop :=
  match o with Odiv => y <> 0 | Ordiv => x <> 0 | _ => True end.

Definition value_of (r : env) (p : opres) : meaning :=
  match p with RBv e => MNum (ev r e) | RBool c => MBool (eb r c) end.

Lemma sub_wrap : forall w x y, x < 2 ^ w -> y < 2 ^ w -> wrap w (x + (2 ^ w - wrap w y)) = sub_w w x y.
Proof.
  intros w x y Hx Hy. rewrite (wrap_small w y Hy). unfold wrap, sub_w.
  assert (E : Z.of_N (2 ^ w) = (2 ^ Z.of_N w)%Z) by apply N2Z.inj_pow.
  rewrite <- E. apply N2Z.inj. rewrite N2Z.inj_mod, N2Z.inj_add, N2Z.inj_sub by lia.
  rewrite Z2N.id.
  2:{ apply Z.mod_pos_bound. pose proof (pow2_pos w). lia. }
  replace (Z.of_N x + (Z.of_N (2 ^ w) - Z.of_N y))%Z with (Z.of_N x - Z.of_N y + 1 * Z.of_N (2 ^ w))%Z by lia.
  apply Z.mod_add. pose proof (pow2_pos w). lia.
Qed.

Lemma land_lt : forall w x y, x < 2 ^ w -> y < 2 ^ w -> N.land x y < 2 ^ w.
Proof.
  intros w x y Hx Hy. destruct (N.eq_dec (N.land x y) 0) as [->|Hz]; [auto|].
  apply N.log2_lt_pow2; [lia|]. eapply N.le_lt_trans; [apply N.log2_land|].
  destruct (N.eq_dec x 0) as [->|Hx0]; [rewrite N.land_0_l in Hz; congruence|].
  apply N.min_lt_iff. left. apply N.log2_lt_pow2; lia.
Qed.
Lemma lor_lt : forall w x y, x < 2 ^ w -> y < 2 ^ w -> N.lor x y < 2 ^ w.
Proof.
  intros w x y Hx Hy. destruct (N.eq_dec (N.lor x y) 0) as [->|Hz]; [auto|].
  apply N.log2_lt_pow2; [lia|]. rewrite N.log2_lor. apply N.max_lub_lt.
  - destruct (N.eq_dec x 0) as [->|]; [|apply N.log2_lt_pow2; lia].
    destruct (N.eq_dec w 0) as [->|]; [|cbn; lia]. cbn in *. assert (y = 0) by lia. subst. destruct (Hz eq_refl).
  - destruct (N.eq_dec y 0) as [->|]; [|apply N.log2_lt_pow2; lia].
    destruct (N.eq_dec w 0) as [->|]; [|cbn; lia]. cbn in *. assert (x = 0) by lia. subst. destruct (Hz eq_refl).
Qed.

Lemma pow_big : forall w x y, x < 2 ^ w -> w <= y -> x / 2 ^ y = 0 /\ (x * 2 ^ y) mod 2 ^ w = 0.
Proof.
  intros w x y Hx Hy. split.
  - apply N.div_small. eapply N.lt_le_trans; [exact Hx|]. apply N.pow_le_mono_r; lia.
  - replace y with ((y - w) + w) by lia. rewrite N.pow_add_r, N.mul_assoc. apply N.mod_mul. auto.
Qed.

Lemma claripy_op_math : forall r o a b, width a = width b -> defined o (ev r a) (ev r b) ->
  value_of r (claripy_op o a b) = math o (width a) (ev r a) (ev r b).
Proof.
  intros r o a b Hw Hd. pose proof (evalv_lt lk0 r a) as Ha. pose proof (evalv_lt lk0 r b) as Hb.
  rewrite <- Hw in Hb.
  assert (Hdiv : forall x y, x < 2 ^ width a -> x / y < 2 ^ width a).
  { intros x y Hx. destruct (N.eq_dec y 0) as [->|Hy]; [destruct x; exact (pow2_pos _)|].
    eapply N.le_lt_trans; [|exact Hx]. apply N.div_le_upper_bound; [exact Hy|]. nia. }
  destruct o; cbn [claripy_op value_of math evalv evalb BNe]; rewrite <- ?Hw; try reflexivity; f_equal;
    try (apply wrap_small; first [apply land_lt|apply lor_lt]; assumption);
    try (apply sub_wrap; assumption).
  - cbn [defined] in Hd. rewrite (proj2 (N.eqb_neq _ _) Hd). apply wrap_small. auto.
  - destruct (N.leb_spec (width a) (ev r b)) as [L|L]; [|reflexivity].
    symmetry. apply (pow_big (width a)); assumption.
  - destruct (N.leb_spec (width a) (ev r b)) as [L|L]; [|reflexivity].
    symmetry. apply (pow_big (width a)); assumption.
  - rewrite N.land_comm. apply wrap_small. apply land_lt; assumption.
  - rewrite N.lor_comm. apply wrap_small. apply lor_lt; assumption.
  - rewrite N.add_comm. reflexivity.
  - rewrite N.mul_comm. reflexivity.
  - cbn [defined] in Hd. rewrite (proj2 (N.eqb_neq _ _) Hd). apply wrap_small. auto.
Qed.

(** The value of the right operand before it is cut to size. *)
Definition other_val (r : env) (self : bv) (other : operand) : Z :=
  match other with PBv e => Z.of_N (ev r e) | PInt z => z end.

Lemma proxy_op_math : forall r self other o y, 0 < width self ->
  other_val r self other = Z.of_N y -> y < 2 ^ width self -> defined o (ev r self) y ->
  value_of r (proxy_op self other o) = math o (width self) (ev r self) y.
Proof.
  intros r self other o y Hpos Hy Hlt Hd. unfold proxy_op.
  set (ov := match other with PBv e => e | PInt z => BVV (N.max 8 (width self)) (Z.to_N (z mod 2 ^ Z.of_N (N.max 8 (width self)))) end).
  assert (Hov : ev r ov = y).
  { destruct other as [e|z]; cbn [other_val] in Hy; subst ov.
    - lia.
    - cbn [evalv]. subst z. set (w := N.max 8 (width self)).
      assert (Hw : y < 2 ^ w) by (eapply N.lt_le_trans; [exact Hlt|apply N.pow_le_mono_r; subst w; lia]).
      rewrite Z.mod_small; [rewrite N2Z.id; apply wrap_small; exact Hw|].
      split; [lia|]. change 2%Z with (Z.of_N 2). rewrite <- N2Z.inj_pow. lia. }
  clearbody ov. clear Hy.
  destruct (N.ltb_spec (width ov) (width self)) as [L1|L1].
  - rewrite claripy_op_math; cbn [width evalv]; rewrite ?Hov; [reflexivity|lia|exact Hd].
  - destruct (N.ltb_spec (width self) (width ov)) as [L2|L2].
    + set (cut := BvExtract (width self - 1) 0 ov).
      assert (Hwc : width cut = width self) by (unfold cut; cbn [width]; lia).
      assert (Hvc : ev r cut = y).
      { unfold cut. cbn [evalv]. replace (width self - 1 + 1 - 0) with (width self) by lia.
        rewrite N.pow_0_r, N.div_1_r, Hov. apply wrap_small. exact Hlt. }
      clearbody cut.
      assert (E : value_of r (claripy_op o self cut) = math o (width self) (ev r self) y).
      { rewrite claripy_op_math; [rewrite Hvc; reflexivity|lia|rewrite Hvc; exact Hd]. }
      destruct (claripy_op o self cut) as [e|c]; exact E.
    + rewrite claripy_op_math; [rewrite Hov; reflexivity|lia|rewrite Hov; exact Hd].
Qed.

(** ** Structures, spec_prefix.py 29-66 *)

(** Named C types are their sizes in bits; a structure lists its fields in order. *)
Inductive ty := TBits (n : N) | TDict (fs : list (N * ty)).
(** Lines 29-34. *)
Fixpoint type_size (t : ty) : N :=
  match t with
  | TBits n => n
  | TDict fs => (fix go (l : list (N * ty)) := match l with [] => 0 | (_, t) :: l' => type_size t + go l' end) fs
  end.

(** A value: bits, or a structure with named members. *)
Inductive sval := VBits (e : bv) | VDict (fs : list (N * sval)).

(** Lines 40-43: the members are slices, lowest bits first; a member that is itself a
    structure stays as bits. *)
Fixpoint slices (value : bv) (fs : list (N * ty)) (offset : N) : list (N * sval) :=
  match fs with
  | [] => []
  | (k, t) :: fs' => (k, VBits (BvExtract (type_size t + offset - 1) offset value)) :: slices value fs' (offset + type_size t)
  end.
(** Lines 36-44. *)
Definition type_wrap (value : bv) (t : ty) : sval :=
  match t with TBits _ => VBits value | TDict fs => VDict (slices value fs 0) end.

(** Lines 57-63: the members joined, the first in the lowest bits. Joining a member
    that is a structure raises. *)
Fixpoint join (fs : list (N * sval)) (acc : bv) : res bv :=
  match fs with
  | [] => Ok acc
  | (_, VBits e) :: fs' => join fs' (BvConcat e acc)
  | (_, VDict _) :: _ => Err
  end.
Definition extend_to (n : N) (e : bv) : bv := if width e <? n then BvZext (n - width e) e else e.
(** Lines 46-66 with a size as the type, as map lookups call it (spec_prefix.py 136, 140). *)
Definition type_unwrap (value : sval) (n : N) : res bv :=
  match value with
  | VBits e => Ok (extend_to n e)
  | VDict [] => Err
  | VDict ((_, VDict _) :: _) => Err
  | VDict ((_, VBits e) :: fs) => do j <- join fs e; Ok (extend_to n j)
  end.

Lemma extend_ev : forall r n e, ev r (extend_to n e) = ev r e.
Proof. intros. unfold extend_to. destruct (width e <? n); reflexivity. Qed.

Fixpoint sizes (fs : list (N * ty)) : N := match fs with [] => 0 | (_, t) :: l => type_size t + sizes l end.
Lemma type_size_dict : forall fs, type_size (TDict fs) = sizes fs.
Proof. intros fs. cbn [type_size]. induction fs as [|[k t] fs IH]; cbn [sizes]; [reflexivity|]. rewrite IH. reflexivity. Qed.

(** Bits [lo .. lo+n) of a number. *)
Definition bits (v lo n : N) : N := v / 2 ^ lo mod 2 ^ n.

Lemma bits_split : forall v lo n m, bits v lo (n + m) = bits v (lo + n) m * 2 ^ n + bits v lo n.
Proof.
  intros. unfold bits. rewrite !N.pow_add_r.
  rewrite N.mod_mul_r by auto.
  rewrite <- N.div_div by auto. lia.
Qed.

Lemma mod_low : forall v a b, v mod 2 ^ (a + b) mod 2 ^ a = v mod 2 ^ a.
Proof.
  intros. rewrite N.pow_add_r, N.mod_mul_r by auto.
  rewrite (N.mul_comm (2 ^ a) (v / 2 ^ a mod 2 ^ b)), N.mod_add, N.mod_mod by auto. reflexivity.
Qed.
Lemma digits : forall p a b x y, x < p -> y < p -> a * p + x = b * p + y -> a = b /\ x = y.
Proof.
  intros p a b x y Hx Hy H. rewrite !(N.mul_comm _ p) in H.
  destruct (N.div_mod_unique p a b x y Hx Hy H). auto.
Qed.

Definition posfs (fs : list (N * ty)) : Prop := forall k t, In (k, t) fs -> 0 < type_size t.

Lemma join_slices : forall r value fs off acc, posfs fs -> ev r acc = bits (ev r value) 0 off -> width acc = off ->
  exists j, join (slices value fs off) acc = Ok j /\ ev r j = bits (ev r value) 0 (off + sizes fs) /\ width j = off + sizes fs.
Proof.
  induction fs as [|[k t] fs IH]; intros off acc Hp Ha Hw; cbn [slices join sizes].
  - exists acc. rewrite N.add_0_r. auto.
  - assert (Hk : 0 < type_size t) by (eapply Hp; left; reflexivity).
    destruct (IH (off + type_size t) (BvConcat (BvExtract (type_size t + off - 1) off value) acc)) as (j & H1 & H2 & H3).
    + intros k' t' Hin. eapply Hp. right. exact Hin.
    + cbn [evalv]. rewrite Hw, Ha. rewrite bits_split. rewrite N.add_0_l. f_equal. f_equal.
      unfold wrap, bits. do 2 f_equal. lia.
    + cbn [width]. lia.
    + exists j. rewrite N.add_assoc. auto.
Qed.

(** Splitting a value into the members of a type and joining them gives the value. *)
Lemma unwrap_wrap : forall r value fs n, posfs fs -> fs <> [] -> sizes fs = width value ->
  exists e, type_unwrap (type_wrap value (TDict fs)) n = Ok e /\ ev r e = ev r value.
Proof.
  intros r value fs n Hp Hne Hs. destruct fs as [|[k t] fs]; [congruence|]. cbn [type_wrap slices type_unwrap].
  assert (Hk : 0 < type_size t) by (eapply Hp; left; reflexivity).
  destruct (join_slices r value fs (0 + type_size t) (BvExtract (type_size t + 0 - 1) 0 value)) as (j & H1 & H2 & H3).
  - intros k' t' Hin. eapply Hp. right. exact Hin.
  - cbn [evalv]. unfold wrap, bits. do 2 f_equal. lia.
  - cbn [width]. lia.
  - rewrite H1. cbn [bindr]. exists (extend_to n j). split; [reflexivity|]. rewrite extend_ev, H2.
    cbn [sizes] in Hs. rewrite N.add_0_l, Hs. unfold bits. rewrite N.pow_0_r, N.div_1_r.
    apply N.mod_small. apply evalv_lt.
Qed.

(** Joining members of the declared widths and splitting again gives each member. *)
Fixpoint fits (vs : list (N * bv)) (fs : list (N * ty)) : Prop :=
  match vs, fs with
  | [], [] => True
  | (k, e) :: vs', (k', t) :: fs' => k = k' /\ width e = type_size t /\ fits vs' fs'
  | _, _ => False
  end.
Definition members (vs : list (N * bv)) : list (N * sval) := map (fun p => (fst p, VBits (snd p))) vs.
Fixpoint same_members (r : env) (vs : list (N * bv)) (d : list (N * sval)) : Prop :=
  match vs, d with
  | [], [] => True
  | (k, e) :: vs', (k', VBits e') :: d' => k = k' /\ ev r e' = ev r e /\ same_members r vs' d'
  | _, _ => False
  end.

Lemma join_members : forall r vs fs off acc, fits vs fs -> width acc = off ->
  exists j, join (members vs) acc = Ok j /\ width j = off + sizes fs /\ bits (ev r j) 0 off = ev r acc /\
    forall value, bits (ev r value) 0 (off + sizes fs) = ev r j -> posfs fs -> same_members r vs (slices value fs off).
Proof.
  intros r. induction vs as [|[k e] vs IH]; intros fs off acc Hf Hw; destruct fs as [|[k' t] fs]; cbn [fits] in Hf; try contradiction.
  - exists acc. cbn [members map join sizes slices same_members]. rewrite N.add_0_r. split; [reflexivity|]. split; [exact Hw|].
    split; [|auto]. unfold bits. rewrite N.pow_0_r, N.div_1_r. rewrite <- Hw. apply N.mod_small. apply evalv_lt.
  - destruct Hf as (-> & He & Hf). cbn [members map fst snd join sizes slices same_members].
    destruct (IH fs (off + type_size t) (BvConcat e acc) Hf) as (j & H1 & H2 & H3 & H4); [cbn [width]; lia|].
    exists j. split; [exact H1|]. split; [lia|].
    assert (Hc : bits (ev r j) 0 (off + type_size t) = ev r e * 2 ^ off + ev r acc).
    { rewrite H3. cbn [evalv]. rewrite Hw. reflexivity. }
    assert (Ha : ev r acc < 2 ^ off) by (rewrite <- Hw; apply evalv_lt).
    assert (Hlow : bits (ev r j) 0 off = ev r acc).
    { rewrite bits_split, N.add_0_l in Hc.
      assert (Hb : bits (ev r j) 0 off < 2 ^ off) by (apply N.mod_lt; auto).
      exact (proj2 (digits _ _ _ _ _ Hb Ha Hc)). }
    split; [exact Hlow|]. intros value Hv Hp. split; [reflexivity|]. split.
    + cbn [evalv]. unfold wrap.
      assert (Hk : 0 < type_size t) by (eapply Hp; left; reflexivity).
      replace (type_size t + off - 1 + 1 - off) with (type_size t) by lia.
      change (ev r value / 2 ^ off mod 2 ^ type_size t) with (bits (ev r value) off (type_size t)).
      assert (Hvlow : bits (ev r value) 0 (off + type_size t) = bits (ev r j) 0 (off + type_size t)).
      { rewrite <- Hv. unfold bits. rewrite N.pow_0_r, !N.div_1_r.
        rewrite N.add_assoc, mod_low. reflexivity. }
      rewrite Hc in Hvlow. rewrite bits_split, N.add_0_l in Hvlow.
      assert (Hb : bits (ev r value) 0 off < 2 ^ off) by (apply N.mod_lt; auto).
      exact (proj1 (digits _ _ _ _ _ Hb Ha Hvlow)).
    + apply H4; [rewrite <- Hv; f_equal; lia|]. intros k2 t2 Hin. eapply Hp. right. exact Hin.
Qed.

Lemma wrap_unwrap : forall r vs fs n, posfs fs -> fs <> [] -> fits vs fs -> sizes fs <= n ->
  exists e d, type_unwrap (VDict (members vs)) n = Ok e /\ width e = n /\
    type_wrap e (TDict fs) = VDict d /\ same_members r vs d.
Proof.
  intros r vs fs n Hp Hne Hf Hn. destruct vs as [|[k e] vs], fs as [|[k' t] fs]; cbn [fits] in Hf; try contradiction; try congruence.
  destruct Hf as (-> & He & Hf). cbn [members map fst snd type_unwrap].
  assert (Hp' : posfs fs) by (intros k2 t2 Hin; eapply Hp; right; exact Hin).
  assert (Hk : 0 < type_size t) by (eapply Hp; left; reflexivity).
  destruct (join_members r vs fs (type_size t) e Hf He) as (j & H1 & H2 & H3 & H4).
  fold (members vs). rewrite H1. cbn [bindr]. cbn [sizes] in Hn.
  exists (extend_to n j). eexists. split; [reflexivity|]. split.
  { unfold extend_to. destruct (N.ltb_spec (width j) n); cbn [width]; lia. }
  split; [reflexivity|]. cbn [slices same_members].
  assert (Hj : bits (ev r (extend_to n j)) 0 (type_size t + sizes fs) = ev r j).
  { rewrite extend_ev. unfold bits. rewrite N.pow_0_r, N.div_1_r, <- H2. apply N.mod_small. apply evalv_lt. }
  split; [reflexivity|]. split.
  - cbn [evalv]. unfold wrap. replace (type_size t + 0 - 1 + 1 - 0) with (type_size t) by lia.
    rewrite extend_ev. exact H3.
  - rewrite N.add_0_l. apply H4; assumption.
Qed.

(** ** Existence, spec_prefix.py 82-85

    [pred] is the predicate applied to the fresh symbol [x] of [w] bits. *)
Definition spec_exists (s : solver) (cs : list bexp) (w x : N) (pred : bv -> bexp) : bool :=
  sat s (pred (BVS w x) :: cs).

(** ** Packet headers, spec_prefix.py 262-296

    The packet is a map from byte indices to 8-bit chunks (the reads have been checked
    to be inside it). *)

(** Lines 281-292: read byte after byte until enough bits are there. The initial
    zero-width value is [None]. *)
Fixpoint read_chunks (fuel : nat) (chunk : N -> bv) (index need : N) (result : option bv) : res bv :=
  match fuel with
  | O => NoFuel
  | S f =>
      let have := match result with None => 0 | Some e => width e end in
      if have <? need then
        let e := match result with None => chunk index | Some e => BvConcat (chunk index) e end in
        read_chunks f chunk (index + 1) need (Some e)
      else match result with None => Err | Some e => Ok e end
  end.

(** Lines 269-296. [fields] lists the names and sizes in bits; [Err]: unknown attribute. *)
Fixpoint find_field (fields : list (N * N)) (attr offset : N) : res (N * N) :=
  match fields with
  | [] => Err
  | (name, sz) :: fs => if name =? attr then Ok (offset, sz) else find_field fs attr (offset + sz)
  end.
Definition header_get (chunk : N -> bv) (base : N) (fields : list (N * N)) (attr : N) : res bv :=
  do (offset, size) <- find_field fields attr base;
  let index := offset / 8 in
  let off := offset mod 8 in
  do result <- read_chunks (N.to_nat (size + off) + 1) chunk index (size + off) None;
  let result := if negb (off =? 0) then BvExtract (width result - 1) off result else result in
  Ok (if size <? width result then BvExtract (size - 1) 0 result else result).

(** The [j]-th bit of a packet, counting from the low end of byte 0. *)
Definition packet_bit (byte : N -> N) (j : N) : bool := N.testbit (byte (j / 8)) (j mod 8).

Lemma read_chunks_bits : forall r (chunk : N -> bv) need, (forall i, width (chunk i) = 8) ->
  forall fuel index e res0 start, (N.to_nat (need - width e) < fuel)%nat ->
  read_chunks fuel chunk index need (Some e) = res0 ->
  width e = 8 * (index - start) -> start < index ->
  (forall j, j < width e -> N.testbit (ev r e) j = packet_bit (fun i => ev r (chunk i)) (8 * start + j)) ->
  exists e', res0 = Ok e' /\ need <= width e' /\ width e' <= N.max (width e) (need + 7) /\
    forall j, j < width e' -> N.testbit (ev r e') j = packet_bit (fun i => ev r (chunk i)) (8 * start + j).
Proof.
  intros r chunk need Hc. induction fuel as [|fuel IH]; intros index e res0 start Hfuel Hr Hw Hs Hb; [lia|].
  cbn [read_chunks] in Hr. destruct (N.ltb_spec (width e) need) as [L|L].
  - apply IH with (start := start) in Hr.
    + destruct Hr as (e' & H1 & H2 & H3 & H4). exists e'. split; [exact H1|]. split; [exact H2|].
      split; [cbn [width] in H3; rewrite Hc in H3; lia|exact H4].
    + cbn [width]. rewrite Hc. lia.
    + cbn [width]. rewrite Hc. lia.
    + lia.
    + cbn [width evalv]. rewrite Hc. intros j Hj.
      pose proof (evalv_lt lk0 r e) as He. pose proof (evalv_lt lk0 r (chunk index)) as Hch.
      destruct (N.lt_ge_cases j (width e)) as [Lj|Lj].
      * rewrite <- Hb by exact Lj. rewrite <- (N.mod_pow2_bits_low _ (width e) j) by exact Lj.
        rewrite N.add_comm, N.mod_add by auto. rewrite N.mod_pow2_bits_low by exact Lj. reflexivity.
      * unfold packet_bit.
        assert (E1 : (8 * start + j) / 8 = index).
        { replace (8 * start + j) with ((j - width e) + index * 8) by lia.
          rewrite N.div_add by lia. rewrite N.div_small by lia. lia. }
        assert (E2 : (8 * start + j) mod 8 = j - width e).
        { replace (8 * start + j) with ((j - width e) + index * 8) by lia.
          rewrite N.mod_add by lia. apply N.mod_small. lia. }
        rewrite E1, E2.
        replace j with ((j - width e) + width e) at 1 by lia. rewrite <- N.div_pow2_bits.
        f_equal. rewrite N.div_add_l by auto. rewrite (N.div_small (ev r e)) by exact He. lia.
  - exists e. subst res0. split; [reflexivity|]. split; [lia|]. split; [lia|exact Hb].
Qed.

Lemma header_get_bits : forall r (chunk : N -> bv) base fields attr off size,
  (forall i, width (chunk i) = 8) ->
  find_field fields attr base = Ok (off, size) -> 0 < size ->
  exists e, header_get chunk base fields attr = Ok e /\ width e = size /\
    forall j, j < size -> N.testbit (ev r e) j = packet_bit (fun i => ev r (chunk i)) (off + j).
Proof.
  intros r chunk base fields attr off size Hc Hf Hpos. unfold header_get. rewrite Hf. cbn [bindr].
  set (o := off mod 8). assert (Ho : o < 8) by (apply N.mod_lt; lia).
  assert (Hoff : off = 8 * (off / 8) + o) by (apply N.div_mod; lia).
  assert (K : exists e', read_chunks (N.to_nat (size + o) + 1) chunk (off / 8) (size + o) None = Ok e' /\
     size + o <= width e' /\
     forall j, j < width e' -> N.testbit (ev r e') j = packet_bit (fun i => ev r (chunk i)) (8 * (off / 8) + j)).
  { replace (N.to_nat (size + o) + 1)%nat with (S (N.to_nat (size + o))) by lia. cbn [read_chunks].
    destruct (N.ltb_spec 0 (size + o)) as [L|L]; [|lia].
    destruct (read_chunks_bits r chunk (size + o) Hc (N.to_nat (size + o)) (off / 8 + 1) (chunk (off / 8)) _ (off / 8)
      ltac:(rewrite Hc; lia) eq_refl) as (e' & H1 & H2 & _ & H4).
    - rewrite Hc. lia.
    - lia.
    - rewrite Hc. intros j Hj. unfold packet_bit.
      replace (8 * (off / 8) + j) with (j + off / 8 * 8) by lia.
      rewrite N.div_add, N.mod_add by lia. rewrite (N.div_small j 8), (N.mod_small j 8) by lia. reflexivity.
    - exists e'. auto. }
  destruct K as (e' & -> & Hw & Hb). cbn [bindr].
  set (e2 := if negb (o =? 0) then BvExtract (width e' - 1) o e' else e').
  assert (H2 : size <= width e2 /\ forall j, j < width e2 -> N.testbit (ev r e2) j = packet_bit (fun i => ev r (chunk i)) (off + j)).
  { unfold e2. destruct (N.eqb_spec o 0) as [E|E]; cbn [negb].
    - split; [lia|]. intros j Hj. rewrite Hb by exact Hj. f_equal. lia.
    - cbn [width evalv]. replace (width e' - 1 + 1 - o) with (width e' - o) by lia. split; [lia|].
      intros j Hj. unfold wrap. rewrite N.mod_pow2_bits_low by exact Hj. rewrite N.div_pow2_bits.
      rewrite Hb by lia. f_equal. lia. }
  clearbody e2. destruct H2 as [Hs2 Hb2].
  eexists. split; [reflexivity|]. destruct (N.ltb_spec size (width e2)) as [L|L].
  - cbn [width evalv]. replace (size - 1 + 1 - 0) with size by lia. split; [lia|].
    intros j Hj. unfold wrap. rewrite N.mod_pow2_bits_low by exact Hj. rewrite N.pow_0_r, N.div_1_r. apply Hb2. lia.
  - assert (width e2 = size) as E by lia. split; [exact E|]. intros j Hj. apply Hb2. lia.
Qed.

(** ** The headers of spec_prefix.py 336-371

    Field names are numbers. *)
Definition F_dst := 1. Definition F_src := 2. Definition F_type := 3.
Definition F_ihl := 4. Definition F_version := 5. Definition F_dscp := 6. Definition F_ecn := 7.
Definition F_total_length := 8. Definition F_identification := 9. Definition F_flags := 10.
Definition F_fragment_offset := 11. Definition F_time_to_live := 12. Definition F_protocol := 13.
Definition F_checksum := 14.
(** Lines 336-342. *)
Definition ether_fields : list (N * N) := [(F_dst, 48); (F_src, 48); (F_type, 16)].
Definition ether_base : N := 0.
(** Lines 344-362. *)
Definition ipv4_fields : list (N * N) :=
  [(F_ihl, 4); (F_version, 4); (F_dscp, 6); (F_ecn, 2); (F_total_length, 16); (F_identification, 16);
   (F_flags, 3); (F_fragment_offset, 13); (F_time_to_live, 8); (F_protocol, 8); (F_checksum, 16);
   (F_src, 32); (F_dst, 32)].
Definition ipv4_base : N := 48 + 48 + 16.
(** Lines 364-371. *)
Definition tcpudp_fields : list (N * N) := [(F_src, 16); (F_dst, 16)].
Definition tcpudp_base : N := (48 + 48 + 16) + (8 + 8 + 16 + 16 + 16 + 8 + 8 + 16 + 32 + 32).

(** Bits of a packet as the protocols number them: from the high end of byte 0. *)
Definition wire_bit (byte : N -> N) (p : N) : bool := N.testbit (byte (p / 8)) (7 - p mod 8).

(** Where the [j]-th bit of a field of [n] bits at wire position [p] is: whole bytes
    keep their order (the first byte is the low one, as in memory), smaller fields are
    read as the number they encode. *)
Definition wire_pos (p n j : N) : N :=
  if n <? 8 then p + (n - 1 - j) else p + 8 * (j / 8) + (7 - j mod 8).

Definition reads_wire (base : N) (fields : list (N * N)) (attr p n : N) : Prop :=
  forall r (chunk : N -> bv), (forall i, width (chunk i) = 8) ->
  exists e, header_get chunk base fields attr = Ok e /\ width e = n /\
    forall j, j < n -> N.testbit (ev r e) j = wire_bit (fun i => ev r (chunk i)) (wire_pos p n j).

Lemma aligned_wire : forall base fields attr off n, find_field fields attr base = Ok (off, n) ->
  off mod 8 = 0 -> 8 <= n -> reads_wire base fields attr off n.
Proof.
  intros base fields attr off n Hf Ho Hn r chunk Hc.
  destruct (header_get_bits r chunk base fields attr off n Hc Hf ltac:(lia)) as (e & H1 & H2 & H3).
  exists e. split; [exact H1|]. split; [exact H2|]. intros j Hj. rewrite H3 by exact Hj.
  unfold packet_bit, wire_bit, wire_pos. rewrite (proj2 (N.ltb_ge n 8)) by lia.
  assert (E : off = 8 * (off / 8)) by (pose proof (N.div_mod off 8 ltac:(lia)); lia).
  set (a := off / 8) in *. clearbody a.
  assert (Hm : j mod 8 < 8) by (apply N.mod_lt; lia).
  assert (E1 : (off + j) / 8 = a + j / 8).
  { rewrite E, (N.mul_comm 8 a), N.div_add_l by lia. reflexivity. }
  assert (E2 : (off + j) mod 8 = j mod 8).
  { rewrite E, (N.mul_comm 8 a), N.add_comm, N.mod_add by lia. reflexivity. }
  set (q := j / 8) in *. set (m := j mod 8) in *. clearbody q m.
  assert (E3 : (off + 8 * q + (7 - m)) / 8 = a + q).
  { replace (off + 8 * q + (7 - m)) with ((7 - m) + (a + q) * 8) by lia.
    rewrite N.div_add by lia. rewrite (N.div_small (7 - m)) by lia. lia. }
  assert (E4 : (off + 8 * q + (7 - m)) mod 8 = 7 - m).
  { replace (off + 8 * q + (7 - m)) with ((7 - m) + (a + q) * 8) by lia.
    rewrite N.mod_add by lia. apply N.mod_small. lia. }
  rewrite E1, E2, E3, E4. f_equal. lia.
Qed.

(** A field of [n] bits inside one byte, read from bit [off] on, is the wire field at [p]. *)
Lemma nibble_wire : forall base fields attr off n p, find_field fields attr base = Ok (off, n) ->
  0 < n -> n < 8 -> off / 8 = p / 8 -> off mod 8 + n + p mod 8 = 8 ->
  reads_wire base fields attr p n.
Proof.
  intros base fields attr off n p Hf Hn Hn8 Hd Hm r chunk Hc.
  destruct (header_get_bits r chunk base fields attr off n Hc Hf Hn) as (e & H1 & H2 & H3).
  exists e. split; [exact H1|]. split; [exact H2|]. intros j Hj. rewrite H3 by exact Hj.
  unfold packet_bit, wire_bit, wire_pos. rewrite (proj2 (N.ltb_lt n 8)) by lia.
  pose proof (N.div_mod off 8 ltac:(lia)) as Eo. pose proof (N.div_mod p 8 ltac:(lia)) as Ep.
  rewrite <- Hd in Ep. set (a := off / 8) in *. set (b := off mod 8) in *. set (c := p mod 8) in *.
  clearbody a b c.
  assert (E1 : (off + j) / 8 = a) by (replace (off + j) with ((b + j) + a * 8) by lia; rewrite N.div_add, N.div_small by lia; lia).
  assert (E2 : (off + j) mod 8 = b + j) by (replace (off + j) with ((b + j) + a * 8) by lia; rewrite N.mod_add, N.mod_small by lia; lia).
  assert (E3 : (p + (n - 1 - j)) / 8 = a) by (replace (p + (n - 1 - j)) with ((c + (n - 1 - j)) + a * 8) by lia; rewrite N.div_add, N.div_small by lia; lia).
  assert (E4 : (p + (n - 1 - j)) mod 8 = c + (n - 1 - j)) by (replace (p + (n - 1 - j)) with ((c + (n - 1 - j)) + a * 8) by lia; rewrite N.mod_add, N.mod_small by lia; lia).
  rewrite E1, E2, E3, E4. f_equal. lia.
Qed.
