(** * Symbolic expressions

    Deep embedding of the claripy expressions that klint builds and inspects.
    Models the expression constructors used in tool/kalm/utils.py 72-323,
    tool/klint/ghostmaps.py 38-462 and tool/klint/heap.py.

    Simplifications, stated once here:
    - claripy's n-ary [__add__]/[Concat] nodes are binary trees here; functions
      that look at [.args] of such a node flatten the tree first ([add_args]);
    - variables are numbers instead of strings; a claripy BVS/BoolS is unique by its
      name, so identity of the number is identity of the symbol;
    - division by zero follows SMT-LIB (all ones / the dividend), as Z3 does. *)

From Coq Require Import NArith List Bool Lia Arith.
Import ListNotations.
Open Scope N_scope.

(** [map] inside MapGet/MapHas nodes is the object identifier
    (tool/klint/ghostmaps.py 48-52); [ver] is the optional frozen version. *)
Inductive bv : Type :=
| BVV (w : N) (v : N)                  (* claripy.BVV(v, w) *)
| BVS (w : N) (x : N)                  (* claripy.BVS *)
| BvAdd (a b : bv)
| BvSub (a b : bv)
| BvMul (a b : bv)
| BvUdiv (a b : bv)
| BvUrem (a b : bv)
| BvAnd (a b : bv)
| BvOr (a b : bv)
| BvXor (a b : bv)
| BvShl (a b : bv)
| BvLshr (a b : bv)
| BvConcat (a b : bv)                  (* a.concat(b): b in the low bits *)
| BvExtract (hi lo : N) (a : bv)       (* a[hi:lo] *)
| BvZext (n : N) (a : bv)              (* a.zero_extend(n) *)
| BvIte (c : bexp) (a b : bv)          (* claripy.If *)
| MapGet (m : N) (k : bv) (vs : N) (ver : option nat)
with bexp : Type :=
| BTrue
| BFalse
| BoolS (x : N)
| BNot (a : bexp)
| BAnd (a b : bexp)
| BOr (a b : bexp)
| BIff (a b : bexp)                    (* bool == bool *)
| BEq (a b : bv)
| BUlt (a b : bv)
| BUle (a b : bv)
| BIteB (c a b : bexp)                 (* claripy.If on booleans *)
| MapHas (m : N) (k : bv) (ver : option nat)
| MapHasV (m : N) (k v : bv) (ver : option nat).

Scheme bv_mind := Induction for bv Sort Prop
  with bexp_mind := Induction for bexp Sort Prop.
Combined Scheme expr_mind from bv_mind, bexp_mind.

(** ** Widths and evaluation *)

Fixpoint width (e : bv) : N :=
  match e with
  | BVV w _ => w
  | BVS w _ => w
  | BvAdd a _ | BvSub a _ | BvMul a _ | BvUdiv a _ | BvUrem a _
  | BvAnd a _ | BvOr a _ | BvXor a _ | BvShl a _ | BvLshr a _ => width a
  | BvConcat a b => width a + width b
  | BvExtract hi lo _ => hi + 1 - lo
  | BvZext n a => n + width a
  | BvIte _ a _ => width a
  | MapGet _ _ vs _ => vs
  end.

Definition wrap (w v : N) : N := v mod 2 ^ w.

(** An assignment of the symbols. *)
Record env := mkEnv { ebv : N -> N; ebool : N -> bool }.

(** The meaning of map lookups that are still inside a predicate: what the map
    [m] (at the frozen version, if any) holds for a key. *)
Definition lookups := N -> option nat -> N -> N * bool.

(** No lookups left: what the path constraints are evaluated with. *)
Definition lk0 : lookups := fun _ _ _ => (0, false).

Fixpoint evalv (lk : lookups) (r : env) (e : bv) : N :=
  match e with
  | BVV w v => wrap w v
  | BVS w x => wrap w (ebv r x)
  | BvAdd a b => wrap (width a) (evalv lk r a + evalv lk r b)
  | BvSub a b => wrap (width a) (evalv lk r a + (2 ^ width a - wrap (width a) (evalv lk r b)))
  | BvMul a b => wrap (width a) (evalv lk r a * evalv lk r b)
  | BvUdiv a b => wrap (width a)
      (if evalv lk r b =? 0 then 2 ^ width a - 1 else evalv lk r a / evalv lk r b)
  | BvUrem a b => wrap (width a)
      (if evalv lk r b =? 0 then evalv lk r a else evalv lk r a mod evalv lk r b)
  | BvAnd a b => wrap (width a) (N.land (evalv lk r a) (evalv lk r b))
  | BvOr a b => wrap (width a) (N.lor (evalv lk r a) (evalv lk r b))
  | BvXor a b => wrap (width a) (N.lxor (evalv lk r a) (evalv lk r b))
  | BvShl a b =>
      if width a <=? evalv lk r b then 0
      else wrap (width a) (evalv lk r a * 2 ^ evalv lk r b)
  | BvLshr a b =>
      if width a <=? evalv lk r b then 0 else evalv lk r a / 2 ^ evalv lk r b
  | BvConcat a b => evalv lk r a * 2 ^ width b + evalv lk r b
  | BvExtract hi lo a => wrap (hi + 1 - lo) (evalv lk r a / 2 ^ lo)
  | BvZext n a => evalv lk r a
  | BvIte c a b => wrap (width a) (if evalb lk r c then evalv lk r a else evalv lk r b)
  | MapGet m k vs ver => wrap vs (fst (lk m ver (evalv lk r k)))
  end
with evalb (lk : lookups) (r : env) (e : bexp) : bool :=
  match e with
  | BTrue => true
  | BFalse => false
  | BoolS x => ebool r x
  | BNot a => negb (evalb lk r a)
  | BAnd a b => evalb lk r a && evalb lk r b
  | BOr a b => evalb lk r a || evalb lk r b
  | BIff a b => Bool.eqb (evalb lk r a) (evalb lk r b)
  | BEq a b => evalv lk r a =? evalv lk r b
  | BUlt a b => evalv lk r a <? evalv lk r b
  | BUle a b => evalv lk r a <=? evalv lk r b
  | BIteB c a b => if evalb lk r c then evalb lk r a else evalb lk r b
  | MapHas m k ver => snd (lk m ver (evalv lk r k))
  | MapHasV m k v ver =>
      snd (lk m ver (evalv lk r k)) && (fst (lk m ver (evalv lk r k)) =? evalv lk r v)
  end.

(** Path constraints and everything handed to the solver contain no lookups. *)
Notation ev := (evalv lk0).
Notation eb := (evalb lk0).

(** Implies of tool/klint/ghostmaps.py 38-39. *)
Definition BImp (a b : bexp) : bexp := BOr (BNot a) b.
(** [a != b] *)
Definition BNe (a b : bv) : bexp := BNot (BEq a b).
(** claripy.And over a list (empty: true). *)
Definition BAndL (l : list bexp) : bexp := fold_right BAnd BTrue l.
Definition BOrL (l : list bexp) : bexp := fold_right BOr BFalse l.

Lemma pow2_pos : forall w, 0 < 2 ^ w.
Proof. intros. apply N.neq_0_lt_0. apply N.pow_nonzero. lia. Qed.
Lemma pow2_ne : forall w, 2 ^ w <> 0.
Proof. intros. apply N.pow_nonzero. lia. Qed.
#[export] Hint Resolve pow2_pos pow2_ne : core.

Lemma wrap_lt : forall w v, wrap w v < 2 ^ w.
Proof. intros. apply N.mod_lt. auto. Qed.
Lemma wrap_small : forall w v, v < 2 ^ w -> wrap w v = v.
Proof. intros. apply N.mod_small. auto. Qed.
Lemma wrap_wrap : forall w v, wrap w (wrap w v) = wrap w v.
Proof. intros. apply wrap_small, wrap_lt. Qed.

Lemma div_pow2_lt : forall a w n, a < 2 ^ w -> a / 2 ^ n < 2 ^ w.
Proof.
  intros. eapply N.le_lt_trans; [|exact H].
  apply N.div_le_upper_bound; auto.
  assert (1 <= 2 ^ n) by (pose proof (pow2_pos n); lia).
  nia.
Qed.

(** Every expression evaluates below two to its width. *)
Lemma evalv_lt : forall lk r e, evalv lk r e < 2 ^ width e.
Proof.
  intros lk r. induction e; cbn [evalv width]; try apply wrap_lt.
  - destruct (N.leb_spec (width e1) (evalv lk r e2)); auto using wrap_lt.
  - destruct (N.leb_spec (width e1) (evalv lk r e2)); auto using wrap_lt, div_pow2_lt.
  - rewrite N.pow_add_r. nia.
  - rewrite N.pow_add_r. pose proof (pow2_pos n). nia.
Qed.

Lemma evalb_BImp : forall lk r a b, evalb lk r (BImp a b) = implb (evalb lk r a) (evalb lk r b).
Proof. intros. cbn. destruct (evalb lk r a); reflexivity. Qed.

Lemma BImp_true : forall lk r a b,
  evalb lk r (BImp a b) = true <-> (evalb lk r a = true -> evalb lk r b = true).
Proof. intros. rewrite evalb_BImp. destruct (evalb lk r a), (evalb lk r b); cbn; intuition congruence. Qed.

Lemma BNe_true : forall lk r a b, evalb lk r (BNe a b) = true <-> evalv lk r a <> evalv lk r b.
Proof. intros. cbn. rewrite negb_true_iff, N.eqb_neq. tauto. Qed.

Lemma BEq_true : forall lk r a b, evalb lk r (BEq a b) = true <-> evalv lk r a = evalv lk r b.
Proof. intros. cbn. apply N.eqb_eq. Qed.

Lemma BAndL_true : forall lk r l,
  evalb lk r (BAndL l) = true <-> (forall c, In c l -> evalb lk r c = true).
Proof.
  induction l as [|a l IH]; cbn; [tauto|].
  rewrite andb_true_iff, IH. split.
  - intros [? ?] c [<-|?]; auto.
  - intros H. split; auto.
Qed.

Lemma BOrL_true : forall lk r l,
  evalb lk r (BOrL l) = true <-> (exists c, In c l /\ evalb lk r c = true).
Proof.
  induction l as [|a l IH]; cbn.
  - split; [discriminate|intros [? [[] _]]].
  - rewrite orb_true_iff, IH. split.
    + intros [?|[c [? ?]]]; eauto.
    + intros [c [[<-|?] ?]]; eauto.
Qed.

(** ** Structural equality ([structurally_match]) *)

Definition onat_eqb (a b : option nat) : bool :=
  match a, b with
  | None, None => true
  | Some x, Some y => Nat.eqb x y
  | _, _ => false
  end.

Fixpoint bv_eqb (a b : bv) : bool :=
  match a, b with
  | BVV w v, BVV w' v' => (w =? w') && (v =? v')
  | BVS w x, BVS w' x' => (w =? w') && (x =? x')
  | BvAdd a b, BvAdd a' b' | BvSub a b, BvSub a' b' | BvMul a b, BvMul a' b'
  | BvUdiv a b, BvUdiv a' b' | BvUrem a b, BvUrem a' b'
  | BvAnd a b, BvAnd a' b' | BvOr a b, BvOr a' b' | BvXor a b, BvXor a' b'
  | BvShl a b, BvShl a' b' | BvLshr a b, BvLshr a' b'
  | BvConcat a b, BvConcat a' b' => bv_eqb a a' && bv_eqb b b'
  | BvExtract h l a, BvExtract h' l' a' => (h =? h') && (l =? l') && bv_eqb a a'
  | BvZext n a, BvZext n' a' => (n =? n') && bv_eqb a a'
  | BvIte c a b, BvIte c' a' b' => bexp_eqb c c' && bv_eqb a a' && bv_eqb b b'
  | MapGet m k vs ver, MapGet m' k' vs' ver' =>
      (m =? m') && bv_eqb k k' && (vs =? vs') && onat_eqb ver ver'
  | _, _ => false
  end
with bexp_eqb (a b : bexp) : bool :=
  match a, b with
  | BTrue, BTrue => true
  | BFalse, BFalse => true
  | BoolS x, BoolS y => x =? y
  | BNot a, BNot a' => bexp_eqb a a'
  | BAnd a b, BAnd a' b' | BOr a b, BOr a' b' | BIff a b, BIff a' b' => bexp_eqb a a' && bexp_eqb b b'
  | BEq a b, BEq a' b' | BUlt a b, BUlt a' b' | BUle a b, BUle a' b' => bv_eqb a a' && bv_eqb b b'
  | BIteB c a b, BIteB c' a' b' => bexp_eqb c c' && bexp_eqb a a' && bexp_eqb b b'
  | MapHas m k ver, MapHas m' k' ver' => (m =? m') && bv_eqb k k' && onat_eqb ver ver'
  | MapHasV m k v ver, MapHasV m' k' v' ver' =>
      (m =? m') && bv_eqb k k' && bv_eqb v v' && onat_eqb ver ver'
  | _, _ => false
  end.

Lemma onat_eqb_eq : forall a b, onat_eqb a b = true <-> a = b.
Proof.
  destruct a, b; cbn; try rewrite Nat.eqb_eq; split; intros; try congruence; reflexivity.
Qed.

Lemma expr_eqb_sound :
  (forall a b, bv_eqb a b = true -> a = b) /\ (forall a b, bexp_eqb a b = true -> a = b).
Proof.
  apply expr_mind; intros;
  match goal with
  | H : bv_eqb _ ?b = true |- _ = ?b => destruct b; cbn in H; try discriminate H
  | H : bexp_eqb _ ?b = true |- _ = ?b => destruct b; cbn in H; try discriminate H
  end;
  repeat match goal with
  | H : _ && _ = true |- _ => apply andb_prop in H; destruct H
  end;
  repeat match goal with
  | H : (_ =? _) = true |- _ => apply N.eqb_eq in H; subst
  | H : onat_eqb _ _ = true |- _ => apply onat_eqb_eq in H; subst
  | IH : forall b, bv_eqb ?a b = true -> ?a = b, H : bv_eqb ?a _ = true |- _ => apply IH in H; subst
  | IH : forall b, bexp_eqb ?a b = true -> ?a = b, H : bexp_eqb ?a _ = true |- _ => apply IH in H; subst
  end; reflexivity.
Qed.

Lemma expr_eqb_refl : (forall a, bv_eqb a a = true) /\ (forall a, bexp_eqb a a = true).
Proof.
  assert (R : forall o, onat_eqb o o = true) by (intros; apply onat_eqb_eq; reflexivity).
  apply expr_mind; intros; cbn;
  repeat match goal with
  | H : bv_eqb ?a ?a = true |- _ => rewrite H; clear H
  | H : bexp_eqb ?a ?a = true |- _ => rewrite H; clear H
  end; rewrite ?N.eqb_refl, ?R; reflexivity.
Qed.

Lemma bv_eqb_eq : forall a b, bv_eqb a b = true <-> a = b.
Proof. split; [apply expr_eqb_sound|intros ->; apply expr_eqb_refl]. Qed.
Lemma bexp_eqb_eq : forall a b, bexp_eqb a b = true <-> a = b.
Proof. split; [apply expr_eqb_sound|intros ->; apply expr_eqb_refl]. Qed.

Lemma bv_eqb_neq : forall a b, bv_eqb a b = false <-> a <> b.
Proof.
  intros. rewrite <- bv_eqb_eq. destruct (bv_eqb a b); split; congruence.
Qed.

(** ** Variables *)

(** Bit-vector symbols, with the width they are used at. *)
Fixpoint vvars (e : bv) : list (N * N) :=
  match e with
  | BVV _ _ => []
  | BVS w x => [(x, w)]
  | BvAdd a b | BvSub a b | BvMul a b | BvUdiv a b | BvUrem a b
  | BvAnd a b | BvOr a b | BvXor a b | BvShl a b | BvLshr a b
  | BvConcat a b => vvars a ++ vvars b
  | BvExtract _ _ a | BvZext _ a => vvars a
  | BvIte c a b => bvvars c ++ vvars a ++ vvars b
  | MapGet _ k _ _ => vvars k
  end
with bvvars (e : bexp) : list (N * N) :=
  match e with
  | BTrue | BFalse | BoolS _ => []
  | BNot a => bvvars a
  | BAnd a b | BOr a b | BIff a b => bvvars a ++ bvvars b
  | BEq a b | BUlt a b | BUle a b => vvars a ++ vvars b
  | BIteB c a b => bvvars c ++ bvvars a ++ bvvars b
  | MapHas _ k _ => vvars k
  | MapHasV _ k v _ => vvars k ++ vvars v
  end.

(** Boolean symbols. *)
Fixpoint vbools (e : bv) : list N :=
  match e with
  | BVV _ _ | BVS _ _ => []
  | BvAdd a b | BvSub a b | BvMul a b | BvUdiv a b | BvUrem a b
  | BvAnd a b | BvOr a b | BvXor a b | BvShl a b | BvLshr a b
  | BvConcat a b => vbools a ++ vbools b
  | BvExtract _ _ a | BvZext _ a => vbools a
  | BvIte c a b => bbools c ++ vbools a ++ vbools b
  | MapGet _ k _ _ => vbools k
  end
with bbools (e : bexp) : list N :=
  match e with
  | BTrue | BFalse => []
  | BoolS x => [x]
  | BNot a => bbools a
  | BAnd a b | BOr a b | BIff a b => bbools a ++ bbools b
  | BEq a b | BUlt a b | BUle a b => vbools a ++ vbools b
  | BIteB c a b => bbools c ++ bbools a ++ bbools b
  | MapHas _ k _ => vbools k
  | MapHasV _ k v _ => vbools k ++ vbools v
  end.

(** claripy's [.symbolic]: at least one symbol occurs. *)
Definition symbolic (e : bv) : bool :=
  match vvars e, vbools e with [], [] => false | _, _ => true end.

(** Two assignments agreeing on an expression's symbols give it the same value. *)
Definition agree_on (vs : list (N * N)) (bs : list N) (r1 r2 : env) : Prop :=
  (forall x w, In (x, w) vs -> wrap w (ebv r1 x) = wrap w (ebv r2 x)) /\
  (forall x, In x bs -> ebool r1 x = ebool r2 x).

Lemma agree_app_l : forall v1 v2 b1 b2 r1 r2,
  agree_on (v1 ++ v2) (b1 ++ b2) r1 r2 -> agree_on v1 b1 r1 r2.
Proof. intros * [H1 H2]. split; intros; [apply H1|apply H2]; apply in_or_app; auto. Qed.
Lemma agree_app_r : forall v1 v2 b1 b2 r1 r2,
  agree_on (v1 ++ v2) (b1 ++ b2) r1 r2 -> agree_on v2 b2 r1 r2.
Proof. intros * [H1 H2]. split; intros; [apply H1|apply H2]; apply in_or_app; auto. Qed.

Lemma eval_agree : forall lk r1 r2,
  (forall e, agree_on (vvars e) (vbools e) r1 r2 -> evalv lk r1 e = evalv lk r2 e) /\
  (forall e, agree_on (bvvars e) (bbools e) r1 r2 -> evalb lk r1 e = evalb lk r2 e).
Proof.
  intros lk r1 r2. apply expr_mind; intros; cbn [evalv evalb vvars bvvars vbools bbools] in *;
  repeat match goal with
  | H : agree_on (_ ++ _) (_ ++ _) _ _ |- _ =>
      let h := fresh in pose proof (agree_app_l _ _ _ _ _ _ H) as h; apply agree_app_r in H
  end;
  repeat match goal with
  | IH : agree_on ?v ?b _ _ -> _, H : agree_on ?v ?b _ _ |- _ => specialize (IH H); clear H
  end;
  try (match goal with
  | H : agree_on [(_, _)] _ _ _ |- _ => apply (proj1 H); left; reflexivity
  | H : agree_on _ [_] _ _ |- _ => apply (proj2 H); left; reflexivity
  end);
  repeat match goal with
  | IH : evalv lk r1 ?e = _ |- _ => rewrite IH; clear IH
  | IH : evalb lk r1 ?e = _ |- _ => rewrite IH; clear IH
  end; reflexivity.
Qed.

Definition evalv_agree lk r1 r2 := proj1 (eval_agree lk r1 r2).
Definition evalb_agree lk r1 r2 := proj2 (eval_agree lk r1 r2).

(** ** Substitution *)

Record subst := mkSubst { sv : N -> N -> bv; sb : N -> bexp }.

Fixpoint substv (s : subst) (e : bv) : bv :=
  match e with
  | BVV w v => BVV w v
  | BVS w x => sv s w x
  | BvAdd a b => BvAdd (substv s a) (substv s b)
  | BvSub a b => BvSub (substv s a) (substv s b)
  | BvMul a b => BvMul (substv s a) (substv s b)
  | BvUdiv a b => BvUdiv (substv s a) (substv s b)
  | BvUrem a b => BvUrem (substv s a) (substv s b)
  | BvAnd a b => BvAnd (substv s a) (substv s b)
  | BvOr a b => BvOr (substv s a) (substv s b)
  | BvXor a b => BvXor (substv s a) (substv s b)
  | BvShl a b => BvShl (substv s a) (substv s b)
  | BvLshr a b => BvLshr (substv s a) (substv s b)
  | BvConcat a b => BvConcat (substv s a) (substv s b)
  | BvExtract h l a => BvExtract h l (substv s a)
  | BvZext n a => BvZext n (substv s a)
  | BvIte c a b => BvIte (substb s c) (substv s a) (substv s b)
  | MapGet m k vs ver => MapGet m (substv s k) vs ver
  end
with substb (s : subst) (e : bexp) : bexp :=
  match e with
  | BTrue => BTrue
  | BFalse => BFalse
  | BoolS x => sb s x
  | BNot a => BNot (substb s a)
  | BAnd a b => BAnd (substb s a) (substb s b)
  | BOr a b => BOr (substb s a) (substb s b)
  | BIff a b => BIff (substb s a) (substb s b)
  | BEq a b => BEq (substv s a) (substv s b)
  | BUlt a b => BUlt (substv s a) (substv s b)
  | BUle a b => BUle (substv s a) (substv s b)
  | BIteB c a b => BIteB (substb s c) (substb s a) (substb s b)
  | MapHas m k ver => MapHas m (substv s k) ver
  | MapHasV m k v ver => MapHasV m (substv s k) (substv s v) ver
  end.

(** A substitution that keeps widths is interpreted by the assignment it induces. *)
Definition subst_ok (lk : lookups) (s : subst) (r r' : env) (vs : list (N * N)) (bs : list N) : Prop :=
  (forall x w, In (x, w) vs -> width (sv s w x) = w /\ evalv lk r (sv s w x) = wrap w (ebv r' x)) /\
  (forall x, In x bs -> evalb lk r (sb s x) = ebool r' x).

Lemma subst_ok_app_l : forall lk s r r' v1 v2 b1 b2,
  subst_ok lk s r r' (v1 ++ v2) (b1 ++ b2) -> subst_ok lk s r r' v1 b1.
Proof. intros * [H1 H2]. split; intros; [apply H1|apply H2]; apply in_or_app; auto. Qed.
Lemma subst_ok_app_r : forall lk s r r' v1 v2 b1 b2,
  subst_ok lk s r r' (v1 ++ v2) (b1 ++ b2) -> subst_ok lk s r r' v2 b2.
Proof. intros * [H1 H2]. split; intros; [apply H1|apply H2]; apply in_or_app; auto. Qed.

Lemma eval_subst : forall lk s r r',
  (forall e, subst_ok lk s r r' (vvars e) (vbools e) ->
     width (substv s e) = width e /\ evalv lk r (substv s e) = evalv lk r' e) /\
  (forall e, subst_ok lk s r r' (bvvars e) (bbools e) ->
     evalb lk r (substb s e) = evalb lk r' e).
Proof.
  intros lk s r r'. apply expr_mind; intros;
  cbn [evalv evalb vvars bvvars vbools bbools substv substb width] in *;
  repeat match goal with
  | H : subst_ok _ _ _ _ (_ ++ _) (_ ++ _) |- _ =>
      let h := fresh in pose proof (subst_ok_app_l _ _ _ _ _ _ _ _ H) as h; apply subst_ok_app_r in H
  end;
  repeat match goal with
  | IH : subst_ok _ _ _ _ ?v ?b -> _, H : subst_ok _ _ _ _ ?v ?b |- _ => specialize (IH H); clear H
  end;
  unfold subst_ok in *; repeat match goal with H : _ /\ _ |- _ => destruct H end;
  try (match goal with
  | H : forall x w, In (x, w) [(_, _)] -> _ |- _ => apply H; left; reflexivity
  | H : forall x, In x [_] -> _ |- _ => apply H; left; reflexivity
  end);
  repeat match goal with
  | IH : evalv lk r ?e = _ |- _ => rewrite IH; clear IH
  | IH : evalb lk r ?e = _ |- _ => rewrite IH; clear IH
  | IH : width (substv _ _) = _ |- _ => rewrite IH; clear IH
  end; auto.
Qed.

(** Expressions without map lookups ignore the lookup interpretation. *)
Fixpoint nolkv (e : bv) : bool :=
  match e with
  | BVV _ _ | BVS _ _ => true
  | BvAdd a b | BvSub a b | BvMul a b | BvUdiv a b | BvUrem a b
  | BvAnd a b | BvOr a b | BvXor a b | BvShl a b | BvLshr a b
  | BvConcat a b => nolkv a && nolkv b
  | BvExtract _ _ a | BvZext _ a => nolkv a
  | BvIte c a b => nolkb c && nolkv a && nolkv b
  | MapGet _ _ _ _ => false
  end
with nolkb (e : bexp) : bool :=
  match e with
  | BTrue | BFalse | BoolS _ => true
  | BNot a => nolkb a
  | BAnd a b | BOr a b | BIff a b => nolkb a && nolkb b
  | BEq a b | BUlt a b | BUle a b => nolkv a && nolkv b
  | BIteB c a b => nolkb c && nolkb a && nolkb b
  | MapHas _ _ _ | MapHasV _ _ _ _ => false
  end.

Lemma eval_nolk : forall lk1 lk2 r,
  (forall e, nolkv e = true -> evalv lk1 r e = evalv lk2 r e) /\
  (forall e, nolkb e = true -> evalb lk1 r e = evalb lk2 r e).
Proof.
  intros. apply expr_mind; intros; cbn [evalv evalb nolkv nolkb] in *; try discriminate;
  repeat match goal with
  | H : _ && _ = true |- _ => apply andb_prop in H; destruct H
  end;
  repeat match goal with
  | IH : ?b = true -> _, H : ?b = true |- _ => specialize (IH H); clear H
  end;
  repeat match goal with
  | IH : evalv lk1 r ?e = _ |- _ => rewrite IH; clear IH
  | IH : evalb lk1 r ?e = _ |- _ => rewrite IH; clear IH
  end; reflexivity.
Qed.
