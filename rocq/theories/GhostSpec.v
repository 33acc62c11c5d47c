(** * Real maps, and histories of map operations

    The specification side of the ghost-map theorems: what a program's map really
    contains and how the operations of the map interface change it. Nothing here
    mentions ghost maps except [srun], which runs the same history on the model. *)

From Coq Require Import NArith List Bool.
From Verif Require Import Expr Solver KMerge Wt GhostMap.
Import ListNotations.
Open Scope N_scope.

(** ** Histories *)

(** One call on the map interface. The expressions are templates: symbols below
    [nin] are inputs (packet fields, time, ...; 0 and 1, and the boolean 0, are the
    key, value and presence a predicate ranges over), symbol [nin + j] is the result
    of the [j]-th call. *)
Inductive op : Type :=
| OEmpty (m ks vs : N)
| ONew (m ks vs : N) (len : bv) (invs : list bexp)
| OArray (m ks vs : N) (len : alen)
| OGet (m : N) (key : bv)
| OSet (m : N) (key value : bv)
| ORemove (m : N) (key : bv)
| OForall (m : N) (pred : bexp)
| OAssume (c : bexp).

(** ** Real maps *)

(** What a real map holds: for every key a value and whether it is present (the
    value of an absent key is junk a program could at most copy around), the number
    of present keys, and, for stating which predicates are refuted by an observed
    key, the keys accessed so far. *)
Record cmap := mkC {
  cks : N; cvs : N; clw : N;
  ccont : N -> N * bool;
  csize : N;
  cseen : list N }.

Definition upd {A} (f : N -> A) (q : N) (x : A) : N -> A := fun y => if y =? q then x else f y.

(** [l] lists, once each, the keys present in a map's contents. *)
Definition card (ks : N) (C : N -> N * bool) (n : N) : Prop :=
  exists l, NoDup l /\ (forall q, In q l <-> q < 2 ^ ks /\ snd (C q) = true) /\ N.of_nat (length l) = n.

(** A predicate's key, value and presence given values. *)
Definition setKVP (r : env) (q : N) (vp : N * bool) : env :=
  mkEnv (fun x => if x =? 0 then q else if x =? 1 then fst vp else ebv r x)
        (fun x => if x =? 0 then snd vp else ebool r x).
Definition holds_at (r : env) (C : N -> N * bool) (p : bexp) (q : N) : Prop :=
  eb (setKVP r q (C q)) p = true.

(** Predicates use their key and value at the map's sizes. *)
Definition kv_sized (ks vs : N) (p : bexp) : bool :=
  forallb (fun p => if fst p =? 0 then snd p =? ks else if fst p =? 1 then snd p =? vs else true)
    (bvvars p).

(** State of a concrete run: the maps and the results so far (calls without a
    result give a dummy one). *)
Definition cst : Type := ((N -> option cmap) * list (N * bool))%type.

Section Concrete.
Variable inp : env.            (* the inputs *)
Variable nin : N.
Variable sz : N.               (* width of size_t *)

(** Inputs and results so far, as an assignment for the templates. *)
Definition tenv (res : list (N * bool)) : env :=
  mkEnv (fun x => if x <? nin then ebv inp x else fst (nth (N.to_nat (x - nin)) res (0, true)))
        (fun x => if x <? nin then ebool inp x else snd (nth (N.to_nat (x - nin)) res (0, true))).

Definition done : N * bool := (0, true).

Inductive cstep : cst -> op -> cst -> Prop :=
| c_empty : forall cm res m ks vs C,
    (forall q, fst (C q) < 2 ^ vs) ->
    (forall q, q < 2 ^ ks -> snd (C q) = false) ->
    cstep (cm, res) (OEmpty m ks vs) (upd cm m (Some (mkC ks vs sz C 0 [])), res ++ [done])
| c_new : forall cm res m ks vs len invs C,
    (forall q, fst (C q) < 2 ^ vs) ->
    card ks C (ev (tenv res) len) ->
    (forall p, In p invs -> kv_sized ks vs p = true) ->
    (forall p, In p invs -> forall q, q < 2 ^ ks -> holds_at (tenv res) C p q) ->
    cstep (cm, res) (ONew m ks vs len invs)
          (upd cm m (Some (mkC ks vs (width len) C (ev (tenv res) len) [])), res ++ [done])
| c_array_bv : forall cm res m ks vs e C,
    (forall q, fst (C q) < 2 ^ vs) ->
    width e = ks ->
    (forall q, q < 2 ^ ks -> snd (C q) = (q <? ev (tenv res) e)) ->
    cstep (cm, res) (OArray m ks vs (LBv e))
          (upd cm m (Some (mkC ks vs ks C (ev (tenv res) e) [])), res ++ [done])
| c_array_int : forall cm res m ks vs n C,
    (forall q, fst (C q) < 2 ^ vs) ->
    n < 2 ^ ks -> n < 2 ^ sz ->
    (forall q, q < 2 ^ ks -> snd (C q) = (q <? n)) ->
    cstep (cm, res) (OArray m ks vs (LInt n)) (upd cm m (Some (mkC ks vs sz C n [])), res ++ [done])
| c_get : forall cm res m key c,
    cm m = Some c -> width key = cks c ->
    let q := ev (tenv res) key in
    cstep (cm, res) (OGet m key)
          (upd cm m (Some (mkC (cks c) (cvs c) (clw c) (ccont c) (csize c) (q :: cseen c))),
           res ++ [ccont c q])
| c_set : forall cm res m key value c,
    cm m = Some c -> width key = cks c -> width value = cvs c ->
    let q := ev (tenv res) key in
    let n := if snd (ccont c q) then csize c else csize c + 1 in
    n < 2 ^ clw c ->
    cstep (cm, res) (OSet m key value)
          (upd cm m (Some (mkC (cks c) (cvs c) (clw c)
             (upd (ccont c) q (ev (tenv res) value, true)) n (q :: cseen c))),
           res ++ [done])
| c_remove : forall cm res m key c junk,
    cm m = Some c -> width key = cks c -> junk < 2 ^ cvs c ->
    let q := ev (tenv res) key in
    let n := if snd (ccont c q) then csize c - 1 else csize c in
    cstep (cm, res) (ORemove m key)
          (upd cm m (Some (mkC (cks c) (cvs c) (clw c)
             (upd (ccont c) q (junk, false)) n (q :: cseen c))),
           res ++ [done])
| c_forall : forall cm res m pred c b,
    cm m = Some c -> kv_sized (cks c) (cvs c) pred = true ->
    (b = true <-> forall q, q < 2 ^ cks c -> snd (ccont c q) = true -> holds_at (tenv res) (ccont c) pred q) ->
    cstep (cm, res) (OForall m pred) (cm, res ++ [(0, b)])
| c_assume : forall cm res c,
    eb (tenv res) c = true ->
    cstep (cm, res) (OAssume c) (cm, res ++ [done]).

(** Histories the representation can follow: [uk m] is a key of map [m] that is
    never written or removed, and a predicate that is false of the map is refuted by
    a key accessed before or by [uk m]. *)
Definition generic (uk : N -> N) (st : cst) (o : op) : Prop :=
  match o with
  | OEmpty m ks _ | ONew m ks _ _ _ | OArray m ks _ _ => uk m < 2 ^ ks
  | OSet m key _ | ORemove m key => ev (tenv (snd st)) key <> uk m
  | OForall m pred => forall c, fst st m = Some c ->
      (forall q, q < 2 ^ cks c -> snd (ccont c q) = true -> holds_at (tenv (snd st)) (ccont c) pred q) \/
      (exists q, (In q (cseen c) \/ q = uk m) /\ snd (ccont c q) = true /\
                 ~ holds_at (tenv (snd st)) (ccont c) pred q)
  | _ => True
  end.

Inductive crun (uk : N -> N) : cst -> list op -> cst -> Prop :=
| crun_nil : forall st, crun uk st [] st
| crun_cons : forall st o st1 os st2,
    generic uk st o -> cstep st o st1 -> crun uk st1 os st2 -> crun uk st (o :: os) st2.

End Concrete.

(** ** The same history on ghost maps *)

(** Results replace the result symbols of the templates. *)
Definition tsub (nin : N) (res : list (bv * bexp)) : subst :=
  mkSubst (fun w x => if x <? nin then BVS w x else fst (nth (N.to_nat (x - nin)) res (BVV w 0, BTrue)))
          (fun x => if x <? nin then BoolS x else snd (nth (N.to_nat (x - nin)) res (BVV 1 0, BTrue))).

(** Result symbols are used for results that exist, at their size; outside
    predicates, symbols start at [lo] = 2 (booleans at 1). No map lookups inside. *)
Definition tvar_ok (lo nin : N) (res : list (bv * bexp)) (p : N * N) : bool :=
  (lo <=? fst p) &&
  ((fst p <? nin) ||
   match nth_error res (N.to_nat (fst p - nin)) with Some v => width (fst v) =? snd p | None => false end).
Definition tbool_ok (lo nin : N) (res : list (bv * bexp)) (x : N) : bool :=
  (lo <=? x) && ((x <? nin) || match nth_error res (N.to_nat (x - nin)) with Some _ => true | None => false end).
Definition tv_ok (nin : N) (res : list (bv * bexp)) (e : bv) : bool :=
  nolkv e && forallb (tvar_ok 2 nin res) (vvars e) && forallb (tbool_ok 1 nin res) (vbools e).
Definition tb_ok (nin : N) (res : list (bv * bexp)) (e : bexp) : bool :=
  nolkb e && forallb (tvar_ok 2 nin res) (bvvars e) && forallb (tbool_ok 1 nin res) (bbools e).
Definition tp_ok (nin : N) (res : list (bv * bexp)) (e : bexp) : bool :=
  nolkb e && forallb (tvar_ok 0 nin res) (bvvars e) && forallb (tbool_ok 0 nin res) (bbools e).

Definition sst : Type := (gst * list (bv * bexp))%type.
Definition sdone : bv * bexp := (BVV 1 0, BTrue).
Definition guard {A} (b : bool) (r : res A) : res A := if b then r else Err.

Section Symbolic.
Variable s : solver.
Variable k : claripy.
Variable fuel : nat.
Variable nin : N.

Definition sstep (x : sst) (o : op) : res sst :=
  let '(st, rs) := x in
  let sg := tsub nin rs in
  match o with
  | OEmpty m ks vs =>
      do st' <- map_new s k fuel st m ks vs None; Ok (st', rs ++ [sdone])
  | ONew m ks vs len invs =>
      guard (tv_ok nin rs len && forallb (tp_ok nin rs) invs)
      (do st' <- map_new s k fuel st m ks vs (Some (substv sg len, map (substb sg) invs)); Ok (st', rs ++ [sdone]))
  | OArray m ks vs len =>
      guard (match len with LBv e => tv_ok nin rs e | LInt _ => true end)
      (do st' <- new_array s k fuel st m ks vs (match len with LBv e => LBv (substv sg e) | LInt n => LInt n end);
       Ok (st', rs ++ [sdone]))
  | OGet m key =>
      guard (tv_ok nin rs key)
      (do (st', r) <- get s k fuel st m (substv sg key) None BTrue None; Ok (st', rs ++ [r]))
  | OSet m key value =>
      guard (tv_ok nin rs key && tv_ok nin rs value)
      (do st' <- set_ s k fuel st m (substv sg key) (substv sg value); Ok (st', rs ++ [sdone]))
  | ORemove m key =>
      guard (tv_ok nin rs key)
      (do st' <- remove s k fuel st m (substv sg key); Ok (st', rs ++ [sdone]))
  | OForall m pred =>
      guard (tp_ok nin rs pred)
      (do (st', b) <- forall_ s k fuel st m (substb sg pred); Ok (st', rs ++ [(BVV 1 0, b)]))
  | OAssume c =>
      guard (tb_ok nin rs c) (Ok (add_cs st [substb sg c], rs ++ [sdone]))
  end.

Fixpoint srun (x : sst) (os : list op) : res sst :=
  match os with
  | [] => Ok x
  | o :: os' => do x' <- sstep x o; srun x' os'
  end.
End Symbolic.

(** Every write so far has its own layer: no write was folded into the layer of an
    earlier one (ghostmaps.py 429-433), in no state along the run. *)
Definition unfolded (st : gst) : Prop := forall m g, gmaps st m = Some g ->
  Forall (fun L => length (litems L) = 1%nat) (glayers g).
Fixpoint stays_unfolded (s : solver) (k : claripy) (fuel : nat) (nin : N) (x : sst) (os : list op) : Prop :=
  match os with
  | [] => True
  | o :: os' => match sstep s k fuel nin x o with
                | Ok x' => unfolded (fst x') /\ stays_unfolded s k fuel nin x' os'
                | _ => True
                end
  end.

(** Nothing known, no maps. *)
Definition ginit (nin sz : N) : gst := mkGst [] nin (fun _ => None) sz.
