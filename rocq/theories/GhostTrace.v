(** * What every consistent assignment says about a run

    Specification for the second family of ghost-map theorems: take any run of map
    operations on the symbolic state and any assignment of the symbols that satisfies
    the final path constraints. Read through that assignment, the results of the run
    are those of a real map. *)

From Coq Require Import NArith List Bool.
From Verif Require Import Expr Solver KMerge Wt GhostMap GhostSpec.
Import ListNotations.
Open Scope N_scope.

(** One operation with its arguments and results. [ESet] also records the length
    before the write. *)
Inductive event : Type :=
| ENew (m ks vs : N) (len : bv) (invs : list bexp)
| EGet (m : N) (key v : bv) (p : bexp)
| ESet (m : N) (key value len : bv)
| ERemove (m : N) (key : bv)
| EForall (m : N) (pred : bexp) (b : bexp)
| ELen (m : N) (len : bv)
| EAssume (c : bexp).

(** No run comes near filling a map's length counter with known items. *)
Definition sizes_fit (st : gst) : Prop := forall m g, gmaps st m = Some g ->
  N.of_nat (length (gitems g) + length (glayers g)) < 2 ^ width (glen g).

Section Run.
Variable s : solver.
Variable k : claripy.
Variable fuel : nat.

(** The key has the map's size and is not provably the generic unknown key. *)
Definition key_ok (st : gst) (g : gmap) (key : bv) : Prop :=
  width key = gks g /\ definitely_true s (gcs st) (BEq key (ik (gunk g))) = false.
Definition pred_ok (ks vs : N) (p : bexp) : Prop := nolkb p = true /\ kv_sized ks vs p = true.

Inductive does : gst -> event -> gst -> Prop :=
| d_new : forall st m ks vs len invs st',
    gmaps st m = None -> Forall (pred_ok ks vs) invs ->
    map_new s k fuel st m ks vs (Some (len, invs)) = Ok st' ->
    does st (ENew m ks vs len invs) st'
| d_empty : forall st m ks vs st',
    gmaps st m = None -> map_new s k fuel st m ks vs None = Ok st' ->
    does st (ENew m ks vs (BVV (gsz st) 0) [BNot PRESENT]) st'
| d_array : forall st m ks vs e st',
    gmaps st m = None -> pred_ok ks vs (array_inv ks e) ->
    new_array s k fuel st m ks vs (LBv e) = Ok st' ->
    does st (ENew m ks vs e [array_inv ks e]) st'
| d_get : forall st m g key st' v p,
    gmaps st m = Some g -> key_ok st g key ->
    get s k fuel st m key None BTrue None = Ok (st', (v, p)) ->
    does st (EGet m key v p) st'
| d_set : forall st m g key value st',
    gmaps st m = Some g -> key_ok st g key -> width value = gvs g ->
    set_ s k fuel st m key value = Ok st' ->
    does st (ESet m key value (len_at g 0)) st'
| d_remove : forall st m g key st',
    gmaps st m = Some g -> key_ok st g key ->
    remove s k fuel st m key = Ok st' ->
    does st (ERemove m key) st'
| d_forall : forall st m g pred st' b,
    gmaps st m = Some g -> pred_ok (gks g) (gvs g) pred ->
    forall_ s k fuel st m pred = Ok (st', b) ->
    does st (EForall m pred b) st'
| d_len : forall st m g, gmaps st m = Some g -> does st (ELen m (len_at g 0)) st
| d_assume : forall st c, does st (EAssume c) (add_cs st [c]).

Inductive run : gst -> list event -> gst -> Prop :=
| run_nil : forall st, run st [] st
| run_cons : forall st e st1 es st2,
    does st e st1 -> unfolded st1 -> sizes_fit st1 -> run st1 es st2 -> run st (e :: es) st2.
End Run.

Section Reading.
Variable r : env.
Variable m : N.

(** The keys of map [m] a run accesses. *)
Definition ekey (e : event) : list N :=
  match e with
  | EGet m' key _ _ | ESet m' key _ _ | ERemove m' key => if m' =? m then [ev r key] else []
  | _ => []
  end.
Definition accessed (es : list event) : list N := flat_map ekey es.

(** No write happens when the length is at the top of its range. *)
Definition no_overflow (es : list event) : Prop :=
  forall m' key value len, In (ESet m' key value len) es -> ev r len + 1 < 2 ^ width len.

(** [C] has no more than [L] of the keys of [A] present. *)
Definition at_most (A : list N) (C : N -> N * bool) (L : N) : Prop :=
  forall l, NoDup l -> (forall q, In q l -> In q A /\ snd (C q) = true) -> N.of_nat (length l) <= L.

(** The events of map [m], read through [r], are those of a real map that holds [C],
    with [L] as its length. [A]: keys accessed by the whole run; [done]: keys accessed
    so far. *)
Fixpoint real (A : list N) (so_far : list N) (C : N -> N * bool) (L : N) (es : list event) : Prop :=
  at_most so_far C L /\
  match es with
  | [] => True
  | e :: es' =>
      let so_far' := so_far ++ ekey e in
      match e with
      | EGet m' key v p =>
          if m' =? m then
            let q := ev r key in
            eb r p = snd (C q) /\ (snd (C q) = true -> ev r v = fst (C q)) /\
            real A so_far' C L es'
          else real A so_far' C L es'
      | ESet m' key value _ =>
          if m' =? m then
            let q := ev r key in
            real A so_far' (upd C q (ev r value, true)) (if snd (C q) then L else L + 1) es'
          else real A so_far' C L es'
      | ERemove m' key =>
          if m' =? m then
            let q := ev r key in
            (snd (C q) = true -> 1 <= L) /\
            real A so_far' (upd C q (0, false)) (if snd (C q) then L - 1 else L) es'
          else real A so_far' C L es'
      | EForall m' pred b =>
          if m' =? m then
            (eb r b = true -> forall q, In q A -> snd (C q) = true -> eb (setKVP r q (C q)) pred = true) /\
            real A so_far' C L es'
          else real A so_far' C L es'
      | ELen m' len =>
          if m' =? m then ev r len = L /\ real A so_far' C L es' else real A so_far' C L es'
      | _ => real A so_far' C L es'
      end
  end.
End Reading.

(** The assignment [r] satisfies all the path constraints after the run [es], started
    with no maps and no constraints. *)
Definition consistent (s : solver) (k : claripy) (fuel : nat) (es : list event) (r : env) : Prop :=
  exists nin sz fin, 2 <= nin /\ run s k fuel (ginit nin sz) es fin /\ holds r (gcs fin) /\ no_overflow r es.

(** [e] writes or removes key [q] of map [m]. *)
Definition writes (r : env) (m q : N) (e : event) : Prop :=
  match e with
  | ESet m' key _ _ | ERemove m' key => m' = m /\ ev r key = q
  | _ => False
  end.
Definition untouched (r : env) (m q : N) (es : list event) : Prop := forall e, In e es -> ~ writes r m q e.
Definition unwritten (m : N) (es : list event) : Prop := forall e, In e es ->
  match e with ESet m' _ _ _ | ERemove m' _ => m' <> m | _ => True end.

(** Key [q] of map [m] is known to be present right after the events [before] and right
    before the events [after]: it was written or read as present earlier, or is read as
    present later, and is not written or removed in between. *)
Definition seen_present (r : env) (m q : N) (before after : list event) : Prop :=
  (exists b1 key v p b2, before = b1 ++ EGet m key v p :: b2 /\ ev r key = q /\ eb r p = true /\ untouched r m q b2) \/
  (exists b1 key value l b2, before = b1 ++ ESet m key value l :: b2 /\ ev r key = q /\ untouched r m q b2) \/
  (exists a1 key v p a2, after = a1 ++ EGet m key v p :: a2 /\ ev r key = q /\ eb r p = true /\ untouched r m q a1).

(** The contents and length of map [m] after some events, from those before. *)
Definition replay1 (r : env) (m : N) (x : (N -> N * bool) * N) (e : event) : (N -> N * bool) * N :=
  let '(C, L) := x in
  match e with
  | ESet m' key value _ =>
      if m' =? m then (upd C (ev r key) (ev r value, true), if snd (C (ev r key)) then L else L + 1) else x
  | ERemove m' key =>
      if m' =? m then (upd C (ev r key) (0, false), if snd (C (ev r key)) then L - 1 else L) else x
  | _ => x
  end.
Definition replay (r : env) (m : N) (C : N -> N * bool) (L : N) (es : list event) : (N -> N * bool) * N :=
  fold_left (replay1 r m) es (C, L).
