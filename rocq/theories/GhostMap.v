(** * Ghost maps

    Models tool/klint/ghostmaps.py 38-484 (the map type: creation, reads, writes,
    removals, quantified predicates, versions, known items, length) and 487-520 (the
    plugin that owns the maps). Merging is in GhostMerge.v, inference in Infer.v.

    A map is its oldest version (items read so far, invariants, generic unknown
    item, length) plus the layers written since, newest first. The Python objects
    share the oldest version between all versions of one map, and [add_item] /
    [add_invariant_conjunction] mutate it; here the whole chain is one value and a
    version is a number of layers to skip from the newest. Names are numbers: symbol
    0 (bit-vector) is KEY, 1 is VALUE and boolean symbol 0 is PRESENT (97-99); fresh
    symbols come from a counter.

    Left out: names and logging (24-34), [only_set] of [known_items] (399-402, used
    by the inference only), and claripy's caching of replaced sub-expressions. *)

From Coq Require Import NArith List Bool Lia Arith.
From Verif Require Import Expr Solver KMerge Wt.
Import ListNotations.
Open Scope N_scope.

(** ghostmaps.py 42 *)
Record item := mkItem { ik : bv; iv : bv; ip : bexp }.

(** A version above the oldest: its own items, its length, and
    [_known_items_cache] (348-364). *)
Record layer := mkLayer { litems : list item; llen : bv; lcache : nat * list item }.

(** ghostmaps.py 348-364; [gks], [gvs] are the sizes of MapMeta (41). *)
Record gmap := mkGmap {
  gks : N; gvs : N;
  gitems : list item;      (* _known_items of the oldest version *)
  ginvs : list bexp;       (* _invariants of the oldest version *)
  gunk : item;             (* _unknown_item *)
  glen : bv;               (* _length of the oldest version *)
  glayers : list layer }.  (* newest first *)

(** What a map operation reads and changes: path constraints, next fresh symbol,
    the maps of GhostMapsPlugin (487-570), and state.sizes.size_t. *)
Record gst := mkGst { gcs : list bexp; gnext : N; gmaps : N -> option gmap; gsz : N }.

Definition add_cs (st : gst) (l : list bexp) : gst :=
  mkGst (gcs st ++ l) (gnext st) (gmaps st) (gsz st).
Definition bump (st : gst) (n : N) : gst := mkGst (gcs st) (gnext st + n) (gmaps st) (gsz st).
(** ghostmaps.py 532-533 *)
Definition set_map (st : gst) (m : N) (g : gmap) : gst :=
  mkGst (gcs st) (gnext st) (fun x => if x =? m then Some g else gmaps st x) (gsz st).
Definition set_layers (g : gmap) (l : list layer) : gmap :=
  mkGmap (gks g) (gvs g) (gitems g) (ginvs g) (gunk g) (glen g) l.

(** KEY, VALUE, PRESENT of ghostmaps.py 97-99. *)
Definition KEY (ks : N) : bv := BVS ks 0.
Definition VALUE (vs : N) : bv := BVS vs 1.
Definition PRESENT : bexp := BoolS 0.

(** ghostmaps.py 366-368 *)
Definition version (g : gmap) : nat := length (glayers g).

(** ghostmaps.py 166-167, of the version [d] layers below the newest. *)
Definition len_at (g : gmap) (d : nat) : bv :=
  match skipn d (glayers g) with L :: _ => llen L | [] => glen g end.

(** ghostmaps.py 443-445 *)
Definition is_definitely_empty (g : gmap) (d : nat) : bool :=
  bv_eqb (len_at g d) (BVV (width (len_at g d)) 0).

(** transform_previous, ghostmaps.py 389-398. *)
Definition transform1 (kis : list item) (i : item) : item :=
  mkItem (ik i)
    (ite_cases (map (fun ki => (BEq (ik i) (ik ki), iv ki)) kis) (iv i))
    (ite_cases_b (map (fun ki => (BEq (ik i) (ik ki), ip ki)) kis) (ip i)).
Definition not_own (kis : list item) (i : item) : bool :=
  forallb (fun ki => negb (bv_eqb (ik i) (ik ki))) kis.
Definition transform_previous (kis items : list item) : list item :=
  map (transform1 kis) (filter (not_own kis) items).

(** known_items, ghostmaps.py 404-413: the items, and the layers with the caches
    this call leaves behind. *)
Fixpoint known_layers (ls : list layer) (base : list item) : list item * list layer :=
  match ls with
  | [] => (base, [])
  | L :: rest =>
      let '(prev, rest') := known_layers rest base in
      let '(count, cached) := lcache L in
      let cache := if Nat.eqb (length prev) count then (count, cached)
                   else (length prev, cached ++ transform_previous (litems L) (skipn count prev)) in
      (litems L ++ snd cache, mkLayer (litems L) (llen L) cache :: rest')
  end.
Definition known_items (g : gmap) (d : nat) : list item * gmap :=
  let '(k, ls) := known_layers (skipn d (glayers g)) (gitems g) in
  (k, set_layers g (firstn d (glayers g) ++ ls)).

(** ghostmaps.py 415-419: always lands in the oldest version. *)
Definition add_item (g : gmap) (i : item) : gmap :=
  mkGmap (gks g) (gvs g) (gitems g ++ [i]) (ginvs g) (gunk g) (glen g) (glayers g).

(** The key of MapInvariant.__call__'s replace_dict (111). *)
Definition item_subst (ks vs : N) (i : item) : subst :=
  mkSubst
    (fun w x => if (x =? 0) && (w =? ks) then ik i
                else if (x =? 1) && (w =? vs) then iv i else BVS w x)
    (fun x => if x =? 0 then ip i else BoolS x).

(** ** Lookups inside predicates *)

Section EvalMapAst.
(** [get state map key conditioned_value condition version] *)
Variable get : gst -> N -> bv -> option bv -> bexp -> option nat -> res (gst * (bv * bexp)).
Variable sg : subst.
Variable cond : bexp.

(** eval_map_ast, ghostmaps.py 59-70 and 78-91. A presence test without a value
    hands its value argument (None) to [get] as the version (84). *)
Fixpoint emv (st : gst) (e : bv) : res (gst * bv) :=
  match e with
  | BVV w v => Ok (st, BVV w v)
  | BVS w x => Ok (st, sv sg w x)
  | BvAdd a b => do (st1, a') <- emv st a; do (st2, b') <- emv st1 b; Ok (st2, BvAdd a' b')
  | BvSub a b => do (st1, a') <- emv st a; do (st2, b') <- emv st1 b; Ok (st2, BvSub a' b')
  | BvMul a b => do (st1, a') <- emv st a; do (st2, b') <- emv st1 b; Ok (st2, BvMul a' b')
  | BvUdiv a b => do (st1, a') <- emv st a; do (st2, b') <- emv st1 b; Ok (st2, BvUdiv a' b')
  | BvUrem a b => do (st1, a') <- emv st a; do (st2, b') <- emv st1 b; Ok (st2, BvUrem a' b')
  | BvAnd a b => do (st1, a') <- emv st a; do (st2, b') <- emv st1 b; Ok (st2, BvAnd a' b')
  | BvOr a b => do (st1, a') <- emv st a; do (st2, b') <- emv st1 b; Ok (st2, BvOr a' b')
  | BvXor a b => do (st1, a') <- emv st a; do (st2, b') <- emv st1 b; Ok (st2, BvXor a' b')
  | BvShl a b => do (st1, a') <- emv st a; do (st2, b') <- emv st1 b; Ok (st2, BvShl a' b')
  | BvLshr a b => do (st1, a') <- emv st a; do (st2, b') <- emv st1 b; Ok (st2, BvLshr a' b')
  | BvConcat a b => do (st1, a') <- emv st a; do (st2, b') <- emv st1 b; Ok (st2, BvConcat a' b')
  | BvExtract h l a => do (st1, a') <- emv st a; Ok (st1, BvExtract h l a')
  | BvZext n a => do (st1, a') <- emv st a; Ok (st1, BvZext n a')
  | BvIte c a b => do (st1, c') <- emb st c; do (st2, a') <- emv st1 a;
                   do (st3, b') <- emv st2 b; Ok (st3, BvIte c' a' b')
  | MapGet m k _ ver => do (st1, k') <- emv st k;
                        do (st2, r) <- get st1 m k' None cond ver; Ok (st2, fst r)
  end
with emb (st : gst) (e : bexp) : res (gst * bexp) :=
  match e with
  | BTrue => Ok (st, BTrue)
  | BFalse => Ok (st, BFalse)
  | BoolS x => Ok (st, sb sg x)
  | BNot a => do (st1, a') <- emb st a; Ok (st1, BNot a')
  | BAnd a b => do (st1, a') <- emb st a; do (st2, b') <- emb st1 b; Ok (st2, BAnd a' b')
  | BOr a b => do (st1, a') <- emb st a; do (st2, b') <- emb st1 b; Ok (st2, BOr a' b')
  | BIff a b => do (st1, a') <- emb st a; do (st2, b') <- emb st1 b; Ok (st2, BIff a' b')
  | BEq a b => do (st1, a') <- emv st a; do (st2, b') <- emv st1 b; Ok (st2, BEq a' b')
  | BUlt a b => do (st1, a') <- emv st a; do (st2, b') <- emv st1 b; Ok (st2, BUlt a' b')
  | BUle a b => do (st1, a') <- emv st a; do (st2, b') <- emv st1 b; Ok (st2, BUle a' b')
  | BIteB c a b => do (st1, c') <- emb st c; do (st2, a') <- emb st1 a;
                   do (st3, b') <- emb st2 b; Ok (st3, BIteB c' a' b')
  | MapHas m k _ => do (st1, k') <- emv st k;
                    do (st2, r) <- get st1 m k' None cond None; Ok (st2, snd r)
  | MapHasV m k v ver => do (st1, k') <- emv st k; do (st2, v') <- emv st1 v;
                    do (st3, r) <- get st2 m k' (Some v') cond ver;
                    Ok (st3, BAnd (snd r) (BEq (fst r) v'))
  end.
End EvalMapAst.

(** freeze_map_ast_versions, ghostmaps.py 72-76. (A map that does not exist makes
    the code raise; here its version is 0 and the later lookup fails.) *)
Definition map_version (st : gst) (m : N) : nat :=
  match gmaps st m with Some g => version g | None => O end.
Fixpoint freezev (st : gst) (e : bv) : bv :=
  match e with
  | BVV w v => BVV w v
  | BVS w x => BVS w x
  | BvAdd a b => BvAdd (freezev st a) (freezev st b)
  | BvSub a b => BvSub (freezev st a) (freezev st b)
  | BvMul a b => BvMul (freezev st a) (freezev st b)
  | BvUdiv a b => BvUdiv (freezev st a) (freezev st b)
  | BvUrem a b => BvUrem (freezev st a) (freezev st b)
  | BvAnd a b => BvAnd (freezev st a) (freezev st b)
  | BvOr a b => BvOr (freezev st a) (freezev st b)
  | BvXor a b => BvXor (freezev st a) (freezev st b)
  | BvShl a b => BvShl (freezev st a) (freezev st b)
  | BvLshr a b => BvLshr (freezev st a) (freezev st b)
  | BvConcat a b => BvConcat (freezev st a) (freezev st b)
  | BvExtract h l a => BvExtract h l (freezev st a)
  | BvZext n a => BvZext n (freezev st a)
  | BvIte c a b => BvIte (freezeb st c) (freezev st a) (freezev st b)
  | MapGet m k vs _ => MapGet m (freezev st k) vs (Some (map_version st m))
  end
with freezeb (st : gst) (e : bexp) : bexp :=
  match e with
  | BTrue => BTrue
  | BFalse => BFalse
  | BoolS x => BoolS x
  | BNot a => BNot (freezeb st a)
  | BAnd a b => BAnd (freezeb st a) (freezeb st b)
  | BOr a b => BOr (freezeb st a) (freezeb st b)
  | BIff a b => BIff (freezeb st a) (freezeb st b)
  | BEq a b => BEq (freezev st a) (freezev st b)
  | BUlt a b => BUlt (freezev st a) (freezev st b)
  | BUle a b => BUle (freezev st a) (freezev st b)
  | BIteB c a b => BIteB (freezeb st c) (freezeb st a) (freezeb st b)
  | MapHas m k _ => MapHas m (freezev st k) (Some (map_version st m))
  | MapHasV m k v _ => MapHasV m (freezev st k) (freezev st v) (Some (map_version st m))
  end.

Section Ghost.
Variable s : solver.
Variable k : claripy.

(** ** Length *)

(** ghostmaps.py 456-462: number of distinct known keys that are present. *)
Fixpoint known_len (w : N) (seen : list bv) (items : list item) (acc : bv) : bv :=
  match items with
  | [] => acc
  | i :: items' =>
      let key_is_new := BAndL (map (fun k' => BNe (ik i) k') seen) in
      known_len w (seen ++ [ik i]) items'
        (mkadd k acc (mkif k (BAnd key_is_new (ip i)) (BVV w 1) (BVV w 0)))
  end.

(** ghostmaps.py 447-462. *)
Definition is_not_overfull (st : gst) (m : N) (d : nat) : gst * bexp :=
  match gmaps st m with
  | None => (st, BTrue)
  | Some g =>
      let l := len_at g d in
      let '(known, g') := known_items g d in
      let st' := set_map st m g' in
      if definitely_true s (gcs st) (BUle (BVV (width l) (N.of_nat (length known))) l)
      then (st', BTrue)
      else (st', BUle (known_len (width l) [] known (BVV (width l) 0)) l)
  end.

(** ** Reads *)

(** The arguments of one [solver.add] are computed from left to right: the
    invariants one after the other (211). *)
Fixpoint inv_calls (call : gst -> bexp -> res (gst * bexp)) (st : gst) (invs : list bexp)
    : res (gst * list bexp) :=
  match invs with
  | [] => Ok (st, [])
  | inv :: invs' => do (st1, c) <- call st inv; do (st2, cs) <- inv_calls call st1 invs'; Ok (st2, c :: cs)
  end.

(** How many layers to skip for a frozen version, ghostmaps.py 170-176. *)
Definition skip_of (g : gmap) (ver : option nat) : nat :=
  match ver with None => O | Some v => (version g - v)%nat end.

(** Map.get, ghostmaps.py 169-218. For the oldest version the list of known items
    of line 186 is the live one, so line 209 also sees the item added at 205.
    Comparing a key of the wrong size raises. *)
Fixpoint get (fuel : nat) (st : gst) (m : N) (key : bv) (cval : option bv) (cond : bexp)
    (ver : option nat) : res (gst * (bv * bexp)) :=
  match fuel with
  | O => NoFuel
  | S fuel' =>
      match gmaps st m with
      | None => Err
      | Some g =>
          let d := skip_of g ver in
          if is_definitely_empty g d then Ok (bump st 1, (BVS (gvs g) (gnext st), BFalse))
          else if negb (width key =? gks g) then Err
          else
            let '(known, g1) := known_items g d in
            let st1 := set_map st m g1 in
            match get_exact_match s (gcs st1) key (known ++ [gunk g]) cond ik with
            | Some i => Ok (st1, (iv i, ip i))
            | None =>
                let value := BVS (gvs g) (gnext st1) in
                let present := BoolS (gnext st1) in
                let st2 := add_cs (bump st1 1)
                  match cval with Some cv => [BImp cond (BEq value cv)] | None => [] end in
                let unknown := BAndL (map (fun i => BNe key (ik i)) known) in
                let it := mkItem key value present in
                let st3 := set_map st2 m (add_item g1 it) in
                let known' := match skipn d (glayers g) with [] => known ++ [it] | _ => known end in
                let same := map (fun i => BImp (BEq key (ik i))
                                  (BAnd (BEq value (iv i)) (BIff present (ip i)))) (known' ++ [gunk g]) in
                do (st4, invs) <- inv_calls
                   (fun st' inv => emb (get fuel') (item_subst (gks g) (gvs g) it) (BAnd present cond) st' inv)
                   st3 (ginvs g);
                let '(st5, fits) := is_not_overfull st4 m d in
                Ok (add_cs st5 (same ++ map (BImp unknown) invs ++ [fits]), (value, present))
            end
      end
  end.

(** MapInvariant.__call__, ghostmaps.py 110-112. *)
Definition inv_call (fuel : nat) (st : gst) (ks vs : N) (inv : bexp) (i : item) (cond : bexp)
    : res (gst * bexp) :=
  emb (get fuel) (item_subst ks vs i) (BAnd (ip i) cond) st inv.

(** add_invariant_conjunction, ghostmaps.py 379-386, of an invariant already built. *)
Definition add_inv (fuel : nat) (st : gst) (m : N) (inv : bexp) : res gst :=
  match gmaps st m with
  | None => Err
  | Some g =>
      do (st1, c) <- inv_call fuel st (gks g) (gvs g) inv (gunk g) BTrue;
      match gmaps st1 m with
      | None => Err
      | Some g1 =>
          Ok (set_map (add_cs st1 [c]) m
                (mkGmap (gks g1) (gvs g1) (gitems g1) (ginvs g1 ++ [inv]) (gunk g1) (glen g1) (glayers g1)))
      end
  end.
Fixpoint add_invs (fuel : nat) (st : gst) (m : N) (invs : list bexp) : res gst :=
  match invs with
  | [] => Ok st
  | inv :: invs' => do st1 <- add_inv fuel st m (freezeb st inv); add_invs fuel st1 m invs'
  end.

(** ** Creation *)

(** Map.new, ghostmaps.py 131-160, and GhostMapsPlugin.new (490-493). The map is
    registered before its invariants are added (the code registers it after, so an
    invariant over the map itself would raise there). *)
Definition raw_new (st : gst) (m ks vs : N) (len : bv) : gst :=
  set_map (bump st 2) m
    (mkGmap ks vs [] []
       (mkItem (BVS ks (gnext st)) (BVS vs (gnext st + 1)) (BoolS (gnext st)))
       len []).
Definition map_new (fuel : nat) (st : gst) (m ks vs : N) (spec : option (bv * list bexp)) : res gst :=
  match spec with
  | None => add_invs fuel (raw_new st m ks vs (BVV (gsz st) 0)) m [BNot PRESENT]
  | Some (len, invs) => add_invs fuel (raw_new st m ks vs len) m invs
  end.

(** Map.new_array, ghostmaps.py 162-164: the length is a bit-vector of the key's
    size, or a Python int, which is coerced to the key's size in the invariant and to
    size_t as the length (150-151). *)
Inductive alen := LBv (e : bv) | LInt (n : N).
Definition array_inv (ks : N) (bound : bv) : bexp := BIff (BUlt (KEY ks) bound) PRESENT.
Definition new_array (fuel : nat) (st : gst) (m ks vs : N) (len : alen) : res gst :=
  match len with
  | LBv e => if width e =? ks then map_new fuel st m ks vs (Some (e, [array_inv ks e])) else Err
  | LInt n => map_new fuel st m ks vs (Some (BVV (gsz st) n, [array_inv ks (BVV ks n)]))
  end.

(** ** Writes *)

(** with_item_layer, ghostmaps.py 421-441. *)
Definition with_item_layer (g : gmap) (i : item) (change : bv) : gmap :=
  let len := mkadd k (len_at g 0) change in
  match glayers g with
  | L :: rest =>
      if negb (symbolic (ik i)) &&
         forallb (fun j => negb (symbolic (ik j)) && negb (bv_eqb (ik j) (ik i))) (litems L)
      then set_layers g (mkLayer (litems L ++ [i]) len (lcache L) :: rest)
      else set_layers g (mkLayer [i] len (O, []) :: glayers g)
  | [] => set_layers g [mkLayer [i] len (O, [])]
  end.

(** Map.set, ghostmaps.py 220-236, and GhostMapsPlugin.set (513-514). *)
Definition set_ (fuel : nat) (st : gst) (m : N) (key value : bv) : res gst :=
  do (st1, r) <- get fuel st m key None BTrue None;
  do c <- get_if_constant_b s (gcs st1) (snd r);
  let present := match c with Some true => BTrue | Some false => BFalse | None => snd r end in
  match gmaps st1 m with
  | None => Err
  | Some g =>
      let w := width (len_at g 0) in
      Ok (set_map st1 m (with_item_layer g (mkItem key value BTrue)
                           (mkif k present (BVV w 0) (BVV w 1))))
  end.

(** Map.remove, ghostmaps.py 238-253, and GhostMapsPlugin.remove (516-517). -1 is
    coerced to all ones. *)
Definition remove (fuel : nat) (st : gst) (m : N) (key : bv) : res gst :=
  do (st1, r) <- get fuel st m key None BTrue None;
  match gmaps st1 m with
  | None => Err
  | Some g =>
      let w := width (len_at g 0) in
      let value := BVS (gvs g) (gnext st1) in
      Ok (set_map (bump st1 1) m
            (with_item_layer g (mkItem key value BFalse)
               (mkif k (snd r) (BVV w (2 ^ w - 1)) (BVV w 0))))
  end.

(** ** Quantified predicates *)

Fixpoint inv_items (fuel : nat) (st : gst) (ks vs : N) (inv : bexp) (items : list item)
    : res (gst * list bexp) :=
  match items with
  | [] => Ok (st, [])
  | i :: items' =>
      do (st1, c) <- inv_call fuel st ks vs inv i BTrue;
      do (st2, cs) <- inv_items fuel st1 ks vs inv items'; Ok (st2, c :: cs)
  end.

(** Map.forall, ghostmaps.py 255-277, on a predicate over KEY and VALUE. (If the
    predicate reads this very map in its oldest version, the loop of 266 also visits
    the items those reads add; here it does not.) *)
Definition forall_ (fuel : nat) (st : gst) (m : N) (pred : bexp) : res (gst * bexp) :=
  match gmaps st m with
  | None => Err
  | Some g =>
      let inv := freezeb st (BImp PRESENT pred) in
      if is_definitely_empty g 0 then Ok (st, BTrue)
      else
        let '(known, g1) := known_items g 0 in
        let st1 := set_map st m g1 in
        do (st2, known_results) <- inv_items fuel st1 (gks g) (gvs g) inv known;
        let unknown_is_not_known := BAndL (map (fun i => BNe (ik (gunk g)) (ik i)) known) in
        let '(st3, fits) := is_not_overfull st2 m 0 in
        do (st4, u) <- inv_call fuel st3 (gks g) (gvs g) inv (gunk g) BTrue;
        let unknown_result := BImp fits (BImp unknown_is_not_known u) in
        let result := BoolS (gnext st4) in
        let st5 := add_cs (bump st4 1) [BIff result (BAnd (BAndL known_results) unknown_result)] in
        do st6 <- add_inv fuel st5 m (BImp result inv);
        Ok (st6, result)
  end.

End Ghost.

(** A claripy that folds [If] on constants and sums of constants, as claripy does. *)
Definition if_fold (c : bexp) (a b : bv) : bv :=
  if width a =? width b then match c with BTrue => a | BFalse => b | _ => BvIte c a b end
  else BvIte c a b.
Definition addc_fold (a b : bv) : bv :=
  match a, b with
  | BVV w x, BVV w' y => if w =? w' then BVV w (wrap w (x + y)) else BvAdd a b
  | _, _ => BvAdd a b
  end.
Definition cl_fold : claripy :=
  mkClaripy (fun e => e) (fun e => e) (fun _ e => e) if_fold addc_fold BvSub (istrue cl_id).

Lemma if_fold_ok : forall c a b, bveq (BvIte c a b) (if_fold c a b).
Proof.
  intros c a b. unfold if_fold. destruct (N.eqb_spec (width a) (width b)) as [W|]; [|apply bveq_refl].
  destruct c; try apply bveq_refl.
  - split; [cbn; auto|]. split; [intros H; cbn [wtv] in H; rewrite !andb_true_iff in H; tauto|].
    intros r. cbn [evalv evalb]. apply wrap_small, evalv_lt.
  - split; [cbn; auto|]. split; [intros H; cbn [wtv] in H; rewrite !andb_true_iff in H; tauto|].
    intros r. cbn [evalv evalb]. rewrite W. apply wrap_small, evalv_lt.
Qed.
Lemma addc_fold_ok : forall a b, bveq (BvAdd a b) (addc_fold a b).
Proof.
  intros a b. unfold addc_fold. destruct a; try apply bveq_refl. destruct b; try apply bveq_refl.
  destruct (N.eqb_spec w w0) as [->|]; [|apply bveq_refl].
  split; [cbn; auto|]. split; [intros H; cbn [wtv] in *; rewrite !andb_true_iff in H; tauto|].
  intros r. cbn [evalv width]. rewrite wrap_wrap. unfold wrap. rewrite <- N.add_mod by apply pow2_ne. reflexivity.
Qed.
Lemma cl_fold_ok : claripy_ok cl_fold.
Proof.
  constructor; intros; try apply bveq_refl.
  - apply if_fold_ok.
  - apply addc_fold_ok.
  - apply (ok_istrue cl_id cl_id_ok c); auto.
Qed.
