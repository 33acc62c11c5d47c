(** * Invariant inference

    tool/klint/ghostmaps.py 576-940 (find_constraints, flatten_items,
    get_length_invariants, infer_invariants) and tool/klint/executor.py 55-83
    (find_fixedpoint_states).

    Simplifications: get_items_invariants (648-843) guesses predicates with heuristics and
    keeps those that definitely hold in the states it looks at. The guesses are a parameter
    here ([guesses]); the test is modelled. claripy simplifies terms it rebuilds in
    [replace]; here the rebuilt term is kept as it is. *)

From Coq Require Import NArith List Bool Lia Arith.
From Verif Require Import Expr Solver Wt GhostMap GhostSpec GhostFacts GhostSim.
Import ListNotations.
Open Scope N_scope.

(** ** Replacing a subterm: claripy's [replace]. The map operations are leaves
    (ghostmaps.py 54-56), so it does not look inside them. *)
Fixpoint replv (old new e : bv) : bv :=
  if bv_eqb e old then new else
  match e with
  | BVV w v => BVV w v
  | BVS w x => BVS w x
  | BvAdd a b => BvAdd (replv old new a) (replv old new b)
  | BvSub a b => BvSub (replv old new a) (replv old new b)
  | BvMul a b => BvMul (replv old new a) (replv old new b)
  | BvUdiv a b => BvUdiv (replv old new a) (replv old new b)
  | BvUrem a b => BvUrem (replv old new a) (replv old new b)
  | BvAnd a b => BvAnd (replv old new a) (replv old new b)
  | BvOr a b => BvOr (replv old new a) (replv old new b)
  | BvXor a b => BvXor (replv old new a) (replv old new b)
  | BvShl a b => BvShl (replv old new a) (replv old new b)
  | BvLshr a b => BvLshr (replv old new a) (replv old new b)
  | BvConcat a b => BvConcat (replv old new a) (replv old new b)
  | BvExtract h l a => BvExtract h l (replv old new a)
  | BvZext n a => BvZext n (replv old new a)
  | BvIte c a b => BvIte (replb old new c) (replv old new a) (replv old new b)
  | MapGet m k vs ver => MapGet m k vs ver
  end
with replb (old new : bv) (e : bexp) : bexp :=
  match e with
  | BTrue => BTrue
  | BFalse => BFalse
  | BoolS x => BoolS x
  | BNot a => BNot (replb old new a)
  | BAnd a b => BAnd (replb old new a) (replb old new b)
  | BOr a b => BOr (replb old new a) (replb old new b)
  | BIff a b => BIff (replb old new a) (replb old new b)
  | BEq a b => BEq (replv old new a) (replv old new b)
  | BUlt a b => BUlt (replv old new a) (replv old new b)
  | BUle a b => BUle (replv old new a) (replv old new b)
  | BIteB c a b => BIteB (replb old new c) (replb old new a) (replb old new b)
  | MapHas m k ver => MapHas m k ver
  | MapHasV m k v ver => MapHasV m k v ver
  end.

(** ** Variables: bit-vector and boolean symbols *)
Definition names : Type := (list N * list N)%type.
Definition names_v (e : bv) : names := (map fst (vvars e), vbools e).
Definition names_b (e : bexp) : names := (map fst (bvvars e), bbools e).
Definition memN (x : N) (l : list N) : bool := existsb (N.eqb x) l.
(** [a.difference(b).issubset(c)] *)
Definition diff_sub (a b c : names) : bool :=
  forallb (fun x => memN x (fst b) || memN x (fst c)) (fst a) &&
  forallb (fun x => memN x (snd b) || memN x (snd c)) (snd a).

(** get_variables, ghostmaps.py 577-585; [objs] are the maps of the states. *)
Definition vars_of (st : gst) : names :=
  (flat_map (fun c => map fst (bvvars c)) (gcs st), flat_map bbools (gcs st)).
Definition get_variables (objs : list N) (states : list gst) : names :=
  match states with
  | [] => ([], [])
  | st0 :: rest =>
      let common := fold_left (fun acc st => (filter (fun x => memN x (fst (vars_of st))) (fst acc),
                                              filter (fun x => memN x (snd (vars_of st))) (snd acc))) rest (vars_of st0) in
      fold_left (fun acc m => match gmaps st0 m with
        | Some g =>
            let n1 := names_v (ik (gunk g)) in let n2 := names_v (iv (gunk g)) in let n3 := names_b (ip (gunk g)) in
            (filter (fun x => negb (memN x (fst n1 ++ fst n2 ++ fst n3))) (fst acc),
             filter (fun x => negb (memN x (snd n1 ++ snd n2 ++ snd n3))) (snd acc))
        | None => acc end) objs common
  end.

Section Infer.
Variable s : solver.
Variable k : claripy.
Variable fuel : nat.

(** find_constraints, ghostmaps.py 588-608. *)
Definition find_constraints (cs : list bexp) (e replacement : bv) (anc : names) : res (list bexp) :=
  do c <- get_if_constant s cs e;
  match c with
  | Some v => Ok [BEq replacement (BVV (width replacement) v)]
  | None =>
      Ok (map (replb e replacement)
            (filter (fun c => negb (bexp_eqb (replb e replacement c) c) && diff_sub (names_b c) (names_v e) anc) cs) ++
          match e with
          | BvConcat a b => if bv_eqb a (BVV (width a) 0)
                            then [BEq (BvExtract (width e - 1) (width e - width a) replacement) (BVV (width a) 0)]
                            else []
          | _ => []
          end)
  end.

(** known_items(only_set=True), ghostmaps.py 400-403. *)
Definition set_items (g : gmap) : list item := pure_known (glayers g) [].

(** The body of the loops of flatten_items, ghostmaps.py 617-623: one item of one state.
    [e] is the conjunction so far. *)
Definition flatten_item (ks vs : N) (anc : names) (st : gst) (e : bexp) (i : item) : res (bool * bexp * gst) :=
  do (st1, cj) <- inv_call s k fuel st ks vs (freezeb st e) i BTrue;
  if can_be_false s (gcs st1) (BImp (ip i) cj) then
    do a <- find_constraints (gcs st1) (ik i) (KEY ks) anc;
    do b <- find_constraints (gcs st1) (iv i) (VALUE vs) anc;
    Ok (true, BOr e (BAndL (a ++ b)), st1)
  else Ok (false, e, st1).
Fixpoint flatten_state (ks vs : N) (anc : names) (st : gst) (e : bexp) (items : list item) : res (bool * bexp * gst) :=
  match items with
  | [] => Ok (false, e, st)
  | i :: items =>
      do (ch, e1, st1) <- flatten_item ks vs anc st e i;
      do (ch', e2, st2) <- flatten_state ks vs anc st1 e1 items;
      Ok (ch || ch', e2, st2)
  end.
Fixpoint flatten_conj (m : N) (anc : names) (states : list gst) (e : bexp) : res (bool * bexp * list gst) :=
  match states with
  | [] => Ok (false, e, [])
  | st :: states =>
      match gmaps st m with
      | None => Err
      | Some g =>
          do (ch, e1, st1) <- flatten_state (gks g) (gvs g) anc st e (set_items g);
          do (ch', e2, states') <- flatten_conj m anc states e1;
          Ok (ch || ch', e2, st1 :: states')
      end
  end.
(** flatten_items, ghostmaps.py 611-625, on the conjunctions of the first ancestor. *)
Fixpoint flatten_items (m : N) (anc : names) (states : list gst) (conjs : list bexp) : res (bool * list bexp * list gst) :=
  match conjs with
  | [] => Ok (false, [], states)
  | e :: conjs =>
      do (ch, e1, states1) <- flatten_conj m anc states e;
      do (ch', es, states2) <- flatten_items m anc states1 conjs;
      Ok (ch || ch', e1 :: es, states2)
  end.

(** GhostMapsPlugin.length *)
Definition len_of (st : gst) (m : N) : bv :=
  match gmaps st m with Some g => len_at g 0 | None => BVV 0 0 end.
(** get_length_invariants, ghostmaps.py 629-646: the maps whose length bounds this one's. *)
Definition get_length_invariants (m : N) (relevant : list N) (states : list gst) (anc : gst) : option (list N) :=
  if forallb (fun st => definitely_true s (gcs st) (BEq (len_of st m) (len_of anc m))) states then None
  else Some (filter (fun o =>
    negb (o =? m) &&
    negb (forallb (fun st => Nat.eqb (map_version st m) (map_version anc m) || Nat.eqb (map_version st o) (map_version anc o)) states) &&
    forallb (fun st => definitely_true s (gcs st) (BUle (len_of st m) (len_of st o))) states) relevant).

(** Map.forall of a MapInvariant, ghostmaps.py 255-277 without 257. *)
Definition forall_with (st : gst) (m : N) (inv : bexp) : res (gst * bexp) :=
  match gmaps st m with
  | None => Err
  | Some g =>
      if is_definitely_empty g 0 then Ok (st, BTrue)
      else
        let '(known, g1) := known_items g 0 in
        let st1 := set_map st m g1 in
        do (st2, known_results) <- inv_items s k fuel st1 (gks g) (gvs g) inv known;
        let unknown_is_not_known := BAndL (map (fun i => BNe (ik (gunk g)) (ik i)) known) in
        let '(st3, fits) := is_not_overfull s k st2 m 0 in
        do (st4, u) <- inv_call s k fuel st3 (gks g) (gvs g) inv (gunk g) BTrue;
        let unknown_result := BImp fits (BImp unknown_is_not_known u) in
        let result := BoolS (gnext st4) in
        let st5 := add_cs (bump st4 1) [BIff result (BAnd (BAndL known_results) unknown_result)] in
        do st6 <- add_inv s k fuel st5 m (BImp result inv);
        Ok (st6, result)
  end.

(** What get_items_invariants tries for a map, given the other changed maps and the states
    in which the map changed (651-820). *)
Variable guesses : N -> list N -> list gst -> list bexp.
Definition changed_in (m : N) (anc st : gst) : bool := negb (Nat.eqb (map_version st m) (map_version anc m)).
(** [all(definitely_true(st.solver, inv(st)) for st in states)] over the states in which the
    map changed (773), stopping at the first where it is not; the evaluation changes the
    states. *)
Fixpoint all_true (m : N) (anc : gst) (p : bexp) (states : list gst) : res (bool * list gst) :=
  match states with
  | [] => Ok (true, [])
  | st :: states =>
      if changed_in m anc st then
        do (st1, b) <- forall_ s k fuel st m p;
        if definitely_true s (gcs st1) b then
          do (r, states') <- all_true m anc p states; Ok (r, st1 :: states')
        else Ok (false, st1 :: states)
      else do (r, states') <- all_true m anc p states; Ok (r, st :: states')
  end.
Fixpoint keep_true (m : N) (anc : gst) (ps : list bexp) (states : list gst) : res (list bexp * list gst) :=
  match ps with
  | [] => Ok ([], states)
  | p :: ps =>
      do (b, states1) <- all_true m anc p states;
      do (l, states2) <- keep_true m anc ps states1;
      Ok (if b : bool then p :: l else l, states2)
  end.
(** get_items_invariants, ghostmaps.py 648-843. *)
Definition get_items_invariants (m : N) (relevant : list N) (states : list gst) (anc : gst) : res (list bexp * list gst) :=
  keep_true m anc (guesses m relevant (filter (changed_in m anc) states)) states.

Definition assoc {A} (l : list (N * A)) (m : N) : option A :=
  match find (fun p => fst p =? m) l with Some p => Some (snd p) | None => None end.

(** The loop of infer_invariants, ghostmaps.py 869-906, for the remaining [todo] maps.
    Every map starts from copies of the states. *)
Inductive item_inv := IConj (e : bexp) | IGuess (p : bexp).
Fixpoint infer_loop (relevant : list N) (anc : gst) (ancv : names) (states : list gst) (prev : list (N * list N)) (todo : list N)
  : res (bool * list (N * list item_inv) * list (N * list N)) :=
  match todo with
  | [] => Ok (false, [], [])
  | m :: todo =>
      match gmaps anc m with
      | None => Err
      | Some ga =>
          do (ch1, conjs, states1) <- flatten_items m ancv states (ginvs ga);
          do (extra, states2) <- (if ch1 : bool then get_items_invariants m relevant states1 anc else Ok ([], states1));
          let '(ch2, lens) :=
            match assoc prev m with
            | None => match get_length_invariants m relevant states2 anc with
                      | None => (false, None)
                      | Some l => (true, Some l)
                      end
            | Some old =>
                let ok o := forallb (fun st => negb (can_be_false s (gcs st) (BUle (len_of st m) (len_of st o)))) states2 in
                (negb (forallb ok old), Some (filter ok old))
            end in
          do (ch3, items, ls) <- infer_loop relevant anc ancv states prev todo;
          Ok (ch1 || ch2 || ch3, (m, map IConj conjs ++ map IGuess extra) :: items,
              match lens with Some l => (m, l) :: ls | None => ls end)
      end
  end.

(** The relaxed states, ghostmaps.py 914-937. *)
Fixpoint havoc (relevant : list N) (lens : list (N * list N)) (st : gst) : res gst :=
  match relevant with
  | [] => Ok st
  | m :: relevant =>
      match gmaps st m with
      | None => Err
      | Some g =>
          let '(st1, len) := match assoc lens m with
                             | None => (st, len_at g 0)
                             | Some _ => (bump st 1, BVS (width (len_at g 0)) (gnext st))
                             end in
          havoc relevant lens (raw_new st1 m (gks g) (gvs g) len)
      end
  end.
Fixpoint assume_items (m : N) (invs : list item_inv) (st : gst) : res gst :=
  match invs with
  | [] => Ok st
  | i :: invs =>
      do (st1, b) <- (match i with IConj e => forall_with st m e | IGuess p => forall_ s k fuel st m p end);
      assume_items m invs (add_cs st1 [b])
  end.
Definition assume_lens (m : N) (others : list N) (st : gst) : gst :=
  add_cs st (map (fun o => BUle (len_of st m) (len_of st o)) others).
Fixpoint assume_all (relevant : list N) (items : list (N * list item_inv)) (lens : list (N * list N)) (st : gst) : res gst :=
  match relevant with
  | [] => Ok st
  | m :: relevant =>
      do st1 <- assume_items m (match assoc items m with Some l => l | None => [] end) st;
      assume_all relevant items lens (assume_lens m (match assoc lens m with Some l => l | None => [] end) st1)
  end.
Fixpoint mapM {A B} (f : A -> res B) (l : list A) : res (list B) :=
  match l with [] => Ok [] | a :: l => do b <- f a; do bs <- mapM f l; Ok (b :: bs) end.

Inductive inference :=
| Fixpoint_
| Next (states : list gst) (results : list (N * list N)).

(** infer_invariants, ghostmaps.py 850-940. *)
Definition infer_invariants (objs : list N) (ancestors states : list gst) (prev : list (N * list N)) : res inference :=
  match states, ancestors with
  | [], _ => Ok Fixpoint_
  | _, [] => Err
  | _, anc :: _ =>
      let ancv := get_variables objs ancestors in
      let relevant := filter (fun m => existsb (changed_in m anc) states) objs in
      do (ch, items, lens) <- infer_loop relevant anc ancv states prev relevant;
      if ch : bool then
        do news <- mapM (fun st => do st1 <- havoc relevant lens st; assume_all relevant items lens st1) ancestors;
        Ok (Next news lens)
      else Ok Fixpoint_
  end.

(** find_fixedpoint_states, executor.py 55-83. A packet handler takes a starting state to
    the states at its end; the loop is bounded by fuel. *)
Definition handler := gst -> res (list gst).
Fixpoint runs (data : list (gst * handler)) : res (list gst) :=
  match data with
  | [] => Ok []
  | (st, f) :: data => do a <- f st; do b <- runs data; Ok (a ++ b)
  end.
Fixpoint find_fixedpoint (n : nat) (objs : list N) (data : list (gst * handler)) (prev : list (N * list N)) : res (list gst) :=
  match n with
  | O => NoFuel
  | S n =>
      do results <- runs data;
      do r <- infer_invariants objs (map fst data) results prev;
      match r with
      | Fixpoint_ => Ok results
      | Next states prev' => find_fixedpoint n objs (combine states (map snd data)) prev'
      end
  end.
End Infer.
