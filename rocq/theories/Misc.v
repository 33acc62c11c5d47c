(** * Special memory, metadata, clock, statistics and program strings *)

From Coq Require Import NArith ZArith List Bool Lia Arith.
From Verif Require Import Expr Solver Heap.
Import ListNotations.
Open Scope N_scope.

(** ** Special memory objects (tool/klint/externals/verif/verif.py 11-46) *)

(** [_custom_memory(memory_count, memory_size)]: elements of [msz] bits, 0 until written. The
    values are concrete; the code works on expressions of the same widths. *)
Record cmem := mkM { mcount : N; msz : N; mel : N -> N }.
Definition cmem0 (count size : N) : cmem := mkM count size (fun _ => 0).
Definition mset (m : cmem) (i v : N) : cmem := mkM (mcount m) (msz m) (fun x => if x =? i then v else mel m x).

(** [value[hi:lo]]: claripy raises unless lo <= hi < width. [n] is the width of the result. *)
Definition slice (w v lo n : N) : res N :=
  if (1 <=? n) && (lo + n <=? w) then Ok (low n (N.shiftr v lo)) else Err.

(** verif.py 12-26; [size] in bytes, [off] in bits. *)
Definition cread (m : cmem) (i off : N) (size : option N) (reverse : bool) : res N :=
  let n := match size with None => msz m | Some b => b * 8 end in
  if i <? mcount m then
    do v <- slice (msz m) (mel m i) off n;
    if reverse then reversed n v else Ok v
  else Err.
(** verif.py 28-44; the value [v] has [w] bits. *)
Definition cwrite (m : cmem) (i off v w : N) (reverse : bool) : res cmem :=
  if i <? mcount m then
    do ex <- (if reverse then reversed (msz m) (mel m i) else Ok (mel m i));
    do (v1, w1) <- (if off =? 0 then Ok (v, w) else do l <- slice (msz m) ex 0 off; Ok (cat l off v, w + off));
    do v2 <- (if w1 =? msz m then Ok v1 else do h <- slice (msz m) ex w1 (msz m - w1); Ok (cat v1 w1 h));
    do v3 <- (if reverse then reversed (msz m) v2 else Ok v2);
    Ok (mset m i v3)
  else Err.

Definition msized (m : cmem) : Prop := forall i, mel m i < 2 ^ msz m.

Lemma slice_ok : forall w v lo n x, slice w v lo n = Ok x -> 1 <= n /\ lo + n <= w /\ x = low n (N.shiftr v lo).
Proof.
  intros w v lo n x H. unfold slice in H. destruct ((1 <=? n) && (lo + n <=? w)) eqn:E; [|discriminate].
  apply andb_prop in E as [A B]. apply N.leb_le in A, B. injection H as <-. auto.
Qed.

Lemma cwrite_bits : forall m i off v w m', msized m -> v < 2 ^ w -> 1 <= w -> cwrite m i off v w false = Ok m' ->
  i < mcount m /\ off + w <= msz m /\ mcount m' = mcount m /\ msz m' = msz m /\ msized m' /\
  (forall j, j <> i -> mel m' j = mel m j) /\
  forall b, N.testbit (mel m' i) b = if (off <=? b) && (b <? off + w) then N.testbit v (b - off) else N.testbit (mel m i) b.
Proof.
  intros m i off v w m' MS V W H. unfold cwrite in H. destruct (N.ltb_spec i (mcount m)) as [I|]; [|discriminate].
  cbn [bindr] in H.
  assert (S1 : exists v1 w1, (if off =? 0 then Ok (v, w) else do l <- slice (msz m) (mel m i) 0 off; Ok (cat l off v, w + off)) = Ok (v1, w1) /\
    w1 = w + off /\ v1 < 2 ^ w1 /\ forall b, N.testbit v1 b = if b <? off then N.testbit (mel m i) b else N.testbit v (b - off)).
  { destruct (N.eqb_spec off 0) as [->|NZ].
    - exists v, w. rewrite N.add_0_r. repeat split; auto. intros b. rewrite N.sub_0_r. destruct (N.ltb_spec b 0); [lia|auto].
    - destruct (slice (msz m) (mel m i) 0 off) as [l| |] eqn:E; cbn [bindr] in H; try discriminate.
      apply slice_ok in E as [_ [_ ->]]. cbn [bindr]. do 2 eexists. split; [reflexivity|]. split; [reflexivity|].
      split; [rewrite N.add_comm; apply cat_lt; [apply low_lt|exact V]|].
      intros b. rewrite cat_bits by apply low_lt. rewrite low_bits, N.shiftr_0_r.
      destruct (N.ltb_spec b off); reflexivity. }
  destruct S1 as [v1 [w1 [E1 [W1 [L1 B1]]]]]. rewrite E1 in H. cbn [bindr] in H.
  assert (S2 : exists v2, (if w1 =? msz m then Ok v1 else do h <- slice (msz m) (mel m i) w1 (msz m - w1); Ok (cat v1 w1 h)) = Ok v2 /\
    w1 <= msz m /\ v2 < 2 ^ msz m /\ forall b, N.testbit v2 b = if b <? w1 then N.testbit v1 b else N.testbit (mel m i) b).
  { destruct (N.eqb_spec w1 (msz m)) as [E|NE].
    - exists v1. repeat split; [lia|rewrite <- E; exact L1|]. intros b. destruct (N.ltb_spec b w1) as [L|L]; [auto|].
      rewrite (bits_small w1 v1 b L1 L). symmetry. apply (bits_small (msz m)); [apply MS|lia].
    - destruct (slice (msz m) (mel m i) w1 (msz m - w1)) as [h| |] eqn:E; cbn [bindr] in H; try discriminate.
      apply slice_ok in E as [A [B ->]]. cbn [bindr]. eexists. split; [reflexivity|]. split; [lia|]. split.
      + replace (msz m) with (w1 + (msz m - w1)) at 2 by lia. apply cat_lt; [exact L1|apply low_lt].
      + intros b. rewrite cat_bits by exact L1. destruct (N.ltb_spec b w1) as [L|L]; [auto|].
        rewrite low_bits, N.shiftr_spec'. replace (b - w1 + w1) with b by lia.
        destruct (N.ltb_spec (b - w1) (msz m - w1)); [auto|]. cbn. symmetry. apply (bits_small (msz m)); [apply MS|lia]. }
  destruct S2 as [v2 [E2 [LE [L2 B2]]]]. rewrite E2 in H. cbn [bindr] in H. injection H as <-.
  split; [exact I|]. split; [lia|]. split; [reflexivity|]. split; [reflexivity|]. split.
  { intros j. cbn. destruct (j =? i); [exact L2|apply MS]. }
  split. { intros j NE. cbn. destruct (N.eqb_spec j i); [congruence|auto]. }
  intros b. cbn [mset mel]. rewrite N.eqb_refl, B2, B1. subst w1.
  destruct (N.ltb_spec b (w + off)); destruct (N.ltb_spec b off); destruct (N.leb_spec off b); destruct (N.ltb_spec b (off + w)); cbn; try reflexivity; lia.
Qed.

Lemma cread_bits : forall m i off size v, msized m -> cread m i off (Some size) false = Ok v ->
  v < 2 ^ (size * 8) /\ forall b, b < size * 8 -> N.testbit v b = N.testbit (mel m i) (b + off).
Proof.
  intros m i off size v MS H. unfold cread in H. destruct (i <? mcount m); [|discriminate].
  destruct (slice (msz m) (mel m i) off (size * 8)) as [x| |] eqn:E; cbn [bindr] in H; try discriminate.
  apply slice_ok in E as [_ [_ ->]]. injection H as <-. split; [apply low_lt|].
  intros b B. rewrite low_bits, N.shiftr_spec'. destruct (N.ltb_spec b (size * 8)); [reflexivity|lia].
Qed.

Lemma cwrite_cread : forall m i off v size m', msized m -> v < 2 ^ (size * 8) -> 1 <= size ->
  cwrite m i off v (size * 8) false = Ok m' -> cread m' i off (Some size) false = Ok v.
Proof.
  intros m i off v size m' MS V S H. destruct (cwrite_bits m i off v (size * 8) m' MS V ltac:(lia) H) as [I [LE [C [Z [MS' [_ B]]]]]].
  assert (E : exists x, cread m' i off (Some size) false = Ok x).
  { unfold cread, slice. rewrite C, Z. destruct (N.ltb_spec i (mcount m)); [|lia].
    destruct (N.leb_spec 1 (size * 8)); [|lia]. destruct (N.leb_spec (off + size * 8) (msz m)); [|lia]. cbn. eauto. }
  destruct E as [x E]. rewrite E. f_equal. destruct (cread_bits _ _ _ _ _ MS' E) as [LX BX].
  apply (bits_eq (size * 8)); auto. intros b HB. rewrite (BX b HB), B.
  destruct (N.leb_spec off (b + off)); [|lia]. destruct (N.ltb_spec (b + off) (off + size * 8)); [|lia].
  cbn. f_equal. lia.
Qed.

Lemma cwrite_cread_other : forall m i off v w m' j off' size x, msized m -> v < 2 ^ w -> 1 <= w ->
  cwrite m i off v w false = Ok m' ->
  j <> i \/ off' + size * 8 <= off \/ off + w <= off' ->
  (cread m' j off' (Some size) false = Ok x <-> cread m j off' (Some size) false = Ok x).
Proof.
  intros m i off v w m' j off' size x MS V W H D. destruct (cwrite_bits m i off v w m' MS V W H) as [I [LE [C [Z [MS' [O B]]]]]].
  unfold cread. rewrite C, Z. destruct (j <? mcount m); [|tauto]. cbn [bindr].
  assert (E : slice (msz m) (mel m' j) off' (size * 8) = slice (msz m) (mel m j) off' (size * 8)); [|rewrite E; tauto].
  unfold slice. destruct ((1 <=? size * 8) && (off' + size * 8 <=? msz m)); [|reflexivity]. f_equal.
  destruct (N.eq_dec j i) as [->|NE]; [|rewrite (O j NE); reflexivity].
  destruct D as [D|D]; [congruence|].
  apply N.bits_inj. intros b. rewrite !low_bits, !N.shiftr_spec', B.
  destruct (N.ltb_spec b (size * 8)) as [L|L]; [|reflexivity]. cbn.
  destruct (N.leb_spec off (b + off')); destruct (N.ltb_spec (b + off') (off + w)); cbn; try reflexivity; lia.
Qed.

Lemma cwrite_reverse_whole : forall m i v m', msized m -> v < 2 ^ msz m ->
  cwrite m i 0 v (msz m) true = Ok m' -> 1 <= msz m -> cread m' i 0 None true = Ok v.
Proof.
  intros m i v m' MS V H NZ. unfold cwrite in H. destruct (N.ltb_spec i (mcount m)) as [I|]; [|discriminate].
  destruct (reversed (msz m) (mel m i)) as [ex| |]; cbn [bindr] in H; try discriminate.
  cbn [N.eqb bindr] in H. rewrite N.eqb_refl in H. cbn [bindr] in H.
  destruct (reversed (msz m) v) as [v3| |] eqn:E; cbn [bindr] in H; try discriminate. injection H as <-.
  unfold cread, slice. cbn [mset mcount msz mel]. rewrite N.eqb_refl. destruct (N.ltb_spec i (mcount m)); [|lia].
  destruct (N.leb_spec 1 (msz m)); [|lia]. destruct (N.leb_spec (0 + msz m) (msz m)); [|lia]. cbn [andb bindr].
  rewrite N.shiftr_0_r. rewrite low_small by apply (reversed_ok _ _ _ E).
  apply reversed_reversed; auto.
Qed.

(** ** Metadata (tool/kalm/plugins/metadata.py) *)

Section Metadata.
Variable V : Type.
Variable cls : V -> N.   (* type(value) *)
Variable veq : V -> V -> bool.   (* structural_eq on values *)

(** cache_key is the identity of a hash-consed expression: structural equality. None is
    also a key. *)
Definition key_eqb (a b : option bv) : bool :=
  match a, b with Some x, Some y => bv_eqb x y | None, None => true | _, _ => false end.

(** A dict of dicts; both are kept in insertion order. *)
Definition mdict := list (option bv * V).
Definition mitems := list (N * mdict).
Fixpoint md_set (d : mdict) (k : option bv) (v : V) : mdict :=
  match d with
  | [] => [(k, v)]
  | (k', v') :: d => if key_eqb k' k then (k', v) :: d else (k', v') :: md_set d k v
  end.
Definition md_get (d : mdict) (k : option bv) : option V :=
  option_map snd (find (fun p => key_eqb (fst p) k) d).
Definition m_all (m : mitems) (c : N) : mdict :=
  match find (fun p => fst p =? c) m with Some p => snd p | None => [] end.
(** metadata.py 26-27 *)
Fixpoint m_append (m : mitems) (k : option bv) (v : V) : mitems :=
  match m with
  | [] => [(cls v, [(k, v)])]
  | (c, d) :: m => if c =? cls v then (c, md_set d k v) :: m else (c, d) :: m_append m k v
  end.
(** metadata.py 38-41 *)
Definition m_get_or_none (m : mitems) (c : N) (k : option bv) : option V := md_get (m_all m c) k.
(** metadata.py 32-36 *)
Definition m_get_one (m : mitems) (c : N) : res V :=
  match m_all m c with [(_, v)] => Ok v | _ => Err end.
(** metadata.py 43-50; [init] is what default_init would return. *)
Definition m_get (m : mitems) (c : N) (k : option bv) (init : option V) : res (mitems * V) :=
  match m_get_or_none m c k with
  | Some v => Ok (m, v)
  | None => match init with None => Err | Some v => Ok (m_append m k v, v) end
  end.
(** metadata.py 53-65. [k.ast] of the None key raises; it is evaluated for every item if
    there is a key to look for. *)
Definition m_find (m : mitems) (c : N) (keys : list bv) : res (option (bv * V)) :=
  let d := m_all m c in
  if match keys with [] => false | _ => existsb (fun p => match fst p with None => true | _ => false end) d end then Err
  else
    match flat_map (fun key => flat_map (fun p => match fst p with Some k => if bv_eqb key k then [(k, snd p)] else [] | None => [] end) d) keys with
    | [] => Ok None
    | [x] => Ok (Some x)
    | _ => Err
    end.
(** utils.structural_eq of the dicts of dicts (utils.py 121-122), metadata.py 22-24. *)
Definition md_eq (a b : mdict) : bool :=
  forallb (fun p => match md_get b (fst p) with Some v => veq (snd p) v | None => false end) a &&
  forallb (fun p => match md_get a (fst p) with Some _ => true | None => false end) b.
Definition has_cls (m : mitems) (c : N) : bool := existsb (fun p => fst p =? c) m.
Definition m_eq (a b : mitems) : bool :=
  forallb (fun p => has_cls b (fst p) && md_eq (snd p) (m_all b (fst p))) a &&
  forallb (fun p => has_cls a (fst p)) b.
Definition m_merge (self : mitems) (others : list mitems) : bool := forallb (fun o => m_eq o self) others.

Definition m_run (h : list (option bv * V)) : mitems := fold_left (fun m p => m_append m (fst p) (snd p)) h [].

Lemma key_eqb_eq : forall a b, key_eqb a b = true <-> a = b.
Proof.
  intros [a|] [b|]; cbn; split; intros H; try discriminate; try reflexivity.
  - f_equal. apply bv_eqb_eq. exact H.
  - injection H as ->. apply bv_eqb_eq. reflexivity.
Qed.
Lemma key_eqb_refl : forall a, key_eqb a a = true.
Proof. intros. apply key_eqb_eq. reflexivity. Qed.

Lemma md_get_set : forall d k v k', md_get (md_set d k v) k' = if key_eqb k k' then Some v else md_get d k'.
Proof.
  unfold md_get. induction d as [|[k0 v0] d IH]; intros k v k'; cbn [md_set find fst].
  - destruct (key_eqb k k'); reflexivity.
  - destruct (key_eqb k0 k) eqn:E; cbn [find fst].
    + apply key_eqb_eq in E. subst k0. destruct (key_eqb k k'); reflexivity.
    + destruct (key_eqb k0 k') eqn:E'.
      * destruct (key_eqb k k') eqn:E2; [|reflexivity]. apply key_eqb_eq in E2, E'. subst. rewrite key_eqb_refl in E. discriminate.
      * apply IH.
Qed.
Lemma m_all_append : forall m k v c, m_all (m_append m k v) c = if c =? cls v then md_set (m_all m c) k v else m_all m c.
Proof.
  unfold m_all. induction m as [|[c0 d] m IH]; intros k v c; cbn [m_append find fst snd].
  - rewrite N.eqb_sym. destruct (c =? cls v); reflexivity.
  - destruct (N.eqb_spec c0 (cls v)) as [->|NE]; cbn [find fst snd].
    + rewrite (N.eqb_sym c). destruct (cls v =? c); reflexivity.
    + destruct (N.eqb_spec c0 c) as [->|NE'].
      * destruct (N.eqb_spec c (cls v)); [congruence|reflexivity].
      * apply IH.
Qed.
Lemma m_get_append : forall m k v c k',
  m_get_or_none (m_append m k v) c k' = if (cls v =? c) && key_eqb k k' then Some v else m_get_or_none m c k'.
Proof.
  intros. unfold m_get_or_none. rewrite m_all_append, (N.eqb_sym c). destruct (cls v =? c); [|reflexivity].
  rewrite md_get_set. reflexivity.
Qed.

(** The last attachment to that object for that class. *)
Definition last_attached (h : list (option bv * V)) (c : N) (k : option bv) : option V :=
  option_map snd (find (fun p => (cls (snd p) =? c) && key_eqb (fst p) k) (rev h)).

Lemma m_run_snoc : forall h p, m_run (h ++ [p]) = m_append (m_run h) (fst p) (snd p).
Proof. intros. unfold m_run. rewrite fold_left_app. reflexivity. Qed.

Lemma m_run_get : forall h c k, m_get_or_none (m_run h) c k = last_attached h c k.
Proof.
  intros h c k. induction h as [|[k0 v0] h IH] using rev_ind; [reflexivity|].
  rewrite m_run_snoc. unfold last_attached. rewrite rev_app_distr. cbn [rev app find fst snd].
  rewrite m_get_append. destruct ((cls v0 =? c) && key_eqb k0 k); [reflexivity|exact IH].
Qed.

Lemma in_md_set : forall d k v p, In p (md_set d k v) -> p = (k, v) \/ In p d.
Proof.
  induction d as [|[k0 v0] d IH]; intros k v p H; cbn [md_set] in H.
  - destruct H as [<-|[]]. auto.
  - destruct (key_eqb k0 k) eqn:E.
    + apply key_eqb_eq in E. subst k0. destruct H as [<-|H]; [auto|right; right; exact H].
    + destruct H as [<-|H]; [right; left; reflexivity|]. destruct (IH _ _ _ H); [auto|right; right; auto].
Qed.
Lemma md_set_nodup : forall d k v, NoDup (map fst d) -> NoDup (map fst (md_set d k v)).
Proof.
  induction d as [|[k0 v0] d IH]; intros k v ND; cbn [md_set map fst].
  - constructor; [intros []|constructor].
  - destruct (key_eqb k0 k) eqn:E; [exact ND|]. cbn [map fst]. inversion ND as [|? ? NI ND']; subst.
    constructor; [|auto]. intros Hin. apply in_map_iff in Hin as [[k1 v1] [E1 Hin]]. cbn in E1. subst k1.
    apply in_md_set in Hin as [Hin|Hin].
    + injection Hin as -> _. rewrite key_eqb_refl in E. discriminate.
    + apply NI. apply in_map_iff. exists (k0, v1). auto.
Qed.
Lemma m_run_nodup : forall h c, NoDup (map fst (m_all (m_run h) c)).
Proof.
  intros h c. induction h as [|p h IH] using rev_ind; [constructor|].
  rewrite m_run_snoc, m_all_append. destruct (c =? cls (snd p)); [apply md_set_nodup|]; exact IH.
Qed.
Lemma m_run_cls : forall h c p, In p (m_all (m_run h) c) -> cls (snd p) = c.
Proof.
  intros h c. induction h as [|[k0 v0] h IH] using rev_ind; intros p H; [destruct H|].
  rewrite m_run_snoc, m_all_append in H. cbn [fst snd] in H. destruct (N.eqb_spec c (cls v0)) as [->|]; [|auto].
  apply in_md_set in H as [->|H]; auto.
Qed.
Lemma md_get_in : forall d k v, NoDup (map fst d) -> (md_get d k = Some v <-> In (k, v) d).
Proof.
  intros d k v ND. unfold md_get. split.
  - intros H. destruct (find (fun p => key_eqb (fst p) k) d) as [[k0 v0]|] eqn:E; [|discriminate].
    injection H as ->. apply find_some in E as [Hin E]. apply key_eqb_eq in E. cbn in E. subst. exact Hin.
  - induction d as [|[k0 v0] d IH]; intros Hin; [destruct Hin|]. inversion ND as [|? ? NI ND']; subst. cbn [find fst].
    destruct Hin as [E|Hin].
    + injection E as -> ->. rewrite key_eqb_refl. reflexivity.
    + destruct (key_eqb k0 k) eqn:E; [|auto]. apply key_eqb_eq in E. subst k0. exfalso. apply NI.
      apply in_map_iff. exists (k, v). auto.
Qed.

(** Keys that are attached, in the order asked for. *)
Definition attached (h : list (option bv * V)) (c : N) (keys : list bv) : list (bv * V) :=
  flat_map (fun k => match last_attached h c (Some k) with Some v => [(k, v)] | None => [] end) keys.

Lemma matches_one : forall d key, NoDup (map fst d) ->
  flat_map (fun p : option bv * V => match fst p with Some k => if bv_eqb key k then [(k, snd p)] else [] | None => [] end) d
  = match md_get d (Some key) with Some v => [(key, v)] | None => [] end.
Proof.
  intros d key. unfold md_get. induction d as [|[k0 v0] d IH]; intros ND; [reflexivity|].
  inversion ND as [|? ? NI ND']; subst. cbn [flat_map find fst snd]. destruct k0 as [k0|]; cbn [key_eqb].
  - destruct (bv_eqb key k0) eqn:E.
    + apply bv_eqb_eq in E. subst k0. rewrite (proj2 (bv_eqb_eq key key) eq_refl). cbn [option_map snd app].
      replace (flat_map _ d) with (@nil (bv * V)); [reflexivity|]. symmetry.
      clear IH ND ND'. induction d as [|[k1 v1] d IH]; [reflexivity|]. cbn [flat_map fst snd].
      destruct k1 as [k1|]; [|cbn; apply IH; intros H; apply NI; right; exact H].
      destruct (bv_eqb key k1) eqn:E1; [apply bv_eqb_eq in E1; subst; exfalso; apply NI; left; reflexivity|].
      cbn. apply IH. intros H. apply NI. right. exact H.
    + cbn. destruct (bv_eqb k0 key) eqn:E1; [apply bv_eqb_eq in E1; subst; rewrite (proj2 (bv_eqb_eq key key) eq_refl) in E; discriminate|].
      apply IH. exact ND'.
  - cbn. apply IH. exact ND'.
Qed.

Lemma m_find_spec : forall h c keys, last_attached h c None = None ->
  m_find (m_run h) c keys = match attached h c keys with [] => Ok None | [x] => Ok (Some x) | _ => Err end.
Proof.
  intros h c keys NN. unfold m_find.
  assert (X : existsb (fun p : option bv * V => match fst p with None => true | _ => false end) (m_all (m_run h) c) = false).
  { destruct (existsb _ (m_all (m_run h) c)) eqn:E; [|reflexivity]. apply existsb_exists in E as [[k v] [Hin E]].
    cbn in E. destruct k; [discriminate|]. rewrite <- m_run_get in NN. unfold m_get_or_none in NN.
    apply (md_get_in _ _ _ (m_run_nodup h c)) in Hin. congruence. }
  rewrite X. replace (match keys with [] => false | _ => false end) with false by (destruct keys; reflexivity).
  replace (flat_map _ keys) with (attached h c keys); [reflexivity|].
  unfold attached. apply flat_map_ext. intros key. rewrite (matches_one _ _ (m_run_nodup h c)).
  rewrite <- m_run_get. reflexivity.
Qed.

Lemma m_all_has : forall m c, has_cls m c = false -> m_all m c = [].
Proof.
  intros m c H. unfold m_all. destruct (find (fun p => fst p =? c) m) eqn:E; [|reflexivity].
  apply find_some in E as [Hin E]. unfold has_cls in H.
  assert (existsb (fun p => fst p =? c) m = true) by (apply existsb_exists; eauto). congruence.
Qed.
Lemma m_run_shape : forall h, NoDup (map fst (m_run h)) /\ forall c d, In (c, d) (m_run h) -> d <> [] .
Proof.
  intros h. induction h as [|[k v] h IH] using rev_ind; [split; [constructor|intros c d []]|].
  rewrite m_run_snoc. cbn [fst snd]. destruct IH as [ND NE]. revert ND NE. generalize (m_run h). clear h.
  assert (MS : forall d, md_set d k v <> []). { intros [|[k0 v0] d]; cbn; [discriminate|]. destruct (key_eqb k0 k); discriminate. }
  assert (F : forall m, map fst (m_append m k v) = map fst m \/ (~ In (cls v) (map fst m) /\ map fst (m_append m k v) = map fst m ++ [cls v])).
  { induction m as [|[c0 d] m IHm]; cbn [m_append map fst]; [right; auto|].
    destruct (N.eqb_spec c0 (cls v)) as [->|N0]; cbn [map fst]; [auto|].
    destruct IHm as [->|[NI ->]]; [auto|]. right. split; [intros [?|?]; auto|reflexivity]. }
  intros m ND NE. split.
  - destruct (F m) as [->|[NI ->]]; [exact ND|]. apply NoDup_rev in ND. rewrite <- rev_involutive. apply NoDup_rev. rewrite rev_app_distr. cbn.
    constructor; [rewrite <- in_rev; exact NI|exact ND].
  - clear ND F. induction m as [|[c0 d0] m IHm]; intros c d H; cbn [m_append] in H.
    + destruct H as [H|[]]. injection H as <- <-. discriminate.
    + destruct (c0 =? cls v).
      * destruct H as [H|H]; [injection H as <- <-; apply MS|]. apply (NE c d). right. exact H.
      * destruct H as [H|H]; [injection H as <- <-; apply (NE c0 d0); left; reflexivity|].
        apply (IHm (fun c d H => NE c d (or_intror H)) c d H).
Qed.

Definition same_metadata (a b : list (option bv * V)) : Prop :=
  forall c k, match last_attached a c k, last_attached b c k with
              | Some v, Some v' => veq v v' = true
              | None, None => True
              | _, _ => False
              end.

Lemma in_m_all : forall h c d, In (c, d) (m_run h) -> m_all (m_run h) c = d.
Proof.
  intros h c d H. destruct (m_run_shape h) as [ND _]. unfold m_all.
  destruct (find (fun p => fst p =? c) (m_run h)) as [[c' d']|] eqn:E.
  - apply find_some in E as [Hin E]. apply N.eqb_eq in E. cbn in E. subst c'. cbn.
    clear - ND H Hin. induction (m_run h) as [|[c0 d0] m IH]; [destruct H|]. inversion ND as [|? ? NI ND']; subst.
    assert (X : forall x, In (c, x) m -> In c (map fst m)) by (intros x Hx; apply in_map_iff; exists (c, x); auto).
    destruct H as [H|H]; destruct Hin as [Hi|Hi].
    + congruence.
    + injection H as -> ->. exfalso. apply NI. eapply X; eauto.
    + injection Hi as -> ->. exfalso. apply NI. eapply X; eauto.
    + auto.
  - exfalso. pose proof (find_none _ _ E _ H) as X. cbn in X. rewrite N.eqb_refl in X. discriminate.
Qed.
Lemma has_cls_in : forall m c, has_cls m c = true <-> exists d, In (c, d) m.
Proof.
  intros m c. unfold has_cls. rewrite existsb_exists. split.
  - intros [[c' d] [H E]]. apply N.eqb_eq in E. cbn in E. subst. eauto.
  - intros [d H]. exists (c, d). split; [exact H|apply N.eqb_refl].
Qed.

Lemma m_eq_spec : forall a b, m_eq (m_run a) (m_run b) = true <-> same_metadata a b.
Proof.
  intros a b. unfold m_eq, same_metadata. split.
  - intros H c k. apply andb_prop in H as [H1 H2]. rewrite forallb_forall in H1, H2.
    rewrite <- !m_run_get. unfold m_get_or_none.
    destruct (has_cls (m_run a) c) eqn:HA.
    + apply has_cls_in in HA as [d HA]. specialize (H1 _ HA). cbn [fst snd] in H1. apply andb_prop in H1 as [_ H1].
      rewrite (in_m_all a c d HA). unfold md_eq in H1. apply andb_prop in H1 as [E1 E2]. rewrite forallb_forall in E1, E2.
      assert (ND : NoDup (map fst d)) by (rewrite <- (in_m_all a c d HA); apply m_run_nodup).
      destruct (md_get d k) as [v|] eqn:G.
      * apply (md_get_in _ _ _ ND) in G. specialize (E1 _ G). cbn in E1.
        destruct (md_get (m_all (m_run b) c) k); [exact E1|discriminate].
      * destruct (md_get (m_all (m_run b) c) k) as [v|] eqn:G'; [|exact I].
        apply (md_get_in _ _ _ (m_run_nodup b c)) in G'. specialize (E2 _ G'). cbn in E2. rewrite G in E2. discriminate.
    + rewrite (m_all_has _ _ HA). cbn. destruct (has_cls (m_run b) c) eqn:HB.
      * apply has_cls_in in HB as [d HB]. specialize (H2 _ HB). cbn in H2. congruence.
      * rewrite (m_all_has _ _ HB). exact I.
  - intros H.
    assert (E : forall c k, match md_get (m_all (m_run a) c) k, md_get (m_all (m_run b) c) k with
        | Some v, Some v' => veq v v' = true | None, None => True | _, _ => False end).
    { intros c k. specialize (H c k). rewrite <- !m_run_get in H. exact H. }
    assert (NEa : forall h c, m_all (m_run h) c <> [] -> has_cls (m_run h) c = true).
    { intros h c NE. destruct (has_cls (m_run h) c) eqn:X; [reflexivity|]. apply m_all_has in X. congruence. }
    assert (HH : forall h c d, In (c, d) (m_run h) -> exists k v, md_get (m_all (m_run h) c) k = Some v).
    { intros h c d Hin. rewrite (in_m_all h c d Hin). destruct (m_run_shape h) as [_ NE]. specialize (NE c d Hin).
      destruct d as [|[k v] d]; [congruence|]. exists k, v. unfold md_get. cbn. rewrite key_eqb_refl. reflexivity. }
    assert (HM : forall h c k v, md_get (m_all (m_run h) c) k = Some v -> has_cls (m_run h) c = true).
    { intros h c k v G. apply NEa. intros Z. rewrite Z in G. discriminate G. }
    apply andb_true_intro. split; apply forallb_forall; intros [c d] Hin; cbn [fst snd].
    + destruct (HH a c d Hin) as [k [v G]]. apply andb_true_intro. split.
      * specialize (E c k). rewrite G in E. destruct (md_get (m_all (m_run b) c) k) eqn:G'; [eauto|destruct E].
      * rewrite <- (in_m_all a c d Hin). unfold md_eq. apply andb_true_intro. split; apply forallb_forall; intros [k0 v0] H0; cbn [fst snd].
        -- apply (md_get_in _ _ _ (m_run_nodup a c)) in H0. specialize (E c k0). rewrite H0 in E.
           destruct (md_get (m_all (m_run b) c) k0); [exact E|destruct E].
        -- apply (md_get_in _ _ _ (m_run_nodup b c)) in H0. specialize (E c k0). rewrite H0 in E.
           destruct (md_get (m_all (m_run a) c) k0); [reflexivity|destruct E].
    + destruct (HH b c d Hin) as [k [v G]]. specialize (E c k). rewrite G in E.
      destruct (md_get (m_all (m_run a) c) k) eqn:G'; [eauto|destruct E].
Qed.
End Metadata.

(** ** The clock (tool/kalm/clock.py) *)

(** The parts of a state it uses: constraints, the next symbol, the clock's metadata. *)
Record kst := mkK { kcs : list bexp; knext : N; ktime : option (bv * bv) }.
(** clock_frequency_num is one symbol for the whole process ([freq]), 8 bits zero-extended. *)
Definition freq_num (freq : N) : bv := BvZext 56 (BVS 8 freq).
Definition freq_denom : bv := BVV 64 10.
Definition get_time_and_cycles (freq : N) (st : kst) : res (kst * (bv * bv)) :=
  match ktime st with
  | Some _ => Err
  | None =>
      let time := BVS 64 (knext st) in
      let cycles := BVS 64 (knext st + 1) in
      Ok (mkK (BNe time (BVV 64 (2 ^ 64 - 1)) :: BEq time (BvMul (BvUdiv cycles (freq_num freq)) freq_denom) :: kcs st)
              (knext st + 2) (Some (time, cycles)), (time, cycles))
  end.
(** What a state does between: adding constraints and symbols. *)
Inductive kop := KTime | KAdd (cs : list bexp) | KFresh (n : N).
Fixpoint krun (freq : N) (st : kst) (ops : list kop) : res (kst * list (bv * bv)) :=
  match ops with
  | [] => Ok (st, [])
  | KTime :: ops => do (st1, t) <- get_time_and_cycles freq st; do (st2, l) <- krun freq st1 ops; Ok (st2, t :: l)
  | KAdd cs :: ops => krun freq (mkK (cs ++ kcs st) (knext st) (ktime st)) ops
  | KFresh n :: ops => krun freq (mkK (kcs st) (knext st + n) (ktime st)) ops
  end.

Lemma krun_once : forall freq ops st st' l, krun freq st ops = Ok (st', l) ->
  (forall c, In c (kcs st) -> In c (kcs st')) /\
  match ktime st with
  | Some t => l = [] /\ ktime st' = Some t
  | None => (l = [] /\ ktime st' = None) \/
            exists n t c, t = BVS 64 n /\ c = BVS 64 (n + 1) /\ l = [(t, c)] /\ ktime st' = Some (t, c) /\
              In (BNe t (BVV 64 (2 ^ 64 - 1))) (kcs st') /\ In (BEq t (BvMul (BvUdiv c (freq_num freq)) freq_denom)) (kcs st')
  end.
Proof.
  intros freq. induction ops as [|[|cs|n] ops IH]; intros st st' l H; cbn [krun] in H.
  - injection H as <- <-. split; [auto|]. destruct (ktime st); auto.
  - unfold get_time_and_cycles in H. destruct (ktime st) eqn:K; cbn [bindr] in H; [discriminate|].
    match type of H with (do _ <- krun freq ?s1 ops; _) = _ => destruct (krun freq s1 ops) as [[st2 l2]| |] eqn:R end; cbn [bindr] in H; try discriminate.
    injection H as <- <-. apply IH in R as [A B]. cbn [kcs ktime] in *. split; [intros c Hc; apply A; right; right; exact Hc|].
    right. destruct B as [-> B]. do 3 eexists. split; [reflexivity|]. split; [reflexivity|]. split; [reflexivity|]. split; [exact B|]. split; apply A; cbn; auto.
  - apply IH in H as [A B]. cbn [kcs ktime] in *. split; [|exact B]. intros c Hc. apply A. apply in_or_app. auto.
  - apply IH in H as [A B]. cbn [kcs ktime] in *. auto.
Qed.

(** ** Statistics (tool/klint/statistics.py) *)

(** Durations are exact here; the code adds floats. Names are numbers. *)
Record stats := mkS { swork : option (N * Z); svals : list (N * Z) }.
Inductive sop := SStart (name : N) (now : Z) | SEnd (now : Z) | SSet (name : N) (v : Z).
Definition sget (l : list (N * Z)) (n : N) : option Z := option_map snd (find (fun p => fst p =? n) l).
Fixpoint sset (l : list (N * Z)) (n : N) (v : Z) : list (N * Z) :=
  match l with
  | [] => [(n, v)]
  | (n', v') :: l => if n' =? n then (n', v) :: l else (n', v') :: sset l n v
  end.
Definition sstep (st : stats) (o : sop) : res stats :=
  match o with
  | SStart n t => match swork st with None => Ok (mkS (Some (n, t)) (svals st)) | Some _ => Err end
  | SEnd t => match swork st with
              | None => Err
              | Some (n, t0) => Ok (mkS None (sset (svals st) n (match sget (svals st) n with Some v => v | None => 0 end + (t - t0)))%Z)
              end
  | SSet n v => Ok (mkS (swork st) (sset (svals st) n v))
  end.
Fixpoint srun_ops (st : stats) (ops : list sop) : res stats :=
  match ops with [] => Ok st | o :: ops => do st1 <- sstep st o; srun_ops st1 ops end.

Lemma sget_sset : forall l n v n', sget (sset l n v) n' = if n =? n' then Some v else sget l n'.
Proof.
  unfold sget. induction l as [|[n0 v0] l IH]; intros n v n'; cbn [sset find fst].
  - destruct (n =? n'); reflexivity.
  - destruct (N.eqb_spec n0 n) as [->|NE]; cbn [find fst].
    + destruct (n =? n'); reflexivity.
    + destruct (N.eqb_spec n0 n') as [->|NE'].
      * destruct (N.eqb_spec n n'); [congruence|reflexivity].
      * apply IH.
Qed.

(** A work interval: its kind, start and end. *)
Definition interval : Type := (N * Z * Z)%type.
Definition interval_ops (i : interval) : list sop := let '(n, a, b) := i in [SStart n a; SEnd b].
Definition opened (o : option (N * Z)) : list sop := match o with None => [] | Some (n, a) => [SStart n a] end.
Definition total (l : list interval) (n : N) : Z :=
  fold_right (fun '(n', a, b) acc => if n' =? n then (b - a + acc)%Z else acc) 0%Z l.

Lemma srun_intervals : forall l o vals, exists vals',
  srun_ops (mkS None vals) (flat_map interval_ops l ++ opened o) = Ok (mkS o vals') /\
  forall n, match sget vals' n with Some v => v | None => 0%Z end = (match sget vals n with Some v => v | None => 0 end + total l n)%Z.
Proof.
  induction l as [|[[n a] b] l IH]; intros o vals.
  - exists vals. split; [|intros; cbn; lia]. destruct o as [[n a]|]; reflexivity.
  - cbn [flat_map interval_ops app srun_ops sstep swork svals bindr].
    destruct (IH o (sset vals n (match sget vals n with Some v => v | None => 0 end + (b - a)))%Z) as [vals' [E T]].
    exists vals'. split; [exact E|]. intros n'. rewrite T, sget_sset. cbn [total fold_right].
    destruct (N.eqb_spec n n') as [->|]; unfold total; lia.
Qed.
Definition no_set (o : sop) : bool := match o with SSet _ _ => false | _ => true end.
Lemma srun_accepts : forall ops vals st, forallb no_set ops = true ->
  (srun_ops (mkS None vals) ops = Ok st -> exists l o, ops = flat_map interval_ops l ++ opened o).
Proof.
  intros ops. induction ops as [ops IH] using (induction_ltof1 _ (@length sop)). unfold ltof in IH. intros vals st NS H.
  destruct ops as [|o ops]; [exists [], None; reflexivity|].
  destruct o as [n a|b|n v]; [|discriminate H|discriminate NS].
  destruct ops as [|o ops]; [exists [], (Some (n, a)); reflexivity|].
  destruct o as [n' a'|b|n' v]; [discriminate H| |discriminate NS].
  cbn [srun_ops sstep swork svals bindr] in H. cbn in NS.
  destruct (IH ops ltac:(cbn; lia) _ _ NS H) as [l [o ->]].
  exists ((n, a, b) :: l), o. reflexivity.
Qed.

(** ** Program strings (tool/kalm/utils.py 13-24) *)

(** [ld p] is what loading one byte at [p] gives: an expression, or an exception. *)
Fixpoint read_str (fuel : nat) (ld : N -> res bv) (p : N) : res (list N) :=
  match fuel with
  | O => NoFuel
  | S fuel =>
      do c <- ld p;
      if symbolic c then Err
      else
        let v := ev env0 c in
        if v =? 0 then Ok []
        else do rest <- read_str fuel ld ((p + 1) mod 2 ^ 64); Ok (v :: rest)
  end.

(** The byte at [p] is [v] in every execution. *)
Definition byte_is (ld : N -> res bv) (p v : N) : Prop :=
  exists c, ld p = Ok c /\ symbolic c = false /\ forall r, ev r c = v.
Definition str_at (ld : N -> res bv) (p : N) (l : list N) : Prop :=
  (forall j v, nth_error l j = Some v -> v <> 0 /\ byte_is ld ((p + N.of_nat j) mod 2 ^ 64) v) /\
  byte_is ld ((p + N.of_nat (length l)) mod 2 ^ 64) 0.


Lemma concrete_any : forall c r, symbolic c = false -> ev r c = ev env0 c.
Proof.
  intros c r H. unfold symbolic in H. destruct (vvars c) eqn:A; [|discriminate]. destruct (vbools c) eqn:B; [|discriminate].
  apply evalv_agree. rewrite A, B. split; intros ? ? ; try intros []; contradiction.
Qed.
Lemma step_mod : forall p j, ((p + 1) mod 2 ^ 64 + j) mod 2 ^ 64 = (p + (j + 1)) mod 2 ^ 64.
Proof.
  intros. rewrite N.add_mod_idemp_l by discriminate. f_equal. lia.
Qed.

Lemma read_str_ok : forall fuel ld p l, p < 2 ^ 64 -> read_str fuel ld p = Ok l -> str_at ld p l.
Proof.
  induction fuel as [|fuel IH]; intros ld p l P H; [discriminate|]. cbn [read_str] in H.
  destruct (ld p) as [c| |] eqn:L; cbn [bindr] in H; try discriminate.
  destruct (symbolic c) eqn:S; [discriminate|].
  assert (P1 : (p + 1) mod 2 ^ 64 < 2 ^ 64) by (apply N.mod_lt; discriminate).
  assert (B : byte_is ld p (ev env0 c)).
  { exists c. repeat split; auto. intros r. apply concrete_any. exact S. }
  destruct (N.eqb_spec (ev env0 c) 0) as [Z|NZ].
  - injection H as <-. split; [intros [|j] v E; discriminate E|]. cbn [length]. rewrite N.add_0_r, N.mod_small by exact P.
    rewrite <- Z. exact B.
  - destruct (read_str fuel ld ((p + 1) mod 2 ^ 64)) as [rest| |] eqn:R; cbn [bindr] in H; try discriminate. injection H as <-.
    apply (IH _ _ _ P1) in R as [R1 R2]. split.
    + intros [|j] v E; cbn [nth_error] in E.
      * injection E as <-. cbn [N.of_nat]. rewrite N.add_0_r, N.mod_small by exact P. auto.
      * destruct (R1 j v E) as [V X]. rewrite step_mod in X. split; [exact V|].
        replace (N.of_nat (Datatypes.S j)) with (N.of_nat j + 1) by lia. exact X.
    + rewrite step_mod in R2. cbn [length]. replace (N.of_nat (Datatypes.S (length rest))) with (N.of_nat (length rest) + 1) by lia. exact R2.
Qed.
Lemma read_str_complete : forall l ld p fuel, p < 2 ^ 64 -> str_at ld p l -> (length l < fuel)%nat -> read_str fuel ld p = Ok l.
Proof.
  induction l as [|v l IH]; intros ld p fuel P [H1 H2] F; (destruct fuel as [|fuel]; [lia|]); cbn [read_str].
  - cbn [length N.of_nat] in H2. rewrite N.add_0_r, N.mod_small in H2 by exact P. destruct H2 as [c [L [S E]]].
    rewrite L. cbn [bindr]. rewrite S, (E env0). reflexivity.
  - destruct (H1 0%nat v eq_refl) as [NZ B]. cbn [N.of_nat] in B. rewrite N.add_0_r, N.mod_small in B by exact P.
    destruct B as [c [L [S E]]]. rewrite L. cbn [bindr]. rewrite S, (E env0). destruct (N.eqb_spec v 0); [contradiction|].
    rewrite (IH ld ((p + 1) mod 2 ^ 64) fuel); [reflexivity|apply N.mod_lt; discriminate| |cbn [length] in F; lia].
    split.
    + intros j w Hj. rewrite step_mod. destruct (H1 (Datatypes.S j) w Hj) as [W X]. split; [exact W|].
      replace (N.of_nat j + 1) with (N.of_nat (Datatypes.S j)) by lia. exact X.
    + rewrite step_mod. replace (N.of_nat (length l) + 1) with (N.of_nat (length (v :: l))) by (cbn [length]; lia). exact H2.
Qed.
(** A byte that cannot be read, or depends on the execution, before any zero: an error. *)
Lemma read_str_rejects : forall l ld p fuel, p < 2 ^ 64 ->
  (forall j v, nth_error l j = Some v -> v <> 0 /\ byte_is ld ((p + N.of_nat j) mod 2 ^ 64) v) ->
  match ld ((p + N.of_nat (length l)) mod 2 ^ 64) with Ok c => symbolic c = true | Err => True | NoFuel => False end ->
  (length l < fuel)%nat -> read_str fuel ld p = Err.
Proof.
  induction l as [|v l IH]; intros ld p fuel P H1 H2 F; (destruct fuel as [|fuel]; [lia|]); cbn [read_str].
  - cbn [length N.of_nat] in H2. rewrite N.add_0_r, N.mod_small in H2 by exact P.
    destruct (ld p) as [c| |]; cbn [bindr]; [rewrite H2; reflexivity|reflexivity|destruct H2].
  - destruct (H1 0%nat v eq_refl) as [NZ B]. cbn [N.of_nat] in B. rewrite N.add_0_r, N.mod_small in B by exact P.
    destruct B as [c [L [S E]]]. rewrite L. cbn [bindr]. rewrite S, (E env0). destruct (N.eqb_spec v 0); [contradiction|].
    rewrite (IH ld ((p + 1) mod 2 ^ 64) fuel); [reflexivity|apply N.mod_lt; discriminate| | |cbn [length] in F; lia].
    + intros j w Hj. rewrite step_mod. destruct (H1 (Datatypes.S j) w Hj) as [W X]. split; [exact W|].
      replace (N.of_nat j + 1) with (N.of_nat (Datatypes.S j)) by lia. exact X.
    + rewrite step_mod. replace (N.of_nat (length l) + 1) with (N.of_nat (length (v :: l))) by (cbn [length]; lia). exact H2.
Qed.
