(** * Structural comparison (tool/kalm/utils.py 110-142) *)

From Coq Require Import NArith ZArith List Bool Lia.
From Verif Require Import Expr.
Import ListNotations.
Open Scope N_scope.

(** The Python values structural_eq is called on: None, expressions, objects with
    _asdict (namedtuples, ghost maps), dicts, strings, lists and tuples, and numbers or
    booleans. Field names and dict keys are numbers. *)
Inductive pyval :=
| PNone
| PBv (e : bv)
| PBool (e : bexp)
| PTuple (fields : list (N * pyval))
| PDict (items : list (N * pyval))
| PStr (s : list N)
| PSeq (l : list pyval)
| PAtom (z : Z).

Definition lookup {A} (k : N) (l : list (N * A)) : option A :=
  option_map snd (find (fun p => fst p =? k) l).
Definition has_key {A} (k : N) (l : list (N * A)) : bool := existsb (fun p => fst p =? k) l.

Fixpoint str_eqb (a b : list N) : bool :=
  match a, b with
  | [], [] => true
  | x :: a', y :: b' => (x =? y) && str_eqb a' b'
  | _, _ => false
  end.

(** utils.py 110-127. The loop over the union of both key sets is split into the keys
    of [a] and the keys of [b]. Calls that mix kinds of values, which the signature
    (a: T, b: T) excludes, return false here. *)
Fixpoint structural_eq (a b : pyval) : bool :=
  match a, b with
  | PNone, PNone => true
  | PBv x, PBv y => bv_eqb x y
  | PBool x, PBool y => bexp_eqb x y
  | PTuple x, PTuple y | PDict x, PDict y =>
      forallb (fun p => match lookup (fst p) y with Some v => structural_eq (snd p) v | None => false end) x
      && forallb (fun p => has_key (fst p) x) y
  | PStr x, PStr y => str_eqb x y
  | PSeq x, PSeq y =>
      (fix all2 (x y : list pyval) : bool :=
         match x, y with
         | [], [] => true
         | u :: x', v :: y' => structural_eq u v && all2 x' y'
         | _, _ => false
         end) x y
  | PAtom x, PAtom y => Z.eqb x y
  | _, _ => false
  end.

(** utils.py 130-142 on expressions. The dict [right_found] is keyed by hash-consed
    expressions: an association list in insertion order without duplicates. *)
Fixpoint dict_set (k : bexp) (v : bool) (d : list (bexp * bool)) : list (bexp * bool) :=
  match d with
  | [] => [(k, v)]
  | (k', v') :: d' => if bexp_eqb k' k then (k', v) :: d' else (k', v') :: dict_set k v d'
  end.
Definition right_found0 (right : list bexp) : list (bexp * bool) :=
  fold_left (fun d r => dict_set r false d) right [].
Fixpoint diff_loop (left right : list bexp) (only_left both : list bexp) (found : list (bexp * bool))
  : list bexp * list bexp * list (bexp * bool) :=
  match left with
  | [] => (only_left, both, found)
  | item :: left' =>
      if existsb (fun cand => bexp_eqb item cand) right
      then diff_loop left' right only_left (both ++ [item]) (dict_set item true found)
      else diff_loop left' right (only_left ++ [item]) both found
  end.
Definition structural_diff (left right : list bexp) : list bexp * list bexp * list bexp :=
  let '(ol, both, found) := diff_loop left right [] [] (right_found0 right) in
  (ol, both, map fst (filter (fun p => negb (snd p)) found)).

(** * Specification *)

(** Built identically: same constructors, same leaves; dicts and named fields compare
    by key whatever the order. *)
Inductive same : pyval -> pyval -> Prop :=
| same_none : same PNone PNone
| same_bv : forall e, same (PBv e) (PBv e)
| same_bool : forall e, same (PBool e) (PBool e)
| same_tuple : forall x y, same_fields x y -> same (PTuple x) (PTuple y)
| same_dict : forall x y, same_fields x y -> same (PDict x) (PDict y)
| same_str : forall s, same (PStr s) (PStr s)
| same_seq : forall x y, same_list x y -> same (PSeq x) (PSeq y)
| same_atom : forall z, same (PAtom z) (PAtom z)
with same_fields : list (N * pyval) -> list (N * pyval) -> Prop :=
| sf_intro : forall x y,
    (forall k, In k (map fst x) <-> In k (map fst y)) ->
    (forall k u v, In (k, u) x -> In (k, v) y -> same u v) -> same_fields x y
with same_list : list pyval -> list pyval -> Prop :=
| sl_nil : same_list [] []
| sl_cons : forall u v x y, same u v -> same_list x y -> same_list (u :: x) (v :: y).

(** Dicts and objects have each key once. *)
Inductive wfv : pyval -> Prop :=
| wf_none : wfv PNone
| wf_bv : forall e, wfv (PBv e)
| wf_bool : forall e, wfv (PBool e)
| wf_tuple : forall x, NoDup (map fst x) -> (forall k v, In (k, v) x -> wfv v) -> wfv (PTuple x)
| wf_dict : forall x, NoDup (map fst x) -> (forall k v, In (k, v) x -> wfv v) -> wfv (PDict x)
| wf_str : forall s, wfv (PStr s)
| wf_seq : forall l, (forall v, In v l -> wfv v) -> wfv (PSeq l)
| wf_atom : forall z, wfv (PAtom z).

(** * Proofs *)

Section Ind.
Variable P : pyval -> Prop.
Hypothesis Hnone : P PNone.
Hypothesis Hbv : forall e, P (PBv e).
Hypothesis Hbool : forall e, P (PBool e).
Hypothesis Htuple : forall x, (forall k v, In (k, v) x -> P v) -> P (PTuple x).
Hypothesis Hdict : forall x, (forall k v, In (k, v) x -> P v) -> P (PDict x).
Hypothesis Hstr : forall s, P (PStr s).
Hypothesis Hseq : forall l, (forall v, In v l -> P v) -> P (PSeq l).
Hypothesis Hatom : forall z, P (PAtom z).
Fixpoint pyval_ind2 (v : pyval) : P v.
Proof.
  assert (F : forall x : list (N * pyval), (forall k v, In (k, v) x -> P v)).
  { fix F 1. intros [|[k0 v0] x] k u Hin; [destruct Hin|].
    destruct Hin as [E|Hin].
    - replace u with v0 by congruence. apply pyval_ind2.
    - apply (F x k u Hin). }
  assert (G : forall l : list pyval, (forall v, In v l -> P v)).
  { fix G 1. intros [|v0 l] u Hin; [destruct Hin|].
    destruct Hin as [<-|Hin]; [apply pyval_ind2|apply (G l u Hin)]. }
  destruct v.
  - exact Hnone.
  - apply Hbv.
  - apply Hbool.
  - apply Htuple. apply F.
  - apply Hdict. apply F.
  - apply Hstr.
  - apply Hseq. apply G.
  - apply Hatom.
Defined.
End Ind.

Lemma str_eqb_eq : forall a b, str_eqb a b = true <-> a = b.
Proof.
  induction a as [|x a IH]; destruct b as [|y b]; cbn; split; try discriminate; auto.
  - rewrite andb_true_iff, N.eqb_eq, IH. intros [-> ->]. auto.
  - intros E. injection E as -> ->. rewrite N.eqb_refl. apply IH. auto.
Qed.

Lemma lookup_in : forall A k (l : list (N * A)) v, lookup k l = Some v -> In (k, v) l.
Proof.
  intros A k l v H. unfold lookup in H. destruct (find _ l) as [[k' v']|] eqn:E; [|discriminate].
  apply find_some in E as [Hin Hk]. apply N.eqb_eq in Hk. cbn in *. congruence.
Qed.
Lemma lookup_none : forall A k (l : list (N * A)), lookup k l = None -> ~ In k (map fst l).
Proof.
  intros A k l H Hin. unfold lookup in H. destruct (find _ l) as [[k' v']|] eqn:E; [discriminate|].
  apply in_map_iff in Hin as [[k' v'] [<- Hin]]. apply find_none with (x := (k', v')) in E; auto.
  cbn in E. rewrite N.eqb_refl in E. discriminate.
Qed.
Lemma nodup_in : forall A k (l : list (N * A)) u v, NoDup (map fst l) -> In (k, u) l -> In (k, v) l -> u = v.
Proof.
  induction l as [|[k' w] l IH]; cbn; intros u v ND Hu Hv; [destruct Hu|].
  inversion ND as [|? ? HN HD]; subst.
  destruct Hu as [Eu|Hu], Hv as [Ev|Hv]; try congruence.
  - exfalso. apply HN. injection Eu as -> ->. apply in_map_iff. exists (k, v). auto.
  - exfalso. apply HN. injection Ev as -> ->. apply in_map_iff. exists (k, u). auto.
  - eauto.
Qed.
Lemma has_key_in : forall A k (l : list (N * A)), has_key k l = true <-> In k (map fst l).
Proof.
  intros. unfold has_key. rewrite existsb_exists, in_map_iff. split.
  - intros [p [Hin E]]. apply N.eqb_eq in E. exists p. auto.
  - intros [p [E Hin]]. exists p. split; [auto|]. apply N.eqb_eq. auto.
Qed.

Lemma fields_spec : forall x y,
  (forall k v, In (k, v) x -> forall w, wfv v -> wfv w -> (structural_eq v w = true <-> same v w)) ->
  NoDup (map fst x) -> (forall k v, In (k, v) x -> wfv v) ->
  NoDup (map fst y) -> (forall k v, In (k, v) y -> wfv v) ->
  (forallb (fun p => match lookup (fst p) y with Some v => structural_eq (snd p) v | None => false end) x
   && forallb (fun p => has_key (fst p) x) y = true <-> same_fields x y).
Proof.
  intros x y IH Nx Wx Ny Wy. rewrite andb_true_iff, !forallb_forall. split.
  - intros [A B]. constructor.
    + intros k. split; intros Hk.
      * apply in_map_iff in Hk as [p [<- Hp]]. specialize (A p Hp).
        destruct (lookup (fst p) y) eqn:L; [|discriminate]. apply lookup_in in L.
        apply in_map_iff. exists (fst p, p0). auto.
      * apply in_map_iff in Hk as [p [<- Hp]]. specialize (B p Hp). apply has_key_in in B. auto.
    + intros k u v Hu Hv. specialize (A (k, u) Hu). cbn in A.
      destruct (lookup k y) as [v'|] eqn:L; [|discriminate]. apply lookup_in in L.
      assert (v' = v) by (eapply nodup_in; eauto). subst v'.
      apply (IH k u Hu v) in A; eauto.
  - intros S. inversion S as [? ? K V]; subst. split.
    + intros [k u] Hp. cbn. destruct (lookup k y) as [v|] eqn:L.
      * apply lookup_in in L. apply (IH k u Hp v); eauto.
      * apply lookup_none in L. exfalso. apply L. apply K. apply in_map_iff. exists (k, u). auto.
    + intros [k v] Hp. cbn. apply has_key_in. apply K. apply in_map_iff. exists (k, v). auto.
Qed.

Lemma structural_eq_spec : forall a b, wfv a -> wfv b -> (structural_eq a b = true <-> same a b).
Proof.
  induction a as [|e|e|x IH|x IH|s|l IH|z] using pyval_ind2; intros b Wa Wb;
    destruct b; cbn [structural_eq]; try (split; [discriminate|intros S; inversion S]).
  - split; [constructor|auto].
  - rewrite bv_eqb_eq. split; [intros ->; constructor|intros S; inversion S; auto].
  - rewrite bexp_eqb_eq. split; [intros ->; constructor|intros S; inversion S; auto].
  - inversion Wa; inversion Wb; subst. rewrite fields_spec; eauto.
    split; [constructor; auto|intros S; inversion S; auto].
  - inversion Wa; inversion Wb; subst. rewrite fields_spec; eauto.
    split; [constructor; auto|intros S; inversion S; auto].
  - rewrite str_eqb_eq. split; [intros ->; constructor|intros S; inversion S; auto].
  - inversion Wa as [| | | | | |? Wl|]; inversion Wb as [| | | | | |? Wl0|]; subst.
    assert (E : forall l0, (forall v, In v l0 -> wfv v) ->
      (fix all2 (x y : list pyval) : bool :=
         match x, y with
         | [], [] => true
         | u :: x', v :: y' => structural_eq u v && all2 x' y'
         | _, _ => false
         end) l l0 = true <-> same_list l l0).
    { clear Wa Wb Wl0 l0. induction l as [|u l IHl]; intros [|v l0] W0; try (split; [discriminate|intros S; inversion S]).
      - split; [constructor|auto].
      - rewrite andb_true_iff. rewrite (IH u (or_introl eq_refl) v); [|apply Wl; left; auto|apply W0; left; auto].
        rewrite (IHl (fun v H => IH v (or_intror H)) (fun v H => Wl v (or_intror H)) l0 (fun v H => W0 v (or_intror H))).
        split; [intros [A B]; constructor; auto|intros S; inversion S; auto]. }
    rewrite E by auto. split; [constructor; auto|intros S; inversion S; auto].
  - rewrite Z.eqb_eq. split; [intros ->; constructor|intros S; inversion S; auto].
Qed.

(** ** structural_diff *)
Lemma dict_set_fst : forall k v d, map fst (dict_set k v d) = if existsb (fun p => bexp_eqb (fst p) k) d then map fst d else map fst d ++ [k].
Proof.
  induction d as [|[k' v'] d IH]; cbn; [auto|].
  destruct (bexp_eqb k' k) eqn:E; cbn; [auto|]. rewrite IH.
  destruct (existsb _ d); reflexivity.
Qed.
Lemma dict_set_in : forall k v d k0 v0, NoDup (map fst d) ->
  (In (k0, v0) (dict_set k v d) <-> (k0 = k /\ v0 = v) \/ (k0 <> k /\ In (k0, v0) d)).
Proof.
  induction d as [|[k' v'] d IH]; cbn; intros k0 v0 ND.
  - split.
    + intros [E|[]]. injection E as <- <-. auto.
    + intros [[-> ->]|[_ []]]. auto.
  - inversion ND as [|? ? HN HD]; subst.
    destruct (bexp_eqb k' k) eqn:E.
    + apply bexp_eqb_eq in E. subst k'. cbn. split.
      * intros [X|X]; [injection X as <- <-; auto|].
        right. split; [|auto]. intros ->. apply HN. apply in_map_iff. exists (k, v0). auto.
      * intros [[-> ->]|[Hne [X|X]]]; auto. injection X as -> ->. contradiction.
    + assert (k' <> k) by (intros ->; rewrite (proj2 (bexp_eqb_eq k k) eq_refl) in E; discriminate).
      cbn. rewrite (IH k0 v0 HD). split.
      * intros [X|[X|[X Y]]]; auto. injection X as <- <-. auto.
      * intros [X|[X [Y|Y]]]; auto.
Qed.
Lemma dict_set_nodup : forall k v d, NoDup (map fst d) -> NoDup (map fst (dict_set k v d)).
Proof.
  intros k v d ND. rewrite dict_set_fst. destruct (existsb _ d) eqn:E; [auto|].
  apply NoDup_rev in ND. rewrite <- (rev_involutive (map fst d ++ [k])). apply NoDup_rev.
  rewrite rev_app_distr. cbn. constructor; [|auto].
  intros Hin. apply in_rev in Hin. apply in_map_iff in Hin as [p [<- Hp]].
  assert (existsb (fun q => bexp_eqb (fst q) (fst p)) d = true).
  { apply existsb_exists. exists p. split; [auto|]. apply bexp_eqb_eq. auto. }
  congruence.
Qed.

Lemma right_found0_spec : forall right,
  NoDup (map fst (right_found0 right)) /\
  forall k v, In (k, v) (right_found0 right) <-> In k right /\ v = false.
Proof.
  intros right. unfold right_found0.
  assert (H : forall l d, NoDup (map fst d) ->
    NoDup (map fst (fold_left (fun d r => dict_set r false d) l d)) /\
    forall k v, (forall v', In (k, v') d -> v' = false) ->
      (In (k, v) (fold_left (fun d r => dict_set r false d) l d) <-> (In k l /\ v = false) \/ In (k, v) d)).
  { induction l as [|r l IH]; cbn; intros d ND.
    - split; [auto|]. intros. tauto.
    - destruct (IH (dict_set r false d) (dict_set_nodup r false d ND)) as [A B]. split; [auto|].
      intros k v Hd. rewrite B.
      + rewrite dict_set_in by auto. destruct (bexp_eqb k r) eqn:E.
        * apply bexp_eqb_eq in E. subst. split; [tauto|]. intros [[H1 H2]|H1]; [tauto|].
          right. left. split; [auto|]. apply Hd; auto.
        * assert (k <> r) by (intros ->; rewrite (proj2 (bexp_eqb_eq r r) eq_refl) in E; discriminate).
          intuition congruence.
      + intros v' Hv. rewrite dict_set_in in Hv by auto. destruct Hv as [[_ ->]|[_ Hv]]; auto. }
  destruct (H right [] (NoDup_nil _)) as [A B]. split; [auto|].
  intros k v. rewrite B; cbn; [tauto|intros ? []].
Qed.

Lemma existsb_in : forall x l, existsb (fun c => bexp_eqb x c) l = true <-> In x l.
Proof.
  intros. rewrite existsb_exists. split.
  - intros [c [Hc E]]. apply bexp_eqb_eq in E. subst. auto.
  - intros H. exists x. split; [auto|]. apply bexp_eqb_eq. auto.
Qed.

Lemma diff_loop_spec : forall right left ol both found ol' both' found',
  NoDup (map fst found) ->
  diff_loop left right ol both found = (ol', both', found') ->
  ol' = ol ++ filter (fun x => negb (existsb (fun c => bexp_eqb x c) right)) left /\
  both' = both ++ filter (fun x => existsb (fun c => bexp_eqb x c) right) left /\
  NoDup (map fst found') /\
  (forall k v, In (k, v) found' <->
     (In k left /\ In k right /\ v = true) \/ (~ (In k left /\ In k right) /\ In (k, v) found)).
Proof.
  intros right. induction left as [|x left IH]; cbn [diff_loop filter]; intros ol both found ol' both' found' ND H.
  - injection H as <- <- <-. rewrite !app_nil_r. repeat split; auto; cbn; tauto.
  - destruct (existsb (fun cand => bexp_eqb x cand) right) eqn:E.
    + apply IH in H as [-> [-> [ND' H]]]; [|apply dict_set_nodup; auto].
      cbn [negb]. rewrite <- app_assoc. cbn [app]. repeat split; auto.
      * rewrite H, dict_set_in by auto. apply existsb_in in E.
        intros [X|[X Y]]; cbn; [tauto|]. destruct Y as [[-> ->]|[Y Z]]; [tauto|].
        right. split; [|auto]. intros [[W|W] V]; [congruence|tauto].
      * apply existsb_in in E. rewrite H, dict_set_in by auto. cbn.
        intros [[[->|X] [Y ->]]|[X Y]].
        -- destruct (in_dec (fun a b => ltac:(destruct (bexp_eqb a b) eqn:Q; [left; apply bexp_eqb_eq; auto|right; intros ->; rewrite (proj2 (bexp_eqb_eq b b) eq_refl) in Q; discriminate])) k left); [tauto|]. right. tauto.
        -- tauto.
        -- right. split; [tauto|]. right. split; [|auto]. intros ->. tauto.
    + apply IH in H as [-> [-> [ND' H]]]; [|auto].
      cbn [negb]. rewrite <- app_assoc. cbn [app]. repeat split; auto.
      * rewrite H. cbn. intros [X|[X Y]]; [tauto|]. right. split; [|auto].
        intros [[<-|W] V]; [|tauto]. apply existsb_in in V. congruence.
      * rewrite H. cbn. intros [[[<-|X] [Y Z]]|[X Y]]; [|tauto|right; tauto].
        apply existsb_in in Y. congruence.
Qed.

(** The parts returned by structural_diff. *)
Lemma structural_diff_spec : forall left right ol both onr,
  structural_diff left right = (ol, both, onr) ->
  (forall x, In x ol <-> In x left /\ ~ In x right) /\
  (forall x, In x both <-> In x left /\ In x right) /\
  (forall x, In x onr <-> In x right /\ ~ In x left) /\
  (length left = length ol + length both)%nat /\
  NoDup onr.
Proof.
  intros left right ol both onr H. unfold structural_diff in H.
  destruct (diff_loop left right [] [] (right_found0 right)) as [[ol1 both1] found] eqn:D.
  injection H as <- <- <-.
  destruct (right_found0_spec right) as [ND RF].
  apply diff_loop_spec in D as [-> [-> [ND' F]]]; [|auto]. cbn [app].
  assert (NB : forall x, negb (existsb (fun c => bexp_eqb x c) right) = true <-> ~ In x right).
  { intros x. rewrite <- existsb_in. destruct (existsb _ _); cbn; split; congruence. }
  split; [|split; [|split; [|split]]].
  - intros x. rewrite filter_In, NB. tauto.
  - intros x. rewrite filter_In, existsb_in. tauto.
  - intros x. rewrite in_map_iff. split.
    + intros [[k v] [<- Hin]]. apply filter_In in Hin as [Hin Hv]. cbn in *.
      apply negb_true_iff in Hv. subst v. apply F in Hin as [[_ [_ ?]]|[Hn Hin]]; [discriminate|].
      apply RF in Hin. tauto.
    + intros [Hr Hl]. exists (x, false). split; [auto|]. apply filter_In. split; [|auto].
      apply F. right. split; [tauto|]. apply RF. auto.
  - clear. induction left as [|x l IH]; cbn; [auto|].
    destruct (existsb _ right); cbn; lia.
  - clear - ND'. induction found as [|[k v] found IH]; cbn; [constructor|].
    inversion ND' as [|? ? HN HD]; subst. destruct v; cbn; [auto|]. constructor; [|auto].
    intros Hin. apply HN. apply in_map_iff in Hin as [p [E Hp]]. apply filter_In in Hp as [Hp _].
    apply in_map_iff. exists p. auto.
Qed.
