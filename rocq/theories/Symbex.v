(** * Peer symbolic execution of specifications

    Models tool/klint/verif/symbex.py 19-62 ([_symbex_one], [_symbex]),
    tool/klint/verif/value_proxy.py 80-105 ([ValueProxy.__bool__]) and
    tool/klint/verif/spec_prefix.py 196-211 ([choose]).

    A specification is Python code; what the machinery sees of it is the sequence of
    its calls: truth tests of symbolic booleans, constraints added to the state,
    choices, and how it ends. [spec] is that interaction tree. Simplifications: trees
    are finite (a specification that loops forever never returns), the code is
    deterministic (a replay creates the same symbols; the real run draws fresh symbol
    numbers each time), and a choice is identified by a number, so that Python's
    [is] is equality. *)

From Coq Require Import NArith List Bool Lia Arith.
From Verif Require Import Expr Solver.
Import ListNotations.
Open Scope nat_scope.

Inductive spec : Type :=
| SDone                                        (* the specification returns *)
| SFail (builtin : bool)                       (* it raises; [builtin] says whether the
                                                  exception's class is Python's own, as for
                                                  assert and [raise Exception] *)
| SIf (c : bexp) (t f : spec)                  (* a symbolic boolean is tested *)
| SAssume (c : bexp) (k : spec)                (* state.solver.add(c), e.g. by a map lookup *)
| SMust (c : bexp) (k : spec)                  (* assert not satisfiable(extra=[~c]),
                                                  spec_prefix.py 290 *)
| SChoose (cands : list N) (k : N -> spec).    (* choose(cands) *)

Definition branches := list (bexp * bool).
Definition choices := list (list N).
Definition lit (p : bexp * bool) : bexp := if snd p then fst p else BNot (fst p).

(** ** [choose], spec_prefix.py 196-211

    [symbex.choices] is mutated in place, so the choices survive an exception. The
    assertion on line 203 tests a non-empty list for truth, which always succeeds. *)
Definition heads (ch : choices) : list N := map (hd 0%N) ch.

(** Lines 205-207: drop the front of the list while an earlier choice uses it; the
    front of an empty list is an IndexError ([None]). *)
Fixpoint undupe (used : list N) (l : list N) : option (list N) :=
  match l with
  | [] => None
  | x :: l' => if existsb (N.eqb x) used then undupe used l' else Some l
  end.

Fixpoint set_nth {A} (i : nat) (x : A) (l : list A) : list A :=
  match l, i with
  | [], _ => []
  | _ :: l', O => x :: l'
  | y :: l', S i' => y :: set_nth i' x l'
  end.

(** [None]: an exception of Python's own (AssertionError on line 198 or IndexError). *)
Definition choose (ci : nat) (cands : list N) (ch : choices) : option (N * choices) :=
  match cands with
  | [] => None
  | _ =>
      let ch1 := if ci =? length ch then ch ++ [cands] else ch in
      match undupe (heads (firstn ci ch1)) (nth ci ch1 []) with
      | None => None
      | Some l => Some (hd 0%N l, set_nth ci l ch1)
      end
  end.

(** ** One path *)

Inductive outcome : Type :=
| Passed (br : branches) (ch : choices)
| Raised (builtin : bool) (ch : choices).

Definition consb (p : bexp * bool) (o : outcome) : outcome :=
  match o with Passed br ch => Passed (p :: br) ch | Raised b ch => Raised b ch end.

Section Run.
Variable s : solver.

(** value_proxy.py 90-94: [eval_upto(value, 3, extra_constraints=path_condition)]. A
    literal is answered without the solver. No outcome is a SimUnsatError, which is
    not one of Python's own exceptions. *)
Inductive truth := TBoth | TOnly (b : bool) | TNone.
Definition outcomes (cs pc : list bexp) (c : bexp) : truth :=
  match c with
  | BTrue => TOnly true
  | BFalse => TOnly false
  | _ => match sat s (c :: pc ++ cs), sat s (BNot c :: pc ++ cs) with
         | true, true => TBoth
         | true, false => TOnly true
         | false, true => TOnly false
         | false, false => TNone
         end
  end.

(** symbex.py 19-27 with value_proxy.py 80-105. [cs] is the state's constraints, [pc]
    the path condition of the branches already passed, [rest] the recorded branches
    not yet replayed, [ci] the choice index. The result lists the branches from here
    on. *)
Fixpoint run1 (sp : spec) (cs pc : list bexp) (rest : branches) (ci : nat) (ch : choices) : outcome :=
  match sp with
  | SDone => Passed rest ch
  | SFail b => Raised b ch
  | SIf c t f =>
      match outcomes cs pc c with
      | TNone => Raised false ch
      | TOnly b => run1 (if b then t else f) cs pc rest ci ch
      | TBoth =>
          let p := match rest with [] => (c, true) | p :: _ => p end in
          consb p (run1 (if snd p then t else f)
                        (lit (c, snd p) :: cs) (lit p :: pc) (tl rest) ci ch)
      end
  | SAssume c k => run1 k (c :: cs) pc rest ci ch
  | SMust c k => if sat s (BNot c :: cs) then Raised true ch else run1 k cs pc rest ci ch
  | SChoose cands k =>
      match choose ci cands ch with
      | None => Raised true ch
      | Some (x, ch1) => run1 (k x) cs pc rest (S ci) ch1
      end
  end.

(** ** All the paths of one state, symbex.py 35-49 *)

(** Line 41: drop the fully explored branches from the end. *)
Fixpoint drop_false (l : branches) : branches :=
  match l with
  | (_, false) :: l' => drop_false l'
  | _ => l
  end.
(** Lines 41-47: [None] when nothing is left to flip. *)
Definition next_branches (br : branches) : option branches :=
  match drop_false (rev br) with
  | [] => None
  | p :: l => Some (rev ((fst p, false) :: l))
  end.

Inductive passed : Type :=
| PPassed (paths : list (list bexp)) (ch : choices)
| PRaised (builtin : bool) (ch : choices)
| PFuel.

Fixpoint explore (fuel : nat) (sp : spec) (cs : list bexp) (br : branches) (ch : choices)
    (acc : list (list bexp)) : passed :=
  match fuel with
  | O => PFuel
  | S n =>
      match run1 sp cs [] br 0 ch with
      | Raised b ch' => PRaised b ch'
      | Passed br' ch' =>
          let acc' := acc ++ [map lit br'] in
          match next_branches br' with
          | None => PPassed acc' ch'
          | Some br'' => explore n sp cs br'' ch' acc'
          end
      end
  end.

(** ** All the states, and the choices, symbex.py 29-62 *)

Inductive pass : Type :=
| APassed (results : list (list (list bexp))) (ch : choices)
| ARaised (builtin : bool) (ch : choices)
| AFuel.

(** Lines 34-49. *)
Fixpoint all_states (fuel : nat) (sd : list (list bexp * spec)) (ch : choices) : pass :=
  match sd with
  | [] => APassed [] ch
  | (cs, sp) :: sd' =>
      match explore fuel sp cs [] ch [] with
      | PFuel => AFuel
      | PRaised b ch' => ARaised b ch'
      | PPassed ps ch' =>
          match all_states fuel sd' ch' with
          | APassed rs ch'' => APassed (ps :: rs) ch''
          | o => o
          end
      end
  end.

(** Line 58, on the reversed list: drop the exhausted choices from the end. Lines
    60-62: [None] when none is left, otherwise the last choice moves on. *)
Fixpoint drop_single (l : choices) : choices :=
  match l with
  | [_] :: l' => drop_single l'
  | _ => l
  end.
Definition next_choices (ch : choices) : option choices :=
  match drop_single (rev ch) with
  | [] => None
  | l :: m => Some (rev (tl l :: m))
  end.

Inductive verdict : Type :=
| Verified (chosen : list N) (results : list (list (list bexp)))
| Failed                 (* [symbex] raises *)
| VFuel.                 (* bound of the model *)

(** Lines 29-62. [fuel] bounds the number of rounds, [pfuel] the paths per state. *)
Fixpoint symbex (fuel pfuel : nat) (sd : list (list bexp * spec)) (ch : choices) : verdict :=
  match fuel with
  | O => VFuel
  | S n =>
      match all_states pfuel sd ch with
      | AFuel => VFuel
      | APassed rs ch' => Verified (heads ch') rs
      | ARaised true _ => Failed
      | ARaised false ch' =>
          match next_choices ch' with
          | None => Failed
          | Some ch'' => symbex n pfuel sd ch''
          end
      end
  end.

End Run.

(** ** What a specification means

    Under an assignment [r] of the symbols, and with the [i]-th call to choose
    returning the [i]-th element of [v], a specification runs concretely. [CStuck]:
    the assignment violates a constraint the specification added itself, so it is not
    an execution. *)
Inductive cres := CDone | CFail | CStuck.
Fixpoint crun (r : env) (v : list N) (sp : spec) (ci : nat) : cres :=
  match sp with
  | SDone => CDone
  | SFail _ => CFail
  | SIf c t f => if eb r c then crun r v t ci else crun r v f ci
  | SAssume c k => if eb r c then crun r v k ci else CStuck
  | SMust c k => if eb r c then crun r v k ci else CFail
  | SChoose _ k => crun r v (k (nth ci v 0%N)) (S ci)
  end.

Fixpoint choice_free (sp : spec) : Prop :=
  match sp with
  | SDone | SFail _ => True
  | SIf _ t f => choice_free t /\ choice_free f
  | SAssume _ k | SMust _ k => choice_free k
  | SChoose _ _ => False
  end.

(** * Facts *)

(** ** Branch lists *)

Fixpoint flip (l : branches) : option branches :=
  match l with
  | [] => None
  | (c, b) :: l' =>
      match flip l' with
      | Some m => Some ((c, b) :: m)
      | None => if b then Some [(c, false)] else None
      end
  end.

Lemma drop_false_app : forall a b,
  drop_false (a ++ b) = match drop_false a with [] => drop_false b | l => l ++ b end.
Proof.
  induction a as [|[c [|]] a IH]; intros b; [reflexivity|reflexivity|].
  cbn [app drop_false]. apply IH.
Qed.

Lemma next_flip : forall br, next_branches br = flip br.
Proof.
  unfold next_branches. induction br as [|[c b] br IH]; [reflexivity|].
  cbn [rev flip]. rewrite drop_false_app. rewrite <- IH.
  destruct (drop_false (rev br)) as [|[c' b'] l] eqn:E.
  - destruct b; reflexivity.
  - cbn [app fst]. cbn [rev]. rewrite rev_app_distr. reflexivity.
Qed.

(** ** Choices *)

(** The first [n] lists are non-empty and start with different elements. *)
Definition settled (n : nat) (ch : choices) : Prop :=
  n <= length ch /\ NoDup (heads (firstn n ch)) /\ (forall i, i < n -> nth i ch [] <> []).

Lemma undupe_spec : forall used l l', undupe used l = Some l' ->
  l' <> [] /\ ~ In (hd 0%N l') used /\ exists pre, l = pre ++ l' /\ (forall x, In x pre -> In x used).
Proof.
  intros used. induction l as [|x l IH]; intros l' H; cbn [undupe] in H; [discriminate|].
  destruct (existsb (N.eqb x) used) eqn:E.
  - apply IH in H as (H1 & H2 & pre & -> & Hp). split; [exact H1|]. split; [exact H2|].
    exists (x :: pre). split; [reflexivity|]. intros y [<-|Hy]; [|auto].
    apply existsb_exists in E as (z & Hz & Ez). apply N.eqb_eq in Ez. subst. exact Hz.
  - injection H as <-. split; [discriminate|]. split.
    + intros Hin. assert (existsb (N.eqb x) used = true) as K; [|congruence].
      apply existsb_exists. exists x. split; [exact Hin|apply N.eqb_refl].
    + exists []. split; [reflexivity|]. intros y [].
Qed.

Lemma undupe_fresh : forall used l, l <> [] -> ~ In (hd 0%N l) used -> undupe used l = Some l.
Proof.
  intros used [|x l] Hl Hn; [congruence|]. cbn [undupe].
  destruct (existsb (N.eqb x) used) eqn:E; [|reflexivity].
  apply existsb_exists in E as (z & Hz & Ez). apply N.eqb_eq in Ez. subst. destruct Hn. exact Hz.
Qed.

Lemma set_nth_length : forall A i (x : A) l, length (set_nth i x l) = length l.
Proof. induction i; destruct l; cbn [set_nth length]; auto. Qed.
Lemma set_nth_same : forall A i (x d : A) l, i < length l -> nth i (set_nth i x l) d = x.
Proof. induction i; destruct l; cbn; intros; try lia; auto. apply IHi. lia. Qed.
Lemma set_nth_other : forall A i j (x d : A) l, i <> j -> nth j (set_nth i x l) d = nth j l d.
Proof. induction i; destruct l, j; cbn; intros; try lia; auto. Qed.
Lemma set_nth_self : forall A i (d : A) l, i < length l -> set_nth i (nth i l d) l = l.
Proof. induction i; destruct l; cbn; intros; try lia; auto. f_equal. apply IHi. lia. Qed.
Lemma set_nth_firstn : forall A i (x : A) l, firstn i (set_nth i x l) = firstn i l.
Proof. induction i; destruct l; cbn; auto. f_equal. apply IHi. Qed.

Lemma heads_nth : forall ch i, nth i (heads ch) 0%N = hd 0%N (nth i ch []).
Proof. intros. unfold heads. exact (map_nth (hd 0%N) ch [] i). Qed.
Lemma heads_firstn : forall n ch, heads (firstn n ch) = firstn n (heads ch).
Proof. intros. unfold heads. symmetry. apply firstn_map. Qed.

Lemma firstn_snoc : forall A n (l : list A) d, n < length l -> firstn (S n) l = firstn n l ++ [nth n l d].
Proof. induction n; destruct l; cbn [firstn nth length app]; intros; try lia; [reflexivity|]. f_equal. apply IHn. lia. Qed.

Lemma nodup_snoc : forall A (l : list A) x, NoDup (l ++ [x]) <-> NoDup l /\ ~ In x l.
Proof.
  intros A l x. split.
  - intros H. apply NoDup_remove in H. rewrite app_nil_r in H. exact H.
  - intros [H1 H2]. induction H1 as [|y l Hy Hl IH]; cbn; [constructor; [auto|constructor]|].
    constructor.
    + intros Hin. apply in_app_or in Hin as [?|[->|[]]]; [auto|]. apply H2. left; reflexivity.
    + apply IH. intros ?. apply H2. right; assumption.
Qed.

Lemma settled_S : forall n ch, settled (S n) ch <->
  settled n ch /\ n < length ch /\ nth n ch [] <> [] /\ ~ In (hd 0%N (nth n ch [])) (heads (firstn n ch)).
Proof.
  intros n ch. unfold settled. split.
  - intros (Hl & Hd & Hne). rewrite (firstn_snoc _ n ch []) in Hd by lia.
    unfold heads in Hd. rewrite map_app in Hd. cbn [map] in Hd. apply nodup_snoc in Hd as [Hd1 Hd2].
    repeat split; try lia; auto.
  - intros ((Hl & Hd & Hne) & Hn & Hx & Hf). split; [lia|]. split.
    + rewrite (firstn_snoc _ n ch []) by lia. unfold heads. rewrite map_app. cbn [map]. apply nodup_snoc. auto.
    + intros i Hi. destruct (Nat.eq_dec i n) as [->|]; [exact Hx|apply Hne; lia].
Qed.

Lemma settled_le : forall n m ch, m <= n -> settled n ch -> settled m ch.
Proof.
  intros n m ch Hle. induction Hle as [|n Hle IH]; [auto|]. intros H. apply settled_S in H as [H _]. auto.
Qed.

(** Two lists of choices agree on their first [n] entries. *)
Definition same (n : nat) (a b : choices) : Prop := firstn n a = firstn n b.

Lemma nth_firstn_lt : forall A n (l : list A) i d, i < n -> nth i (firstn n l) d = nth i l d.
Proof. induction n; intros l i d H; [lia|]. destruct l, i; cbn; auto. apply IHn. lia. Qed.
Lemma same_nth : forall n a b i, same n a b -> i < n -> nth i a [] = nth i b [].
Proof.
  intros n a b i H Hi. rewrite <- (nth_firstn_lt _ n a i []), <- (nth_firstn_lt _ n b i []) by assumption.
  unfold same in H. rewrite H. reflexivity.
Qed.
Lemma same_le : forall n m a b, m <= n -> same n a b -> same m a b.
Proof.
  intros n m a b Hle H. unfold same in *.
  rewrite <- (Nat.min_l m n) by assumption. rewrite <- !firstn_firstn, H. reflexivity.
Qed.
Lemma same_trans : forall n a b c, same n a b -> same n b c -> same n a c.
Proof. unfold same. congruence. Qed.
Lemma same_length : forall n a b, same n a b -> n <= length a -> n <= length b.
Proof.
  intros n a b H L. assert (length (firstn n a) = length (firstn n b)) as E by (rewrite H; reflexivity).
  rewrite !firstn_length in E. lia.
Qed.
Lemma same_settled : forall n a b, same n a b -> settled n a -> settled n b.
Proof.
  intros n a b H (L & D & E). split; [eapply same_length; eassumption|]. split.
  - unfold same in H. rewrite <- H. exact D.
  - intros i Hi. rewrite <- (same_nth n a b i H Hi). auto.
Qed.

(** A choice already settled is returned unchanged. *)
Lemma choose_settled : forall ci cands ch, cands <> [] -> settled (S ci) ch ->
  choose ci cands ch = Some (hd 0%N (nth ci ch []), ch).
Proof.
  intros ci cands ch Hc H. apply settled_S in H as (H0 & Hl & Hne & Hf). unfold choose.
  destruct cands as [|c0 cands]; [congruence|].
  destruct (Nat.eqb_spec ci (length ch)) as [E|E]; [lia|].
  rewrite undupe_fresh by assumption. rewrite set_nth_self by assumption. reflexivity.
Qed.

(** Any successful choice settles its entry and leaves the others alone. *)
Lemma choose_ok : forall ci cands ch x ch1, settled ci ch -> choose ci cands ch = Some (x, ch1) ->
  cands <> [] /\ settled (S ci) ch1 /\ same ci ch ch1 /\ x = hd 0%N (nth ci ch1 []) /\ length ch <= length ch1.
Proof.
  intros ci cands ch x ch1 Hs H. unfold choose in H. destruct cands as [|c0 cands]; [discriminate|].
  destruct Hs as (Hl & Hd & Hne).
  set (ch' := if ci =? length ch then ch ++ [c0 :: cands] else ch) in *.
  assert (Hs' : same ci ch ch').
  { unfold same, ch'. destruct (Nat.eqb_spec ci (length ch)) as [E|E]; [|reflexivity].
    rewrite E, firstn_app, Nat.sub_diag, firstn_all, app_nil_r. reflexivity. }
  assert (Hl' : ci < length ch' /\ length ch <= length ch').
  { unfold ch'. destruct (Nat.eqb_spec ci (length ch)) as [E|E]; [rewrite app_length; cbn; lia|lia]. }
  assert (Hset : settled ci ch') by (eapply same_settled; [exact Hs'|repeat split; assumption]).
  clearbody ch'. destruct (undupe (heads (firstn ci ch')) (nth ci ch' [])) as [l|] eqn:E; [|discriminate].
  apply undupe_spec in E as (En & Ef & _).
  assert (Ex : x = hd 0%N l) by congruence.
  assert (E1 : ch1 = set_nth ci l ch') by congruence. clear H. subst x ch1.
  split; [discriminate|].
  assert (Hsm : same ci ch' (set_nth ci l ch')) by (unfold same; rewrite set_nth_firstn; reflexivity).
  split.
  - apply settled_S. split; [eapply same_settled; [exact Hsm|exact Hset]|].
    rewrite set_nth_length, set_nth_same, set_nth_firstn by lia. repeat split; try lia; assumption.
  - split; [eapply same_trans; eassumption|]. rewrite set_nth_same, set_nth_length by lia. split; [reflexivity|lia].
Qed.

(** ** The same exploration, depth first *)
Section Dfs.
Variable s : solver.

Inductive dout : Type :=
| DOk (paths : list branches) (ch : choices)
| DExc (builtin : bool) (ch : choices).

Fixpoint dfs (sp : spec) (cs pc : list bexp) (ci : nat) (ch : choices) : dout :=
  match sp with
  | SDone => DOk [[]] ch
  | SFail b => DExc b ch
  | SIf c t f =>
      match outcomes s cs pc c with
      | TNone => DExc false ch
      | TOnly b => dfs (if b then t else f) cs pc ci ch
      | TBoth =>
          match dfs t (c :: cs) (c :: pc) ci ch with
          | DExc b ch' => DExc b ch'
          | DOk ps ch' =>
              match dfs f (BNot c :: cs) (BNot c :: pc) ci ch' with
              | DExc b ch'' => DExc b ch''
              | DOk qs ch'' => DOk (map (cons (c, true)) ps ++ map (cons (c, false)) qs) ch''
              end
          end
      end
  | SAssume c k => dfs k (c :: cs) pc ci ch
  | SMust c k => if sat s (BNot c :: cs) then DExc true ch else dfs k cs pc ci ch
  | SChoose cands k =>
      match choose ci cands ch with
      | None => DExc true ch
      | Some (x, ch1) => dfs (k x) cs pc (S ci) ch1
      end
  end.

(** Repeated runs, as a relation. *)
Inductive steps (R : branches -> choices -> outcome) : branches -> choices -> dout -> Prop :=
| steps_exc : forall br ch b ch', R br ch = Raised b ch' -> steps R br ch (DExc b ch')
| steps_last : forall br ch br' ch', R br ch = Passed br' ch' -> flip br' = None -> steps R br ch (DOk [br'] ch')
| steps_more : forall br ch br' ch' br'' ps ch'', R br ch = Passed br' ch' -> flip br' = Some br'' ->
    steps R br'' ch' (DOk ps ch'') -> steps R br ch (DOk (br' :: ps) ch'')
| steps_more_exc : forall br ch br' ch' br'' b ch'', R br ch = Passed br' ch' -> flip br' = Some br'' ->
    steps R br'' ch' (DExc b ch'') -> steps R br ch (DExc b ch'').

(** Runs keep settled choices, and the list of choices never shrinks. *)
Definition och (o : outcome) : choices := match o with Passed _ ch => ch | Raised _ ch => ch end.
Definition dch (o : dout) : choices := match o with DOk _ ch => ch | DExc _ ch => ch end.

Lemma run1_same : forall sp cs pc rest ci ch, settled ci ch -> same ci ch (och (run1 s sp cs pc rest ci ch)).
Proof.
  induction sp as [|b|c t IHt f IHf|c k IH|c k IH|cands k IH]; intros cs pc rest ci ch Hs; cbn [run1].
  - reflexivity.
  - reflexivity.
  - destruct (outcomes s cs pc c) as [|b|].
    + set (p := match rest with [] => (c, true) | p :: _ => p end).
      assert (forall o, och (consb p o) = och o) as -> by (intros [? ?|? ?]; reflexivity).
      destruct (snd p); auto.
    + destruct b; auto.
    + reflexivity.
  - auto.
  - destruct (sat s (BNot c :: cs)); [reflexivity|auto].
  - destruct (choose ci cands ch) as [[x ch1]|] eqn:E; [|reflexivity].
    apply choose_ok in E as (_ & H1 & H2 & _ & _); [|exact Hs].
    eapply same_trans; [exact H2|]. eapply same_le; [|apply IH; exact H1]. lia.
Qed.

Lemma dfs_same : forall sp cs pc ci ch, settled ci ch -> same ci ch (dch (dfs sp cs pc ci ch)).
Proof.
  induction sp as [|b|c t IHt f IHf|c k IH|c k IH|cands k IH]; intros cs pc ci ch Hs; cbn [dfs].
  - reflexivity.
  - reflexivity.
  - destruct (outcomes s cs pc c) as [|b|].
    + specialize (IHt (c :: cs) (c :: pc) ci ch Hs).
      destruct (dfs t (c :: cs) (c :: pc) ci ch) as [ps ch'|b ch'] eqn:E; [|exact IHt].
      cbn [dch] in IHt.
      assert (Hs' : settled ci ch') by (eapply same_settled; eassumption).
      specialize (IHf (BNot c :: cs) (BNot c :: pc) ci ch' Hs').
      destruct (dfs f (BNot c :: cs) (BNot c :: pc) ci ch') as [qs ch''|b ch'']; cbn [dch] in *; eapply same_trans; eassumption.
    + destruct b; auto.
    + reflexivity.
  - auto.
  - destruct (sat s (BNot c :: cs)); [reflexivity|auto].
  - destruct (choose ci cands ch) as [[x ch1]|] eqn:E; [|reflexivity].
    apply choose_ok in E as (_ & H1 & H2 & _ & _); [|exact Hs].
    eapply same_trans; [exact H2|]. eapply same_le; [|apply IH; exact H1]. lia.
Qed.

(** Exploring below one outcome of a branch. *)
Lemma steps_pre_false : forall (R R' : branches -> choices -> outcome) c,
  (forall rest ch, R' ((c, false) :: rest) ch = consb (c, false) (R rest ch)) ->
  forall rest ch o, steps R rest ch o ->
  steps R' ((c, false) :: rest) ch
    (match o with DOk ps ch' => DOk (map (cons (c, false)) ps) ch' | DExc b ch' => DExc b ch' end).
Proof.
  intros R R' c HR rest ch o H.
  induction H as [br ch b ch' H|br ch br' ch' H F|br ch br' ch' br'' ps ch'' H F _ IH|br ch br' ch' br'' b ch'' H F _ IH].
  - apply steps_exc. rewrite HR, H. reflexivity.
  - apply steps_last; [rewrite HR, H; reflexivity|]. cbn [flip]. rewrite F. reflexivity.
  - eapply steps_more; [rewrite HR, H; reflexivity| |exact IH]. cbn [flip]. rewrite F. reflexivity.
  - eapply steps_more_exc; [rewrite HR, H; reflexivity| |exact IH]. cbn [flip]. rewrite F. reflexivity.
Qed.

Lemma steps_pre_true : forall (R R' : branches -> choices -> outcome) c,
  (forall rest ch, R' ((c, true) :: rest) ch = consb (c, true) (R rest ch)) ->
  forall rest ch o, steps R rest ch o ->
  match o with
  | DExc b ch' => steps R' ((c, true) :: rest) ch (DExc b ch')
  | DOk ps ch' => forall o', steps R' [(c, false)] ch' o' ->
      steps R' ((c, true) :: rest) ch
        (match o' with DOk qs ch'' => DOk (map (cons (c, true)) ps ++ qs) ch'' | DExc b ch'' => DExc b ch'' end)
  end.
Proof.
  intros R R' c HR rest ch o H.
  induction H as [br ch b ch' H|br ch br' ch' H F|br ch br' ch' br'' ps ch'' H F _ IH|br ch br' ch' br'' b ch'' H F _ IH].
  - apply steps_exc. rewrite HR, H. reflexivity.
  - intros o' Ho. assert (E : flip ((c, true) :: br') = Some [(c, false)]) by (cbn [flip]; rewrite F; reflexivity).
    destruct o' as [qs ch''|b ch''].
    + eapply steps_more; [rewrite HR, H; reflexivity|exact E|exact Ho].
    + eapply steps_more_exc; [rewrite HR, H; reflexivity|exact E|exact Ho].
  - intros o' Ho. specialize (IH o' Ho).
    assert (E : flip ((c, true) :: br') = Some ((c, true) :: br'')) by (cbn [flip]; rewrite F; reflexivity).
    destruct o' as [qs ch3|b ch3].
    + eapply steps_more; [rewrite HR, H; reflexivity|exact E|exact IH].
    + eapply steps_more_exc; [rewrite HR, H; reflexivity|exact E|exact IH].
  - eapply steps_more_exc; [rewrite HR, H; reflexivity| |exact IH]. cbn [flip]. rewrite F. reflexivity.
Qed.

(** A runner may be replaced by one that agrees on all choice lists that keep the
    first [n] entries. *)
Lemma steps_ext : forall (R R' : branches -> choices -> outcome) n ch0,
  (forall rest ch, same n ch0 ch -> R' rest ch = R rest ch) ->
  (forall rest ch, same n ch0 ch -> same n ch0 (och (R rest ch))) ->
  forall rest ch o, same n ch0 ch -> steps R rest ch o -> steps R' rest ch o.
Proof.
  intros R R' n ch0 HE HS rest ch o Hc H.
  induction H as [br ch b ch' H|br ch br' ch' H F|br ch br' ch' br'' ps ch'' H F _ IH|br ch br' ch' br'' b ch'' H F _ IH].
  - apply steps_exc. rewrite HE; assumption.
  - apply steps_last; [rewrite HE; assumption|assumption].
  - pose proof (HS br ch Hc) as K. rewrite H in K.
    eapply steps_more; [rewrite HE; eassumption|eassumption|auto].
  - pose proof (HS br ch Hc) as K. rewrite H in K.
    eapply steps_more_exc; [rewrite HE; eassumption|eassumption|auto].
Qed.

Lemma dfs_steps : forall sp cs pc ci ch, settled ci ch ->
  steps (fun rest ch => run1 s sp cs pc rest ci ch) [] ch (dfs sp cs pc ci ch).
Proof.
  induction sp as [|b|c t IHt f IHf|c k IH|c k IH|cands k IH]; intros cs pc ci ch Hs; cbn [dfs].
  - apply steps_last; reflexivity.
  - apply steps_exc. reflexivity.
  - destruct (outcomes s cs pc c) as [|b|] eqn:EO.
    + set (R' := fun rest ch => run1 s (SIf c t f) cs pc rest ci ch).
      set (Rt := fun rest ch => run1 s t (c :: cs) (c :: pc) rest ci ch).
      set (Rf := fun rest ch => run1 s f (BNot c :: cs) (BNot c :: pc) rest ci ch).
      assert (HT : forall rest ch, R' ((c, true) :: rest) ch = consb (c, true) (Rt rest ch)).
      { intros. unfold R', Rt. cbn [run1]. rewrite EO. reflexivity. }
      assert (HF : forall rest ch, R' ((c, false) :: rest) ch = consb (c, false) (Rf rest ch)).
      { intros. unfold R', Rf. cbn [run1]. rewrite EO. reflexivity. }
      assert (H0 : forall ch, R' [] ch = R' [(c, true)] ch).
      { intros. unfold R'. cbn [run1]. rewrite EO. reflexivity. }
      specialize (IHt (c :: cs) (c :: pc) ci ch Hs). fold Rt in IHt.
      pose proof (dfs_same t (c :: cs) (c :: pc) ci ch Hs) as Hsame.
      apply (steps_pre_true Rt R' c HT) in IHt.
      assert (Hstart : forall o, steps R' [(c, true)] ch o -> steps R' [] ch o).
      { intros o Ho. inversion Ho; subst.
        - apply steps_exc. rewrite H0. assumption.
        - apply steps_last; [rewrite H0; assumption|assumption].
        - eapply steps_more; [rewrite H0; eassumption|eassumption|assumption].
        - eapply steps_more_exc; [rewrite H0; eassumption|eassumption|assumption]. }
      destruct (dfs t (c :: cs) (c :: pc) ci ch) as [ps ch'|b ch'] eqn:Et.
      * cbn [dch] in Hsame. assert (Hs' : settled ci ch') by (eapply same_settled; eassumption).
        specialize (IHf (BNot c :: cs) (BNot c :: pc) ci ch' Hs'). fold Rf in IHf.
        apply (steps_pre_false Rf R' c HF) in IHf. apply IHt in IHf. apply Hstart in IHf.
        destruct (dfs f (BNot c :: cs) (BNot c :: pc) ci ch') as [qs ch''|b ch''] eqn:Ef; exact IHf.
      * apply Hstart. exact IHt.
    + pose proof (fun x => IHt cs pc ci ch x) as IHt'. pose proof (fun x => IHf cs pc ci ch x) as IHf'.
      eapply (steps_ext (fun rest ch => run1 s (if b then t else f) cs pc rest ci ch) _ ci ch);
        [intros; cbn [run1]; rewrite EO; reflexivity| |reflexivity|].
      * intros rest ch2 H2. eapply same_trans; [exact H2|]. apply run1_same. eapply same_settled; eassumption.
      * destruct b; auto.
    + apply steps_exc. cbn [run1]. rewrite EO. reflexivity.
  - eapply (steps_ext (fun rest ch => run1 s k (c :: cs) pc rest ci ch) _ ci ch);
      [intros; reflexivity| |reflexivity|auto].
    intros rest ch2 H2. eapply same_trans; [exact H2|]. apply run1_same. eapply same_settled; eassumption.
  - destruct (sat s (BNot c :: cs)) eqn:E.
    + apply steps_exc. cbn [run1]. rewrite E. reflexivity.
    + eapply (steps_ext (fun rest ch => run1 s k cs pc rest ci ch) _ ci ch);
        [intros; cbn [run1]; rewrite E; reflexivity| |reflexivity|auto].
      intros rest ch2 H2. eapply same_trans; [exact H2|]. apply run1_same. eapply same_settled; eassumption.
  - destruct (choose ci cands ch) as [[x ch1]|] eqn:E.
    + pose proof (choose_ok ci cands ch x ch1 Hs E) as (Hne & Hs1 & Hsm & Hx & _).
      specialize (IH x cs pc (S ci) ch1 Hs1).
      assert (K : steps (fun rest ch => run1 s (SChoose cands k) cs pc rest ci ch) [] ch1 (dfs (k x) cs pc (S ci) ch1)).
      { eapply (steps_ext (fun rest ch => run1 s (k x) cs pc rest (S ci) ch) _ (S ci) ch1);
          [| |reflexivity|exact IH].
        - intros rest ch2 H2. cbn [run1]. rewrite choose_settled; [|exact Hne|eapply same_settled; eassumption].
          rewrite <- (same_nth _ _ _ ci H2) by lia. rewrite <- Hx. reflexivity.
        - intros rest ch2 H2. eapply same_trans; [exact H2|]. apply run1_same. eapply same_settled; eassumption. }
      assert (R0 : run1 s (SChoose cands k) cs pc [] ci ch = run1 s (SChoose cands k) cs pc [] ci ch1).
      { cbn [run1]. rewrite E. rewrite choose_settled by assumption. rewrite <- Hx. reflexivity. }
      inversion K; subst.
      * apply steps_exc. congruence.
      * eapply steps_last; [rewrite R0; eassumption|assumption].
      * eapply steps_more; [rewrite R0; eassumption|eassumption|assumption].
      * eapply steps_more_exc; [rewrite R0; eassumption|eassumption|assumption].
    + apply steps_exc. cbn [run1]. rewrite E. reflexivity.
Qed.

Lemma settled_0 : forall ch, settled 0 ch.
Proof. intros ch. split; [lia|]. split; [constructor|intros; lia]. Qed.

(** The loop computes the depth-first result, given enough fuel. *)
Definition finish (acc : list (list bexp)) (o : dout) : passed :=
  match o with DOk ps ch => PPassed (acc ++ map (map lit) ps) ch | DExc b ch => PRaised b ch end.

Lemma explore_steps : forall sp cs br ch o, steps (fun rest ch => run1 s sp cs [] rest 0 ch) br ch o ->
  exists n, forall fuel acc, explore s fuel sp cs br ch acc = if fuel <? n then PFuel else finish acc o.
Proof.
  intros sp cs br ch o H.
  induction H as [br ch b ch' H|br ch br' ch' H F|br ch br' ch' br'' ps ch'' H F _ [n IH]|br ch br' ch' br'' b ch'' H F _ [n IH]].
  - exists 1. intros [|fuel] acc; [reflexivity|]. cbn [explore]. rewrite H. reflexivity.
  - exists 1. intros [|fuel] acc; [reflexivity|]. cbn [explore]. rewrite H, next_flip, F. reflexivity.
  - exists (S n). intros [|fuel] acc; [reflexivity|]. cbn [explore]. rewrite H, next_flip, F, IH.
    change (S fuel <? S n) with (fuel <? n). destruct (fuel <? n); [reflexivity|].
    cbn [finish map]. rewrite <- app_assoc. reflexivity.
  - exists (S n). intros [|fuel] acc; [reflexivity|]. cbn [explore]. rewrite H, next_flip, F, IH.
    change (S fuel <? S n) with (fuel <? n). destruct (fuel <? n); reflexivity.
Qed.

Lemma explore_dfs : forall sp cs ch, exists n, forall fuel acc,
  explore s fuel sp cs [] ch acc = if fuel <? n then PFuel else finish acc (dfs sp cs [] 0 ch).
Proof. intros. apply explore_steps. apply dfs_steps. apply settled_0. Qed.

End Dfs.
