(** * The index pool (env/src/structs/index_pool.c)

    The timestamps array is a list of 64-bit times, [TIME_MAX] marking a free index.
    All comparisons and the guarded subtraction are on unsigned 64-bit values and
    cannot wrap (the subtraction is only done after [time >= expiration_time]). *)

From Coq Require Import NArith List Bool Lia Arith.
Import ListNotations.
Open Scope N_scope.

(** include/os/time.h: TIME_MAX is the largest time_t. *)
Definition TIME_MAX : N := 2 ^ 64 - 1.

(** index_pool.c 9-14; [size] is the length of [stamps]. *)
Record pool := mkPool { stamps : list N; expiry : N; last_borrowed : nat }.

(** index_pool.c 84-113: the struct is zero-filled by os_memory_alloc, so
    last_borrowed_index starts at 0. *)
Definition pool_alloc (size : nat) (expiration_time : N) : pool :=
  mkPool (repeat TIME_MAX size) expiration_time 0.

Definition stamp (p : pool) (n : nat) : N := nth n (stamps p) TIME_MAX.

Fixpoint set_nth {A} (l : list A) (n : nat) (a : A) : list A :=
  match l, n with
  | [], _ => []
  | _ :: l', O => a :: l'
  | b :: l', S n' => b :: set_nth l' n' a
  end.

(** Body of the loops of index_pool.c 171-199 and 206-234 at index [n]:
    [Some used] if it borrows index [n]. *)
Definition try_index (p : pool) (time : N) (n : nat) : option bool :=
  if stamp p n =? TIME_MAX then Some false
  else if (expiry p <=? time) && (stamp p n <? time - expiry p) then Some true
  else None.

(** A [for] loop over the indices [l] that stops at the first that can be borrowed. *)
Fixpoint scan (p : pool) (time : N) (l : list nat) : option (nat * bool) :=
  match l with
  | [] => None
  | n :: l' => match try_index p time n with Some u => Some (n, u) | None => scan p time l' end
  end.

(** index_pool.c 143-239. *)
Definition pool_borrow (p : pool) (time : N) : option (nat * bool) * pool :=
  let size := length (stamps p) in
  let lbi := last_borrowed p in
  let found :=
    match scan p time (seq lbi (size - lbi)) with
    | Some r => Some r
    | None => scan p time (seq 0 lbi)
    end in
  match found with
  | Some (n, u) => (Some (n, u), mkPool (set_nth (stamps p) n time) (expiry p) n)
  | None => (None, p)
  end.

(** index_pool.c 241-252; the index is in range by precondition. *)
Definition pool_refresh (p : pool) (time : N) (index : nat) : pool :=
  mkPool (set_nth (stamps p) index time) (expiry p) (last_borrowed p).

(** index_pool.c 254-283. *)
Definition pool_used (p : pool) (time : N) (index : nat) : bool :=
  if (length (stamps p) <=? index)%nat then false
  else if stamp p index =? TIME_MAX then false
  else if (expiry p <=? time) && (stamp p index <? time - expiry p) then false
  else true.

(** index_pool.c 285-295. *)
Definition pool_return (p : pool) (index : nat) : pool :=
  mkPool (set_nth (stamps p) index TIME_MAX) (expiry p) (last_borrowed p).

(** ** Histories *)
Inductive pop := OBorrow (time : N) | ORefresh (time : N) (index : nat)
               | OUsed (time : N) (index : nat) | OReturn (index : nat).
Inductive pout := RBorrow (r : option (nat * bool)) | RUnit | RUsed (b : bool).

(** The requires clauses of include/structs/index_pool.h. *)
Definition pop_ok (size : nat) (o : pop) : bool :=
  match o with
  | OBorrow t => t <? TIME_MAX
  | ORefresh t i => (t <? TIME_MAX) && (i <? size)%nat
  | OUsed _ _ => true
  | OReturn i => (i <? size)%nat
  end.

Definition pool_step (p : pool) (o : pop) : pool * pout :=
  match o with
  | OBorrow t => let (r, p') := pool_borrow p t in (p', RBorrow r)
  | ORefresh t i => (pool_refresh p t i, RUnit)
  | OUsed t i => (p, RUsed (pool_used p t i))
  | OReturn i => (pool_return p i, RUnit)
  end.

Fixpoint pool_run (p : pool) (ops : list pop) : pool * list pout :=
  match ops with
  | [] => (p, [])
  | o :: ops' =>
      let (p1, out) := pool_step p o in
      let (p2, outs) := pool_run p1 ops' in (p2, out :: outs)
  end.

(** * Specification: a finite map from indices to times, written without the code *)

Definition pmap := nat -> option N.
Definition pupd (m : pmap) (i : nat) (v : option N) : pmap :=
  fun j => if Nat.eqb j i then v else m j.
(** Young: not expired (index_pool.h 14). *)
Definition young (time exp v : N) : Prop := time < exp \/ time - exp <= v.

Definition spec_step (size : nat) (exp : N) (m : pmap) (o : pop) (out : pout) (m' : pmap) : Prop :=
  match o, out with
  | OBorrow t, RBorrow None =>
      (forall i, (i < size)%nat -> exists v, m i = Some v /\ young t exp v) /\
      (forall j, m' j = m j)
  | OBorrow t, RBorrow (Some (i, used)) =>
      (i < size)%nat /\ (forall j, m' j = pupd m i (Some t) j) /\
      (if used then exists old, m i = Some old /\ ~ young t exp old else m i = None)
  | ORefresh t i, RUnit => forall j, m' j = pupd m i (Some t) j
  | OUsed t i, RUsed b =>
      (b = true <-> exists v, m i = Some v /\ young t exp v) /\ (forall j, m' j = m j)
  | OReturn i, RUnit => forall j, m' j = pupd m i None j
  | _, _ => False
  end.

Inductive spec_run (size : nat) (exp : N) : pmap -> list pop -> list pout -> pmap -> Prop :=
| spec_nil : forall m m', (forall j, m' j = m j) -> spec_run size exp m [] [] m'
| spec_cons : forall m o out m1 ops outs m2,
    spec_step size exp m o out m1 -> spec_run size exp m1 ops outs m2 ->
    spec_run size exp m (o :: ops) (out :: outs) m2.

(** What a pool in memory stands for. *)
Definition pool_abs (p : pool) : pmap :=
  fun i => if (i <? length (stamps p))%nat
           then if stamp p i =? TIME_MAX then None else Some (stamp p i) else None.

(** * Proofs *)

Lemma set_nth_length : forall A (l : list A) n a, length (set_nth l n a) = length l.
Proof. induction l; destruct n; cbn; auto. Qed.
Lemma set_nth_nth : forall A (l : list A) n a d j,
  (n < length l)%nat -> nth j (set_nth l n a) d = if Nat.eqb j n then a else nth j l d.
Proof.
  induction l; cbn; intros; [lia|].
  destruct n, j; cbn; auto. apply IHl. lia.
Qed.

Lemma abs_set : forall p n t lb j, (n < length (stamps p))%nat ->
  pool_abs (mkPool (set_nth (stamps p) n t) (expiry p) lb) j =
  pupd (pool_abs p) n (if t =? TIME_MAX then None else Some t) j.
Proof.
  intros. unfold pool_abs, pupd, stamp. cbn [stamps]. rewrite set_nth_length.
  rewrite set_nth_nth by auto.
  destruct (Nat.eqb_spec j n); [subst|].
  - destruct (Nat.ltb_spec n (length (stamps p))); [reflexivity|lia].
  - reflexivity.
Qed.

Lemma try_index_spec : forall p t n, (n < length (stamps p))%nat ->
  match try_index p t n with
  | Some false => pool_abs p n = None
  | Some true => exists old, pool_abs p n = Some old /\ ~ young t (expiry p) old
  | None => exists v, pool_abs p n = Some v /\ young t (expiry p) v
  end.
Proof.
  intros. unfold try_index, pool_abs, young.
  destruct (Nat.ltb_spec n (length (stamps p))); [|lia].
  destruct (stamp p n =? TIME_MAX); [reflexivity|].
  destruct (N.leb_spec (expiry p) t); cbn;
  [destruct (N.ltb_spec (stamp p n) (t - expiry p))|]; exists (stamp p n); split; auto; lia.
Qed.

Lemma scan_spec : forall p t l, (forall n, In n l -> (n < length (stamps p))%nat) ->
  match scan p t l with
  | Some (n, u) => In n l /\ try_index p t n = Some u
  | None => forall n, In n l -> try_index p t n = None
  end.
Proof.
  induction l as [|n l IH]; cbn [scan]; intros H; [intros ? []|].
  destruct (try_index p t n) eqn:E.
  - split; [left; reflexivity|auto].
  - destruct (scan p t l) as [[m u]|] eqn:F.
    + destruct IH; [intros; apply H; right; auto|]. split; [right; auto|auto].
    + intros k [<-|Hk]; [auto|]. apply IH; auto. intros; apply H; right; auto.
Qed.

Definition pool_wf (size : nat) (p : pool) : Prop :=
  length (stamps p) = size /\ (last_borrowed p <= size)%nat.

Lemma pool_step_spec : forall size p o,
  pool_wf size p -> pop_ok size o = true ->
  let '(p', out) := pool_step p o in
  pool_wf size p' /\ expiry p' = expiry p /\
  spec_step size (expiry p) (pool_abs p) o out (pool_abs p').
Proof.
  intros size p o [Hl Hb] Hok. destruct o as [t|t i|t i|i]; cbn [pool_step pop_ok] in *.
  - unfold pool_borrow. rewrite Hl.
    set (f := match scan p t (seq (last_borrowed p) (size - last_borrowed p)) with Some r => Some r | None => scan p t (seq 0 (last_borrowed p)) end).
    assert (F : match f with
      | Some (n, u) => (n < size)%nat /\ try_index p t n = Some u
      | None => forall n, (n < size)%nat -> try_index p t n = None end).
    { unfold f.
      pose proof (scan_spec p t (seq (last_borrowed p) (size - last_borrowed p))) as S1.
      pose proof (scan_spec p t (seq 0 (last_borrowed p))) as S2.
      rewrite Hl in *.
      destruct (scan p t (seq (last_borrowed p) _)) as [[n u]|].
      - destruct S1 as [I1 T1]; [intros n' Hn; apply in_seq in Hn; lia|]. apply in_seq in I1. split; [lia|auto].
      - destruct (scan p t (seq 0 _)) as [[n u]|].
        + destruct S2 as [I1 T1]; [intros n' Hn; apply in_seq in Hn; lia|]. apply in_seq in I1. split; [lia|auto].
        + intros n Hn. destruct (le_lt_dec (last_borrowed p) n).
          * apply S1; [intros n' Hn'; apply in_seq in Hn'; lia|apply in_seq; lia].
          * apply S2; [intros n' Hn'; apply in_seq in Hn'; lia|apply in_seq; lia]. }
    clearbody f. apply N.ltb_lt in Hok.
    destruct f as [[n u]|].
    + destruct F as [Hn Ht]. pose proof (try_index_spec p t n) as T. rewrite Ht, Hl in T.
      specialize (T Hn). cbn [stamps last_borrowed expiry].
      split; [split; cbn; [rewrite set_nth_length; auto|lia]|]. split; [reflexivity|].
      cbn [spec_step]. split; [auto|]. split.
      * intros j. rewrite abs_set by lia. destruct (N.eqb_spec t TIME_MAX); [lia|reflexivity].
      * destruct u; auto.
    + split; [split; auto|]. split; [reflexivity|]. cbn [spec_step]. split; [|auto].
      intros i Hi. pose proof (try_index_spec p t i) as T. rewrite Hl in T. rewrite (F i Hi) in T. auto.
  - apply andb_true_iff in Hok as [Ht Hi]. apply N.ltb_lt in Ht. apply Nat.ltb_lt in Hi.
    split; [split; cbn; [rewrite set_nth_length; auto|lia]|]. split; [reflexivity|].
    cbn [spec_step]. intros j. unfold pool_refresh. rewrite abs_set by lia.
    destruct (N.eqb_spec t TIME_MAX); [lia|reflexivity].
  - split; [split; auto|]. split; [reflexivity|]. cbn [spec_step]. split; [|auto].
    unfold pool_used, pool_abs, young.
    destruct (Nat.leb_spec (length (stamps p)) i); destruct (Nat.ltb_spec i (length (stamps p))); try lia.
    + split; [discriminate|]. intros [v [E _]]. discriminate.
    + destruct (N.eqb_spec (stamp p i) TIME_MAX).
      * split; [discriminate|]. intros [v [E _]]. discriminate.
      * destruct (N.leb_spec (expiry p) t); cbn.
        -- destruct (N.ltb_spec (stamp p i) (t - expiry p)).
           ++ split; [discriminate|]. intros [v [E Y]]. injection E as <-. lia.
           ++ split; [|auto]. intros _. exists (stamp p i). split; [auto|]. lia.
        -- split; [|auto]. intros _. exists (stamp p i). split; [auto|]. lia.
  - apply Nat.ltb_lt in Hok.
    split; [split; cbn; [rewrite set_nth_length; auto|lia]|]. split; [reflexivity|].
    cbn [spec_step]. intros j. unfold pool_return. rewrite abs_set by lia.
    rewrite N.eqb_refl. reflexivity.
Qed.

Lemma pool_run_spec : forall size ops p p' outs,
  pool_wf size p -> forallb (pop_ok size) ops = true ->
  pool_run p ops = (p', outs) ->
  pool_wf size p' /\ expiry p' = expiry p /\
  spec_run size (expiry p) (pool_abs p) ops outs (pool_abs p').
Proof.
  induction ops as [|o ops IH]; cbn [pool_run forallb]; intros p p' outs Hwf Hok Hr.
  - injection Hr as <- <-. repeat split; try apply Hwf. constructor. auto.
  - apply andb_true_iff in Hok as [Ho Hops].
    pose proof (pool_step_spec size p o Hwf Ho) as S.
    destruct (pool_step p o) as [p1 out]. destruct S as [Hwf1 [E1 S1]].
    destruct (pool_run p1 ops) as [p2 outs2] eqn:R. injection Hr as <- <-.
    destruct (IH p1 p2 outs2 Hwf1 Hops R) as [Hwf2 [E2 S2]].
    split; [auto|]. split; [congruence|]. rewrite E1 in S2. econstructor; eauto.
Qed.

Lemma nth_repeat_same : forall A (a : A) n i, nth i (repeat a n) a = a.
Proof. induction n; destruct i; cbn; auto. Qed.

Lemma pool_alloc_abs : forall size exp i, pool_abs (pool_alloc size exp) i = None.
Proof.
  intros. unfold pool_abs, stamp, pool_alloc. cbn [stamps]. rewrite nth_repeat_same, N.eqb_refl.
  destruct (_ <? _)%nat; reflexivity.
Qed.
Lemma pool_alloc_wf : forall size exp, pool_wf size (pool_alloc size exp).
Proof. intros. split; cbn; [apply repeat_length|lia]. Qed.

Lemma spec_run_ext : forall size exp ops m m0 outs m',
  (forall j, m j = m0 j) -> spec_run size exp m ops outs m' -> spec_run size exp m0 ops outs m'.
Proof.
  intros * E H. inversion H as [? ? E'|? ? ? ? ? ? ? S R]; subst.
  - constructor. intros. rewrite E'. auto.
  - econstructor; [|exact R].
    destruct o, out; cbn in *; try contradiction;
    try (intros j; rewrite S; unfold pupd; destruct (Nat.eqb j _); auto; fail).
    + destruct r as [[i u]|]; [destruct S as [S1 [S2 S3]]|destruct S as [S1 S2]].
      * split; [auto|]. split; [intros j; rewrite S2; unfold pupd; destruct (Nat.eqb j i); auto|].
        rewrite <- E. auto.
      * split; [|intros; rewrite S2; auto]. intros i Hi. rewrite <- E. auto.
    + destruct S as [S1 S2]. split; [rewrite <- E; auto|intros; rewrite S2; auto].
Qed.

Lemma pool_history : forall size exp ops p outs,
  forallb (pop_ok size) ops = true ->
  pool_run (pool_alloc size exp) ops = (p, outs) ->
  spec_run size exp (fun _ => None) ops outs (pool_abs p).
Proof.
  intros * Hok Hr.
  destruct (pool_run_spec size ops _ p outs (pool_alloc_wf size exp) Hok Hr) as [_ [_ S]].
  eapply spec_run_ext; [|exact S]. intros. apply pool_alloc_abs.
Qed.

(** Reachable pools. *)
Definition pool_reach (size : nat) (exp : N) (p : pool) : Prop :=
  exists ops outs, forallb (pop_ok size) ops = true /\ pool_run (pool_alloc size exp) ops = (p, outs).
Lemma pool_reach_wf : forall size exp p, pool_reach size exp p -> pool_wf size p /\ expiry p = exp.
Proof.
  intros size exp p [ops [outs [Hok Hr]]].
  destruct (pool_run_spec size ops _ p outs (pool_alloc_wf size exp) Hok Hr) as [H [E _]]. auto.
Qed.

Lemma pool_borrow_contract : forall size exp p time,
  pool_reach size exp p -> time < TIME_MAX ->
  match pool_borrow p time with
  | (Some (i, used), p') =>
      (i < size)%nat /\
      (if used then exists old, pool_abs p i = Some old /\ ~ young time exp old
       else pool_abs p i = None) /\
      pool_abs p' i = Some time /\
      (forall j, j <> i -> pool_abs p' j = pool_abs p j)
  | (None, p') =>
      (forall i, (i < size)%nat -> exists v, pool_abs p i = Some v /\ young time exp v) /\ p' = p
  end.
Proof.
  intros * Hr Ht. apply pool_reach_wf in Hr as [Hwf E].
  pose proof (pool_step_spec size p (OBorrow time) Hwf) as S. cbn [pop_ok pool_step] in S.
  specialize (S (proj2 (N.ltb_lt _ _) Ht)).
  destruct (pool_borrow p time) as [[[i u]|] p'] eqn:B; cbn in S.
  - destruct S as [_ [_ [Hi [Hm Hu]]]]. rewrite E in Hu. split; [auto|]. split; [auto|]. split.
    + rewrite Hm. unfold pupd. rewrite Nat.eqb_refl. reflexivity.
    + intros j Hj. rewrite Hm. unfold pupd. destruct (Nat.eqb_spec j i); [contradiction|reflexivity].
  - destruct S as [_ [_ [Hall _]]]. rewrite E in Hall. split; [auto|].
    unfold pool_borrow in B.
    destruct (match scan p time _ with Some r => Some r | None => _ end) as [[? ?]|]; [discriminate|].
    injection B as ->. reflexivity.
Qed.
