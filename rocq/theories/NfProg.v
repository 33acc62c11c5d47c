(** * Network functions as programs over the contracts of the data structures

    A network function with a map from keys, kept in an array, to indexes of an index pool
    (nf/firewall, nf/nat, nf/policer, nf/bridge, nf/maglev) is a program of calls on the map,
    the pools and the arrays.  It runs on the contracts of env/include/structs/map.h and
    index_pool.h, as the tool runs it, and on the C structures of HashMap.v and
    IndexPool.v. *)

From Coq Require Import NArith List Bool Lia Arith.
From Verif Require Import IndexPool HashMap Table Contracts.
Import ListNotations.
Open Scope nat_scope.

(** Network functions have a pool for the keys' array; the load balancer has another one
    for its backends (balancer.h 28-29). *)
Inductive which := Flows | Backends.
(** What a network function does: map_get with a key outside the array, map_set and
    map_remove with the key at an index of the array; writes and reads of the array of keys;
    calls on a pool; reads and writes of the array of data beside the keys, of structs whose
    fields are a list; cht_find_preferred_available_backend; net_transmit. *)
Inductive nprog (A : Type) :=
| NRet (a : A)
| NGet (k : bytes) (f : option nat -> nprog A)
| NSet (i value : nat) (p : nprog A)
| NRemove (i : nat) (p : nprog A)
| NWrite (i : nat) (k : bytes) (p : nprog A)
| NRead (i : nat) (f : bytes -> nprog A)
| NPool (w : which) (o : pop) (f : pout -> nprog A)
| NLoad (i : nat) (f : list N -> nprog A)
| NStore (i : nat) (v : list N) (p : nprog A)
| NFind (k : bytes) (time : N) (f : option nat -> nprog A)
| NSend (device : N) (p : nprog A).
Arguments NRet {A}. Arguments NGet {A}. Arguments NSet {A}. Arguments NRemove {A}. Arguments NWrite {A}. Arguments NRead {A}.
Arguments NPool {A}. Arguments NLoad {A}. Arguments NStore {A}. Arguments NFind {A}. Arguments NSend {A}.

Fixpoint nbind {A B} (p : nprog A) (f : A -> nprog B) : nprog B :=
  match p with
  | NRet a => f a
  | NGet k g => NGet k (fun r => nbind (g r) f)
  | NSet i v p => NSet i v (nbind p f)
  | NRemove i p => NRemove i (nbind p f)
  | NWrite i k p => NWrite i k (nbind p f)
  | NRead i g => NRead i (fun r => nbind (g r) f)
  | NPool w o g => NPool w o (fun r => nbind (g r) f)
  | NLoad i g => NLoad i (fun r => nbind (g r) f)
  | NStore i v p => NStore i v (nbind p f)
  | NFind k t g => NFind k t (fun r => nbind (g r) f)
  | NSend d p => NSend d (nbind p f)
  end.
(** The packets of a list, one after the other. *)
Fixpoint nrun {P A} (handle : P -> nprog A) (ps : list P) : nprog (list A) :=
  match ps with
  | [] => NRet []
  | p :: ps => nbind (handle p) (fun a => nbind (nrun handle ps) (fun l => NRet (a :: l)))
  end.

(** ** The contracts *)

(** Sizes: of the array of keys (and the map's capacity), of keys, of the pools with their
    expiration times, of the array of data, of the table of backends; and the devices. *)
Record sizes := mkSizes { z_cap : nat; z_key : nat; z_pool : which -> nat; z_exp : which -> N; z_data : nat; z_backends : nat; z_devices : N }.
(** The state of the contracts: the keys and how many quarters of each are owned (map.h 46-52);
    the map's [values] and [addrs] and its length; the pools' [items]; the data. *)
Record cstate := mkC {
  ckey : nat -> bytes; own : nat -> nat;
  vals : bytes -> option nat; adr : bytes -> option nat; clen : nat;
  its : which -> pmap; cdat : nat -> list N }.
Definition upd {A} (f : nat -> A) (i : nat) (a : A) : nat -> A := fun j => if Nat.eqb j i then a else f j.
Definition kupd {A} (f : bytes -> A) (k : bytes) (a : A) : bytes -> A := fun k' => if beqb k' k then a else f k'.
Definition wupd (f : which -> pmap) (w : which) (m : pmap) : which -> pmap :=
  fun w' => match w, w' with Flows, Flows | Backends, Backends => m | _, _ => f w' end.

Section Contract.
Variable z : sizes.
(** [ok p st Q]: with every behaviour the contracts allow, all of [p]'s calls and accesses
    are as they require, and [Q] holds at the end.  A struct is written whole, only when it
    is entirely owned.  cht.h 38-51 lets a lookup find a backend below the capacity and in the
    pool; when it must find one (refuted for the C lookup, C51) is left out. *)
Fixpoint ok {A} (p : nprog A) (st : cstate) (Q : A -> cstate -> Prop) : Prop :=
  match p with
  | NRet a => Q a st
  | NGet k f => length k = z_key z /\ ok (f (vals st k)) st Q
  | NSet i v p =>
      i < z_cap z /\ 1 <= own st i /\ clen st < z_cap z /\ vals st (ckey st i) = None /\ adr st (ckey st i) = None /\
      ok p (mkC (ckey st) (upd (own st) i (own st i - 1)) (kupd (vals st) (ckey st i) (Some v)) (kupd (adr st) (ckey st i) (Some i))
                (S (clen st)) (its st) (cdat st)) Q
  | NRemove i p =>
      i < z_cap z /\ own st i <> 0 /\ vals st (ckey st i) <> None /\ adr st (ckey st i) = Some i /\
      ok p (mkC (ckey st) (upd (own st) i (own st i + 1)) (kupd (vals st) (ckey st i) None) (kupd (adr st) (ckey st i) None)
                (clen st - 1) (its st) (cdat st)) Q
  | NWrite i k p =>
      i < z_cap z /\ own st i = 4 /\ length k = z_key z /\
      ok p (mkC (upd (ckey st) i k) (own st) (vals st) (adr st) (clen st) (its st) (cdat st)) Q
  | NRead i f => i < z_cap z /\ own st i <> 0 /\ ok (f (ckey st i)) st Q
  | NPool w o f =>
      pop_ok (z_pool z w) o = true /\
      forall out m, spec_step (z_pool z w) (z_exp z w) (its st w) o out m ->
        ok (f out) (mkC (ckey st) (own st) (vals st) (adr st) (clen st) (wupd (its st) w m) (cdat st)) Q
  | NLoad i f => i < z_data z /\ ok (f (cdat st i)) st Q
  | NStore i v p => i < z_data z /\ ok p (mkC (ckey st) (own st) (vals st) (adr st) (clen st) (its st) (upd (cdat st) i v)) Q
  | NFind k t f => length k = z_key z /\ z_backends z <= z_pool z Backends /\
      forall r, (forall b, r = Some b -> b < z_backends z /\ its st Backends b <> None) -> ok (f r) st Q
  | NSend d p => (d < z_devices z)%N /\ ok p st Q
  end.
(** After the allocations: os_memory_alloc gives zeroes. *)
Definition cstart (zero : list N) : cstate :=
  mkC (fun _ => repeat 0%N (z_key z)) (fun _ => 4) (fun _ => None) (fun _ => None) 0 (fun _ _ => None) (fun _ => zero).
End Contract.

(** ** The C structures *)
Record impl := mkI { x_keys : list bytes; x_local : bytes; x_map : hmap; x_pool : which -> pool; x_dat : list (list N) }.
Definition wset (f : which -> pool) (w : which) (p : pool) : which -> pool :=
  fun w' => match w, w' with Flows, Flows | Backends, Backends => p | _, _ => f w' end.
Section Impl.
Variable hash : bytes -> N.
Variable ksize : nat.
Variables base loc : N.
Variable find : bytes -> pool -> N -> option nat. (* the lookup of a backend *)
Local Notation mem := (memory ksize base loc).
Local Notation kaddr := (kaddr ksize base).
Fixpoint run_c {A} (p : nprog A) (x : impl) : A * impl :=
  match p with
  | NRet a => (a, x)
  | NGet k f =>
      let x := mkI (x_keys x) k (x_map x) (x_pool x) (x_dat x) in
      run_c (f (option_map N.to_nat (map_get hash (mem (x_keys x) k) (x_map x) loc))) x
  | NSet i v p =>
      run_c p (mkI (x_keys x) (x_local x) (fst (map_set hash (mem (x_keys x) (x_local x)) (x_map x) (kaddr i) (N.of_nat v))) (x_pool x) (x_dat x))
  | NRemove i p =>
      run_c p (mkI (x_keys x) (x_local x) (fst (map_remove hash (mem (x_keys x) (x_local x)) (x_map x) (kaddr i))) (x_pool x) (x_dat x))
  | NWrite i k p => run_c p (mkI (set_nth (x_keys x) i k) (x_local x) (x_map x) (x_pool x) (x_dat x))
  | NRead i f => run_c (f (nth i (x_keys x) [])) x
  | NPool w o f =>
      let (pl, out) := pool_step (x_pool x w) o in
      run_c (f out) (mkI (x_keys x) (x_local x) (x_map x) (wset (x_pool x) w pl) (x_dat x))
  | NLoad i f => run_c (f (nth i (x_dat x) [])) x
  | NStore i v p => run_c p (mkI (x_keys x) (x_local x) (x_map x) (x_pool x) (set_nth (x_dat x) i v))
  | NFind k t f => run_c (f (find k (x_pool x Backends) t)) x
  | NSend d p => run_c p x
  end.
End Impl.
Definition xstart (z : sizes) (zero : list N) : impl :=
  mkI (repeat (repeat 0%N (z_key z)) (z_cap z)) [] (map_alloc (z_key z) (N.of_nat (z_cap z))) (fun w => pool_alloc (z_pool z w) (z_exp z w))
      (repeat zero (z_data z)).

(** ** The C structures do as the contracts say *)
Section Adequacy.
Variable z : sizes.
Variable hash : bytes -> N.
Variables base loc : N.
Variable find : bytes -> pool -> N -> option nat.
Local Notation cap := (z_cap z).
Local Notation ksize := (z_key z).
Local Notation mem := (memory ksize base loc).
Local Notation kaddr := (kaddr ksize base).
Hypothesis L : layout_ok ksize base loc cap.
Hypothesis F : forall k p t b, pool_wf (z_pool z Backends) p -> find k p t = Some b -> b < z_backends z /\ pool_abs p b <> None.

Record agrees (st : cstate) (x : impl) : Prop := mkAg {
  ag_keys : length (x_keys x) = cap;
  ag_own : forall i, own st i <= 4;
  ag_key : forall i, i < cap -> nth i (x_keys x) [] = ckey st i /\ length (ckey st i) = ksize;
  ag_pool : forall w, pool_wf (z_pool z w) (x_pool x w) /\ expiry (x_pool x w) = z_exp z w /\ forall j, pool_abs (x_pool x w) j = its st w j;
  ag_dat : length (x_dat x) = z_data z /\ forall i, i < z_data z -> nth i (x_dat x) [] = cdat st i;
  ag_ksize : key_size (x_map x) = ksize;
  ag_map : (cap = 0 /\ items (x_map x) = [] /\ forall k, vals st k = None) \/
    exists s, rel hash (mem (x_keys x) (x_local x)) ksize s (items (x_map x)) /\ cap <= length (items (x_map x)) /\ length s = clen st /\
      (forall k, flookup s k = match vals st k, adr st k with Some v, Some a => Some (kaddr a, N.of_nat v) | _, _ => None end) /\
      (forall k, vals st k = None <-> adr st k = None) /\
      (forall k a v, In (k, (a, v)) s -> exists i, i < cap /\ a = kaddr i /\ ckey st i = k /\ own st i <= 3) }.

Lemma flookup_unique : forall (s : fmap) k av, NoDup (map fst s) -> In (k, av) s -> flookup s k = Some av.
Proof.
  intros s k av ND H. destruct (flookup s k) as [[a v]|] eqn:E; [|exfalso; exact (flookup_none _ _ E _ H)].
  apply flookup_in in E. f_equal. exact (NoDup_fst_unique _ _ s k _ _ ND E H).
Qed.
Lemma flookup_filter : forall (s : fmap) k k',
  flookup (filter (fun p => negb (beqb (fst p) k)) s) k' = if beqb k' k then None else flookup s k'.
Proof.
  unfold flookup. induction s as [|[k0 av] s IH]; intros k k'; cbn [filter List.find fst]; [destruct (beqb k' k); reflexivity|].
  destruct (beqb k0 k) eqn:B; cbn [negb].
  - rewrite IH. destruct (beqb k' k) eqn:B'; [reflexivity|]. destruct (beqb k0 k') eqn:B2; [|reflexivity].
    apply beqb_eq in B, B2. subst. rewrite (proj2 (beqb_eq _ _) eq_refl) in B'. discriminate B'.
  - cbn [List.find fst]. destruct (beqb k0 k') eqn:B2; [|apply IH].
    destruct (beqb k' k) eqn:B'; [|reflexivity]. apply beqb_eq in B2. subst. congruence.
Qed.
Lemma filter_len : forall (s : fmap) k av, NoDup (map fst s) -> In (k, av) s ->
  S (length (filter (fun p => negb (beqb (fst p) k)) s)) = length s.
Proof.
  induction s as [|[k0 av0] s IH]; [intros k av _ []|]. intros k av ND [E|H]; cbn [map fst] in ND; inversion ND as [|? ? Hn ND']; subst; cbn [filter fst].
  - injection E as -> ->. rewrite (proj2 (beqb_eq _ _) eq_refl). cbn [negb]. f_equal. clear IH ND ND'.
    induction s as [|[k1 av1] s IH]; [reflexivity|]. cbn [filter fst length]. destruct (beqb k1 k) eqn:B; [apply beqb_eq in B; subst; exfalso; apply Hn; left; reflexivity|].
    cbn [negb length]. f_equal. apply IH. intros X. apply Hn. right. exact X.
  - destruct (beqb k0 k) eqn:B; [apply beqb_eq in B; subst; exfalso; apply Hn; change k with (fst (k, av)); apply in_map; exact H|].
    cbn [negb length]. f_equal. apply (IH k av ND' H).
Qed.
Lemma spec_step_ext : forall size exp m m' o out m2, (forall j, m j = m' j) -> spec_step size exp m o out m2 -> spec_step size exp m' o out m2.
Proof.
  intros size exp m m' o out m2 E S. destruct o, out; cbn in *; try contradiction;
  try (intros j; rewrite S; unfold pupd; destruct (Nat.eqb j _); auto; fail).
  - destruct r as [[i u]|]; [destruct S as [S1 [S2 S3]]|destruct S as [S1 S2]].
    + split; [auto|]. split; [intros j; rewrite S2; unfold pupd; destruct (Nat.eqb j i); auto|]. rewrite <- E. auto.
    + split; [|intros; rewrite S2; auto]. intros i Hi. rewrite <- E. auto.
  - destruct S as [S1 S2]. split; [rewrite <- E; auto|intros; rewrite S2; auto].
Qed.
Lemma remem : forall st x (s : fmap) (ks : list bytes) (local : bytes), agrees st x -> length ks = cap ->
  rel hash (mem (x_keys x) (x_local x)) ksize s (items (x_map x)) ->
  (forall k a v, In (k, (a, v)) s -> exists i, i < cap /\ a = kaddr i /\ nth i ks [] = k) ->
  rel hash (mem ks local) ksize s (items (x_map x)).
Proof.
  intros st x s ks local Ag Hl R Hs. eapply rel_mem; [exact R|]. apply forallb_forall. intros [k' [a v]] Hin. cbn.
  destruct (Hs _ _ _ Hin) as (i & Hi & -> & E). apply beqb_eq. rewrite (memory_key ksize base loc cap L) by assumption. exact E.
Qed.
Lemma map_eta : forall m n, key_size m = n -> m = mkMap (items m) n.
Proof. intros [a b] n H. cbn in *. congruence. Qed.

Lemma agrees_local : forall st x k, agrees st x -> agrees st (mkI (x_keys x) k (x_map x) (x_pool x) (x_dat x)).
Proof.
  intros st x k Ag. pose proof Ag as [A1 A0 A2 A3 A4 A5 A6]. constructor; cbn [x_keys x_local x_map x_pool x_dat]; auto. destruct A6 as [A6|(s & R & C1 & C2 & C3 & C4 & C5)]; [left; exact A6|right].
  exists s. split; [|auto]. apply (remem st x s (x_keys x) k Ag A1 R). intros k' a v Hin. destruct (C5 _ _ _ Hin) as (i & Hi & Ha & Hk & _).
  exists i. split; [exact Hi|]. split; [exact Ha|]. etransitivity; [exact (proj1 (A2 i Hi))|exact Hk].
Qed.
Lemma agrees_get : forall st x k, agrees st x -> length k = ksize ->
  option_map N.to_nat (map_get hash (mem (x_keys x) k) (x_map x) loc) = vals st k.
Proof.
  intros st x k Ag HK. pose proof (agrees_local st x k Ag) as Ag'.
  destruct (ag_map _ _ Ag') as [(C & E & V)|(s & R & C1 & C2 & C3 & C4 & C5)]; cbn [x_keys x_local x_map] in *.
  - unfold map_get. rewrite E, V. reflexivity.
  - rewrite (map_eta (x_map x) ksize (ag_ksize _ _ Ag)). rewrite (rel_get _ _ _ _ _ loc R); rewrite (memory_loc ksize base loc); [|exact HK].
    rewrite C3. specialize (C4 k). destruct (vals st k) as [v|]; [|reflexivity]. destruct (adr st k); [cbn; rewrite Nat2N.id; reflexivity|].
    exfalso. assert (X : Some v = None) by (apply C4; reflexivity). discriminate X.
Qed.
Lemma run_ok : forall A (p : nprog A) st x Q, agrees st x -> ok z p st Q ->
  let (a, x') := run_c hash ksize base loc find p x in exists st', agrees st' x' /\ Q a st'.
Proof.
  induction p as [a|k f IH|i v p IH|i p IH|i k p IH|i f IH|w o f IH|i f IH|i v p IH|k t f IH|d p IH]; intros st x Q Ag; cbn [ok run_c].
  - intros H. exists st. auto.
  - intros [HK H]. cbn [x_keys x_map]. rewrite (agrees_get st x k Ag HK). apply (IH _ st _ Q (agrees_local st x k Ag) H).
  - intros (Hi & Ho & Hlen & Hv & Ha & H). destruct (ag_map _ _ Ag) as [(C & _)|(s & R & C1 & C2 & C3 & C4 & C5)]; [lia|].
    assert (Em : mem (x_keys x) (x_local x) (kaddr i) = ckey st i) by (rewrite (memory_key ksize base loc cap L); [apply (ag_key _ _ Ag i Hi)|apply (ag_keys _ _ Ag)|exact Hi]).
    destruct (rel_set hash (mem (x_keys x) (x_local x)) ksize s (items (x_map x)) (kaddr i) (N.of_nat v) R) as (it' & E & HL & R').
    { apply (kaddr_0 ksize base loc cap L). } { rewrite Em. apply (ag_key _ _ Ag i Hi). } { rewrite Em, C3, Hv. reflexivity. } { lia. }
    rewrite <- (map_eta (x_map x) ksize (ag_ksize _ _ Ag)) in E. rewrite E. cbn [fst]. refine (IH _ _ Q _ H).
    destruct Ag as [A1 A0 A2 A3 A4 A5 A6]. constructor; cbn [x_keys x_local x_map x_pool x_dat ckey own vals adr clen its cdat key_size items]; auto.
    { intros j. unfold upd. destruct (Nat.eqb j i); [specialize (A0 i); lia|apply A0]. }
    right. rewrite Em in R'. exists ((ckey st i, (kaddr i, N.of_nat v)) :: s). split; [exact R'|]. split; [lia|]. split; [cbn; lia|]. split; [|split].
    + intros k. unfold kupd. destruct (beqb k (ckey st i)) eqn:B.
      * apply beqb_eq in B. subst k. unfold flookup. cbn [List.find fst]. rewrite (proj2 (beqb_eq _ _) eq_refl). reflexivity.
      * unfold flookup. cbn [List.find fst]. destruct (beqb (ckey st i) k) eqn:B2; [apply beqb_eq in B2; subst k; rewrite (proj2 (beqb_eq _ _) eq_refl) in B; discriminate B|]. apply C3.
    + intros k. unfold kupd. destruct (beqb k (ckey st i)); [split; discriminate|]. apply C4.
    + intros k a v' [E'|Hin].
      * injection E' as <- <- <-. exists i. split; [exact Hi|]. split; [reflexivity|]. split; [reflexivity|]. unfold upd. rewrite Nat.eqb_refl.
        specialize (A0 i). lia.
      * destruct (C5 _ _ _ Hin) as (j & Hj & -> & Hk & Hw). exists j. split; [exact Hj|]. split; [reflexivity|]. split; [exact Hk|]. unfold upd. destruct (Nat.eqb_spec j i) as [->|]; [lia|exact Hw].
  - intros (Hi & Ho & Hv & Ha & H). destruct (ag_map _ _ Ag) as [(C & _)|(s & R & C1 & C2 & C3 & C4 & C5)]; [lia|].
    assert (Em : mem (x_keys x) (x_local x) (kaddr i) = ckey st i) by (rewrite (memory_key ksize base loc cap L); [apply (ag_key _ _ Ag i Hi)|apply (ag_keys _ _ Ag)|exact Hi]).
    destruct (vals st (ckey st i)) as [v|] eqn:EV; [|congruence].
    assert (Es : flookup s (ckey st i) = Some (kaddr i, N.of_nat v)) by (rewrite C3, EV, Ha; reflexivity).
    destruct (rel_remove hash (mem (x_keys x) (x_local x)) ksize s (items (x_map x)) (kaddr i) (N.of_nat v) R) as (it' & E & HL & R').
    { apply (kaddr_0 ksize base loc cap L). } { rewrite Em. apply (ag_key _ _ Ag i Hi). } { rewrite Em. exact Es. }
    rewrite <- (map_eta (x_map x) ksize (ag_ksize _ _ Ag)) in E. rewrite E. cbn [fst]. refine (IH _ _ Q _ H).
    destruct (C5 _ _ _ (flookup_in _ _ _ _ Es)) as (i' & Hi' & Ei & Ek & Ew). apply (kaddr_inj ksize base loc cap L) in Ei. subst i'.
    pose proof (rel_nodup _ _ _ _ _ R) as ND.
    destruct Ag as [A1 A0 A2 A3 A4 A5 A6]. constructor; cbn [x_keys x_local x_map x_pool x_dat ckey own vals adr clen its cdat key_size items]; auto.
    { intros j. unfold upd. destruct (Nat.eqb j i); [lia|apply A0]. }
    right. rewrite Em in R'. exists (filter (fun p => negb (beqb (fst p) (ckey st i))) s). split; [exact R'|]. split; [lia|]. split; [|split; [|split]].
    + pose proof (filter_len s (ckey st i) _ ND (flookup_in _ _ _ _ Es)). lia.
    + intros k. unfold kupd. rewrite flookup_filter. destruct (beqb k (ckey st i)); [reflexivity|]. apply C3.
    + intros k. unfold kupd. destruct (beqb k (ckey st i)); [split; reflexivity|]. apply C4.
    + intros k a v' Hin. apply filter_In in Hin as [Hin Hne]. cbn [fst] in Hne. destruct (C5 _ _ _ Hin) as (j & Hj & -> & Hk & Hw). exists j. split; [exact Hj|]. split; [reflexivity|].
      split; [exact Hk|]. unfold upd. destruct (Nat.eqb_spec j i) as [->|]; [|exact Hw]. exfalso. rewrite Hk, (proj2 (beqb_eq _ _) eq_refl) in Hne. discriminate Hne.
  - intros (Hi & Ho & HK & H). refine (IH _ _ Q _ H).
    pose proof Ag as [A1 A0 A2 A3 A4 A5 A6]. constructor; cbn [x_keys x_local x_map x_pool x_dat ckey own vals adr clen its cdat]; auto.
    + rewrite set_nth_length. exact A1.
    + intros j Hj. rewrite set_nth_nth by (rewrite A1; exact Hi). unfold upd. destruct (Nat.eqb j i); [auto|apply A2; exact Hj].
    + destruct A6 as [A6|(s & R & C1 & C2 & C3 & C4 & C5)]; [left; exact A6|right]. exists s.
      assert (C5' : forall k' a v, In (k', (a, v)) s -> exists j, j < cap /\ a = kaddr j /\ upd (ckey st) i k j = k' /\ own st j <= 3).
      { intros k' a v Hin. destruct (C5 _ _ _ Hin) as (j & Hj & Ea & Hk & Hw). exists j. split; [exact Hj|]. split; [exact Ea|]. split; [|exact Hw].
        unfold upd. destruct (Nat.eqb_spec j i) as [->|]; [lia|exact Hk]. }
      split; [|auto]. apply (remem st x s (set_nth (x_keys x) i k) (x_local x) Ag); [rewrite set_nth_length; exact A1|exact R|].
      intros k' a v Hin. destruct (C5' _ _ _ Hin) as (j & Hj & Ea & Hk & Hw). exists j. split; [exact Hj|]. split; [exact Ea|].
      rewrite set_nth_nth by (rewrite A1; exact Hi). unfold upd in Hk. destruct (Nat.eqb j i); [exact Hk|]. etransitivity; [exact (proj1 (A2 j Hj))|exact Hk].
  - intros (Hi & Ho & H). rewrite (proj1 (ag_key _ _ Ag i Hi)). apply (IH _ st x Q Ag H).
  - intros (Ho & H). destruct (ag_pool _ _ Ag w) as (W & E & Ha). pose proof (pool_step_spec (z_pool z w) (x_pool x w) o W Ho) as S.
    destruct (pool_step (x_pool x w) o) as [pl out]. destruct S as (W' & E' & S). rewrite E in S. refine (IH out _ _ Q _ (H out (pool_abs pl) (spec_step_ext _ _ _ _ _ _ _ Ha S))).
    destruct Ag as [A1 A0 A2 A3 A4 A5 A6]. constructor; cbn [x_keys x_local x_map x_pool x_dat ckey own vals adr clen its cdat]; auto.
    intros w'. destruct w, w'; cbn [wset wupd]; auto; (split; [exact W'|]; split; [congruence|reflexivity]).
  - intros (Hi & H). rewrite (proj2 (ag_dat _ _ Ag) i Hi). apply (IH _ st x Q Ag H).
  - intros (Hi & H). refine (IH _ _ Q _ H). destruct Ag as [A1 A0 A2 A3 A4 A5 A6]. constructor; cbn [x_keys x_local x_map x_pool x_dat ckey own vals adr clen its cdat]; auto.
    destruct A4 as [B1 B2]. rewrite set_nth_length. split; [exact B1|]. intros j Hj. rewrite set_nth_nth by (rewrite B1; exact Hi). unfold upd. destruct (Nat.eqb j i); [reflexivity|apply B2; exact Hj].
  - intros (HK & _ & H). apply (IH _ st x Q Ag). apply H. intros b E. destruct (ag_pool _ _ Ag Backends) as (W & _ & Ha). rewrite <- Ha. exact (F _ _ _ _ W E).
  - intros (Hd & H). apply (IH st x Q Ag H).
Qed.

Lemma agrees_start : forall zero, (N.of_nat cap <= 2 ^ 63)%N -> agrees (cstart z zero) (xstart z zero).
Proof.
  intros zero HC. constructor; cbn [x_keys x_local x_map x_pool x_dat ckey own vals adr clen its cdat xstart cstart].
  - apply repeat_length.
  - intros; lia.
  - intros i Hi. rewrite (nth_indep _ [] (repeat 0%N ksize)) by (rewrite repeat_length; exact Hi).
    rewrite nth_repeat_same. split; [reflexivity|apply repeat_length].
  - intros w. split; [apply pool_alloc_wf|]. split; [reflexivity|]. intros j. apply pool_alloc_abs.
  - split; [apply repeat_length|]. intros i Hi. rewrite (nth_indep _ [] zero) by (rewrite repeat_length; exact Hi). apply nth_repeat_same.
  - reflexivity.
  - destruct (Nat.eq_dec cap 0) as [Z|Hp]; [left; split; [exact Z|]; rewrite Z; split; reflexivity|]. right.
    destruct (map_alloc_rel hash (mem (repeat (repeat 0%N ksize) cap) []) ksize (N.of_nat cap)) as [R HL]; [lia|exact HC|].
    exists []. split; [exact R|]. split; [lia|]. split; [reflexivity|]. split; [reflexivity|]. split; [split; reflexivity|]. intros k a v [].
Qed.
End Adequacy.
