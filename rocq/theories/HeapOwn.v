(** * Ownership of heap elements and of map keys

    Histories of takes and gives (heap.py 70-101), and of map insertions and removals
    (tool/klint/externals/structs/map.py 87-139) together with program writes. *)

From Coq Require Import NArith List Bool Lia Arith.
From Verif Require Import Solver Heap.
Import ListNotations.
Open Scope N_scope.

(** ** Takes and gives *)

Inductive own_op := Take (fraction : option N) (i : N) | Give (fraction i : N).
Definition own_step (o : hobj) (x : own_op) : res hobj :=
  match x with
  | Take fr i => do (o', _) <- take o fr i; Ok o'
  | Give fr i => give o fr i
  end.
Fixpoint own_run (o : hobj) (xs : list own_op) : res hobj :=
  match xs with [] => Ok o | x :: xs' => do o' <- own_step o x; own_run o' xs' end.

(** All present fractions are percentages. *)
Definition own_ok (o : hobj) : Prop :=
  forall f i, hfr o = Some f -> snd (f i) = true -> fst (f i) <= 100.

Lemma take_spec : forall o fr i o' got, own_ok o -> take o fr i = Ok (o', got) ->
  exists f f', hfr o = Some f /\ hfr o' = Some f' /\ snd (f i) = true /\ got = fst (f i) /\
    (forall x, fr = Some x -> x < 256 -> x <= fst (f i) /\ fst (f' i) = fst (f i) - x) /\
    (fr = None -> fst (f' i) = 0) /\
    fst (f' i) <= fst (f i) /\ snd (f' i) = true /\ (forall j, j <> i -> f' j = f j) /\ hel o' = hel o /\ hes o' = hes o.
Proof.
  intros o fr i o' got OK H. unfold take in H. destruct (hfr o) as [f|] eqn:F; [|discriminate].
  destruct (f i) as [cur present] eqn:FI. destruct present; [|discriminate]. cbn [andb] in H.
  assert (C : cur <= 100) by (specialize (OK f i F); rewrite FI in OK; apply OK; reflexivity).
  set (x := match fr with None => cur | Some x => x mod 2 ^ 8 end) in *.
  destruct (N.leb_spec x cur) as [LE|]; [|discriminate]. injection H as <- <-.
  assert (E : (cur + 2 ^ 8 - x) mod 2 ^ 8 = cur - x).
  { replace (cur + 2 ^ 8 - x) with (cur - x + 1 * 2 ^ 8) by lia. rewrite N.mod_add by discriminate. apply N.mod_small.
    change (2 ^ 8) with 256. lia. }
  exists f. eexists. split; [auto|]. split; [unfold fset; rewrite F; cbn [hfr]; reflexivity|].
  rewrite FI. cbn [fst snd]. rewrite N.eqb_refl. cbn [fst snd].
  change (N.pos (2 ^ 8)) with 256. change (2 ^ 8) with 256 in E. rewrite E. split; [auto|]. split; [auto|].
  split.
  { intros y -> Y. unfold x in *. rewrite N.mod_small in * by (change (2 ^ 8) with 256; auto). auto. }
  split; [intros ->; unfold x; lia|]. split; [lia|]. split; [auto|]. split; [|auto].
  intros j NE. destruct (N.eqb_spec j i); [contradiction|auto].
Qed.
Lemma give_spec : forall o fr i o', give o fr i = Ok o' ->
  exists f f', hfr o = Some f /\ hfr o' = Some f' /\ snd (f i) = true /\
    fst (f' i) = (fst (f i) + fr mod 2 ^ 8) mod 2 ^ 8 /\ fst (f' i) <= 100 /\ snd (f' i) = true /\
    (forall j, j <> i -> f' j = f j) /\ hel o' = hel o /\ hes o' = hes o.
Proof.
  intros o fr i o' H. unfold give in H. destruct (hfr o) as [f|] eqn:F; [|discriminate].
  destruct (f i) as [cur present] eqn:FI. destruct present; [|discriminate]. cbn [andb] in H.
  destruct (N.leb_spec ((cur + fr mod 2 ^ 8) mod 2 ^ 8) 100); [|discriminate]. injection H as <-.
  exists f. eexists. split; [auto|]. split; [unfold fset; rewrite F; cbn [hfr]; reflexivity|].
  rewrite FI. cbn [fst snd]. rewrite N.eqb_refl. cbn [fst snd]. do 4 (split; [auto|]). split; [|auto].
  intros j NE. destruct (N.eqb_spec j i); [contradiction|auto].
Qed.
Lemma own_step_ok : forall o x o', own_ok o -> own_step o x = Ok o' -> own_ok o'.
Proof.
  intros o [fr i|fr i] o' OK H; cbn [own_step] in H.
  - destruct (take o fr i) as [[o1 got]| |] eqn:T; try discriminate. cbn in H. injection H as <-.
    destruct (take_spec _ _ _ _ _ OK T) as [f [f' [F [F' [P [_ [_ [_ [L [_ [O _]]]]]]]]]]].
    intros g j G S. rewrite F' in G. injection G as <-. destruct (N.eq_dec j i) as [->|NE].
    + specialize (OK f i F P). lia.
    + rewrite O in * by auto. eapply OK; eauto.
  - destruct (give_spec _ _ _ _ H) as [f [f' [F [F' [P [_ [L [_ [O _]]]]]]]]].
    intros g j G S. rewrite F' in G. injection G as <-. destruct (N.eq_dec j i) as [->|NE]; [auto|].
    rewrite O in * by auto. eapply OK; eauto.
Qed.
Lemma own_run_ok : forall xs o o', own_ok o -> own_run o xs = Ok o' -> own_ok o'.
Proof.
  induction xs as [|x xs IH]; intros o o' OK H; cbn [own_run] in H; [injection H as <-; auto|].
  destruct (own_step o x) eqn:S; try discriminate. eapply IH; [|exact H]. eapply own_step_ok; eauto.
Qed.

(** ** Map keys *)

(** The map contract's state (map.py 10): values and key addresses by key, the number
    of entries and the capacity. Keys are the contents of memory; an address is an
    index in the allocation at hand (pointers with an offset are rejected, heap.py
    72-73). *)
Record kmap := mkK { kvals : N -> option N; kaddrs : N -> option N; klen : N; kcap : N }.
Definition kupd (f : N -> option N) (key : N) (v : option N) : N -> option N := fun x => if x =? key then v else f x.

Record kst := mkKst { kheap : hobj; kmaps : list kmap }.
Definition set_nth {A} (n : nat) (x : A) (l : list A) : list A := firstn n l ++ x :: skipn (S n) l.

Section Maps.
Variable pw ksz : N. (* pointer size, key size in bytes *)

(** map_set, map.py 87-104. *)
Definition kset (st : kst) (m : nat) (i value : N) : res kst :=
  match nth_error (kmaps st) m with
  | None => Err
  | Some k =>
      do key <- hread pw (kheap st) i 0 ksz false;
      do (h, _) <- take (kheap st) (Some 25) i;
      match kvals k key, kaddrs k key with
      | None, None =>
          if klen k <? kcap k
          then Ok (mkKst h (set_nth m (mkK (kupd (kvals k) key (Some value)) (kupd (kaddrs k) key (Some i)) (klen k + 1) (kcap k)) (kmaps st)))
          else Err
      | _, _ => Err
      end
  end.
(** map_remove, map.py 120-139. *)
Definition kremove (st : kst) (m : nat) (i : N) : res kst :=
  match nth_error (kmaps st) m with
  | None => Err
  | Some k =>
      do key <- hread pw (kheap st) i 0 ksz false;
      do (h, frac) <- take (kheap st) None i;
      match kvals k key, kaddrs k key with
      | Some _, Some a =>
          if negb (frac =? 0) && (a =? i)
          then do h' <- give h (frac + 25) i;
               Ok (mkKst h' (set_nth m (mkK (kupd (kvals k) key None) (kupd (kaddrs k) key None) (klen k - 1) (kcap k)) (kmaps st)))
          else Err
      | _, _ => Err
      end
  end.

Inductive kop := KSet (m : nat) (i value : N) | KRemove (m : nat) (i : N) | KWrite (i off v w : N) (reverse : bool).
Definition kstep (st : kst) (x : kop) : res kst :=
  match x with
  | KSet m i v => kset st m i v
  | KRemove m i => kremove st m i
  | KWrite i off v w rev => do h <- hwrite pw (kheap st) i off v w rev; Ok (mkKst h (kmaps st))
  end.
Fixpoint krun (st : kst) (xs : list kop) : res kst :=
  match xs with [] => Ok st | x :: xs' => do st' <- kstep st x; krun st' xs' end.

(** [k] has the key stored at [i]. *)
Definition holds_key (h : hobj) (i : N) (k : kmap) : bool :=
  match kaddrs k (fst (hel h i)) with Some a => a =? i | None => false end.
Definition holders (st : kst) (i : N) : N := N.of_nat (length (filter (holds_key (kheap st) i) (kmaps st))).

(** Everything owned, nothing stored. *)
Definition kstart (st : kst) (n : N) : Prop :=
  exists f, hfr (kheap st) = Some f /\ (forall i, f i = (if i <? n then 100 else 0, i <? n)) /\
  sized_el (kheap st) /\ hes (kheap st) = ksz * 8 /\ ksz <> 0 /\ (forall i, snd (hel (kheap st) i) = (i <? n)) /\ n <= 2 ^ pw /\
  Forall (fun k => forall key, kvals k key = None /\ kaddrs k key = None) (kmaps st).

(** What every history preserves. *)
Definition kinv (st : kst) (n : N) : Prop :=
  exists f, hfr (kheap st) = Some f /\ (forall i, snd (f i) = (i <? n)) /\
  sized_el (kheap st) /\ hes (kheap st) = ksz * 8 /\ ksz <> 0 /\ n <= 2 ^ pw /\
  (forall i, i < n -> fst (f i) + 25 * holders st i = 100) /\
  Forall (fun k => (forall key a, kaddrs k key = Some a -> fst (hel (kheap st) a) = key /\ a < n) /\
                   (forall key, kvals k key = None <-> kaddrs k key = None)) (kmaps st).

Lemma kstart_inv : forall st n, kstart st n -> kinv st n.
Proof.
  intros st n [f [F [FV [SE [ES [KZ [P [N F2]]]]]]]]. exists f. split; [auto|]. split; [intros i; rewrite FV; reflexivity|].
  split; [auto|]. split; [auto|]. split; [auto|]. split; [auto|]. split.
  - intros i L. rewrite FV. destruct (N.ltb_spec i n); [|lia]. cbn [fst]. unfold holders.
    replace (filter _ (kmaps st)) with (@nil kmap); [reflexivity|]. clear -F2. induction F2 as [|k ks H F2 IH]; [reflexivity|].
    cbn [filter]. unfold holds_key at 1. rewrite (proj2 (H _)). auto.
  - eapply Forall_impl; [|exact F2]. intros k H. split.
    + intros key a E. rewrite (proj2 (H key)) in E. discriminate.
    + intros key. destruct (H key). tauto.
Qed.

(** A whole-element read is the element. *)
Lemma hread_whole : forall o i v, sized_el o -> hes o = ksz * 8 -> ksz <> 0 ->
  hread pw o i 0 ksz false = Ok v -> v = fst (hel o i) /\ can_read o i = true.
Proof.
  intros o i v SE ES KZ H. unfold hread in H. destruct (N.eqb_spec ksz 0); [contradiction|].
  apply bindr_ok in H as [[x w] [R H]]. cbn [bindr] in H.
  assert (H' : v = low (ksz * 8) (N.shiftr x 0)) by congruence. clear H. subst v.
  assert (X : exists m, N.to_nat (ksz * 8 + 0) = S m) by (exists (pred (N.to_nat (ksz * 8 + 0))); lia). destruct X as [m X]. rewrite X in R.
  cbn [read_loop] in R. destruct (N.leb_spec (ksz * 8 + 0) 0); [lia|].
  destruct (can_read o i); [|discriminate]. split; [|auto].
  rewrite ES in R. destruct (N.leb_spec (ksz * 8 + 0) (0 + ksz * 8)); [|lia].
  assert (x = cat 0 0 (fst (hel o i))) as -> by congruence.
  rewrite N.shiftr_0_r. unfold cat. rewrite N.shiftl_0_r, N.lor_0_l. apply low_small. rewrite <- ES. apply SE.
Qed.

Lemma set_nth_split : forall {A} n (l : list A) x y, nth_error l n = Some x ->
  exists a b, l = a ++ x :: b /\ set_nth n y l = a ++ y :: b.
Proof.
  intros A n l x y H. apply nth_error_split in H as [a [b [-> L]]]. exists a, b. split; [auto|]. unfold set_nth.
  rewrite firstn_app, <- L, Nat.sub_diag, firstn_all. cbn [firstn]. rewrite app_nil_r. f_equal. f_equal.
  rewrite skipn_app, skipn_all2 by lia. rewrite app_nil_l. replace (S (length a) - length a)%nat with 1%nat by lia. reflexivity.
Qed.

(** Elements that may not be written do not change. *)
Lemma write_loop_keeps : forall fuel o i off rest rw rev o', write_loop pw fuel o i off rest rw rev = Ok o' ->
  (sized_el o -> sized_el o') /\ hes o' = hes o /\ hfr o' = hfr o /\ forall j, can_write o j = false -> hel o' j = hel o j.
Proof.
  induction fuel as [|fuel IH]; intros o i off rest rw rev o' H; cbn [write_loop] in H;
    destruct (N.eqb_spec rw 0); try discriminate; try (injection H as <-; auto; fail).
  destruct (can_write o i) eqn:CW; [|discriminate]. cbn [negb] in H.
  destruct ((hes o =? 0) || (hes o <=? off)) eqn:OB; [discriminate|]. apply orb_false_iff in OB as [OB1 OB2].
  apply N.eqb_neq in OB1. apply N.leb_gt in OB2.
  apply bindr_ok in H as [cur [H1 H]]. apply bindr_ok in H as [e [H2 H]]. apply IH in H as [H3 [H4 [H5 H6]]].
  split.
  { intros SE. apply H3. apply hset_sized; [auto|]. destruct rev.
    - eapply reversed_ok. exact H2.
    - injection H2 as <-. injection H1 as <-. destruct (chunk_size_le (hes o) off rw) as [C1 [C2 [C3 C4]]]; try lia.
      apply fill_lt; auto using low_lt. }
  split; [auto|]. split; [auto|]. intros j CJ. rewrite H6 by exact CJ. cbn [hset hel]. destruct (N.eqb_spec j i); [congruence|auto].
Qed.

Lemma filter_split_len : forall {A} (f : A -> bool) a x b,
  length (filter f (a ++ x :: b)) = (length (filter f (a ++ b)) + if f x then 1 else 0)%nat.
Proof. intros. rewrite !filter_app, !app_length. cbn [filter]. destruct (f x); cbn [length]; lia. Qed.

Lemma kstep_inv : forall st x st' n, kinv st n -> kstep st x = Ok st' -> kinv st' n.
Proof.
  intros st x st' n [f [F [FP [SE [ES [KZ [NP [CO KM]]]]]]]] H.
  assert (OK : own_ok (kheap st)).
  { intros g i G S. rewrite F in G. injection G as <-. rewrite FP in S. apply N.ltb_lt in S. specialize (CO i S). lia. }
  destruct x as [m i v|m i|i off v w rev]; cbn [kstep] in H.
  - unfold kset in H. destruct (nth_error (kmaps st) m) as [k|] eqn:KN; [|discriminate].
    apply bindr_ok in H as [key [HR H]]. apply bindr_ok in H as [[h got] [HT H]].
    destruct (kvals k key) eqn:V; [discriminate|]. destruct (kaddrs k key) eqn:A; [discriminate|].
    destruct (klen k <? kcap k); [|discriminate]. injection H as <-.
    destruct (hread_whole _ _ _ SE ES KZ HR) as [-> _].
    destruct (take_spec _ _ _ _ _ OK HT) as [f0 [f' [F0 [F' [P [_ [T1 [_ [_ [P' [O [HE HS]]]]]]]]]]]]. rewrite F in F0. injection F0 as <-.
    destruct (T1 25 eq_refl eq_refl) as [T2 T3]. rewrite FP in P. apply N.ltb_lt in P.
    set (k' := mkK _ _ _ _). destruct (set_nth_split m (kmaps st) k k' KN) as [a [b [E1 E2]]].
    rewrite E1 in KM. apply Forall_app in KM as [KM1 KM2]. inversion KM2 as [|? ? [KA KV] KM3]; subst.
    exists f'. cbn [kheap kmaps]. split; [auto|]. split.
    { intros j. destruct (N.eq_dec j i) as [->|NE]; [rewrite P'; symmetry; apply N.ltb_lt; auto|]. rewrite O by auto. apply FP. }
    split; [unfold sized_el; rewrite HE, HS; exact SE|]. split; [congruence|]. split; [auto|]. split; [auto|]. split.
    { intros j L. specialize (CO j L). unfold holders in *. cbn [kheap kmaps]. rewrite E2. rewrite E1 in CO.
      rewrite filter_split_len in *.
      assert (HX : forall l, filter (holds_key h j) l = filter (holds_key (kheap st) j) l).
      { intros l. apply filter_ext. intros q. unfold holds_key. rewrite HE. reflexivity. }
      rewrite HX. destruct (N.eq_dec j i) as [->|NE].
      - assert (HK : holds_key (kheap st) i k = false) by (unfold holds_key; rewrite A; reflexivity).
        assert (HK' : holds_key h i k' = true) by (unfold holds_key, k', kupd; cbn [kaddrs]; rewrite HE, !N.eqb_refl; reflexivity).
        rewrite HK in CO. rewrite HK'. rewrite T3. lia.
      - assert (HK : holds_key h j k' = holds_key (kheap st) j k).
        { unfold holds_key, k', kupd. cbn [kaddrs]. rewrite HE. destruct (N.eqb_spec (fst (hel (kheap st) j)) (fst (hel (kheap st) i))) as [EQ|]; [|auto].
          rewrite EQ, A. destruct (N.eqb_spec i j); [congruence|auto]. }
        rewrite HK. rewrite O by auto. auto. }
    { rewrite E2. rewrite HE. apply Forall_app. split; [auto|]. constructor; [|auto]. unfold k', kupd. cbn [kaddrs kvals]. split.
      - intros key a0. destruct (N.eqb_spec key (fst (hel (kheap st) i))) as [->|]; [|apply KA]. intros Q. injection Q as <-. auto.
      - intros key. destruct (N.eqb_spec key (fst (hel (kheap st) i))) as [->|]; [|apply KV]. split; discriminate. }
  - unfold kremove in H. destruct (nth_error (kmaps st) m) as [k|] eqn:KN; [|discriminate].
    apply bindr_ok in H as [key [HR H]]. apply bindr_ok in H as [[h got] [HT H]].
    destruct (kvals k key) eqn:V; [|discriminate]. destruct (kaddrs k key) as [ad|] eqn:A; [|discriminate].
    destruct (negb (got =? 0) && (ad =? i)) eqn:CK; [|discriminate]. apply andb_prop in CK as [CK1 CK2]. apply N.eqb_eq in CK2. subst ad.
    apply bindr_ok in H as [h' [HG H]]. injection H as <-.
    destruct (hread_whole _ _ _ SE ES KZ HR) as [-> _].
    destruct (take_spec _ _ _ _ _ OK HT) as [f0 [f1 [F0 [F1 [P [GT [_ [T1 [_ [P1 [O1 [HE1 HS1]]]]]]]]]]]]. rewrite F in F0. injection F0 as <-.
    specialize (T1 eq_refl). rewrite FP in P. apply N.ltb_lt in P.
    destruct (give_spec _ _ _ _ HG) as [f2 [f' [F2 [F' [_ [G1 [G2 [G3 [O2 [HE2 HS2]]]]]]]]]]. rewrite F1 in F2. injection F2 as <-.
    set (k' := mkK _ _ _ _). destruct (set_nth_split m (kmaps st) k k' KN) as [a [b [E1 E2]]].
    rewrite E1 in KM. apply Forall_app in KM as [KM1 KM2]. inversion KM2 as [|? ? [KA KV] KM3]; subst.
    assert (HE : hel h' = hel (kheap st)) by congruence.
    exists f'. cbn [kheap kmaps]. split; [auto|]. split.
    { intros j. destruct (N.eq_dec j i) as [->|NE]; [rewrite G3; symmetry; apply N.ltb_lt; auto|]. rewrite O2, O1 by auto. apply FP. }
    split; [unfold sized_el; rewrite HE, HS2, HS1; exact SE|]. split; [congruence|]. split; [auto|]. split; [auto|]. split.
    { intros j L. pose proof (CO j L) as CJ. unfold holders in *. cbn [kheap kmaps]. rewrite E2. rewrite E1 in CJ.
      rewrite filter_split_len in *.
      assert (HX : forall l, filter (holds_key h' j) l = filter (holds_key (kheap st) j) l).
      { intros l. apply filter_ext. intros q. unfold holds_key. rewrite HE. reflexivity. }
      rewrite HX. destruct (N.eq_dec j i) as [->|NE].
      - assert (HK : holds_key (kheap st) i k = true) by (unfold holds_key; rewrite A; apply N.eqb_refl).
        assert (HK' : holds_key h' i k' = false) by (unfold holds_key, k', kupd; cbn [kaddrs]; rewrite HE, N.eqb_refl; reflexivity).
        rewrite HK in CJ. rewrite HK'. rewrite G1, T1. rewrite N.add_0_l, N.mod_mod by discriminate.
        rewrite N.mod_small; [lia|]. change (2 ^ 8) with 256. lia.
      - assert (HK : holds_key h' j k' = holds_key (kheap st) j k).
        { unfold holds_key, k', kupd. cbn [kaddrs]. rewrite HE. destruct (N.eqb_spec (fst (hel (kheap st) j)) (fst (hel (kheap st) i))) as [EQ|]; [|auto].
          rewrite EQ, A. destruct (N.eqb_spec i j); [congruence|auto]. }
        rewrite HK. rewrite O2, O1 by auto. auto. }
    { rewrite E2. rewrite HE. apply Forall_app. split; [auto|]. constructor; [|auto]. unfold k', kupd. cbn [kaddrs kvals]. split.
      - intros key a0. destruct (N.eqb_spec key (fst (hel (kheap st) i))) as [->|]; [discriminate|apply KA].
      - intros key. destruct (N.eqb_spec key (fst (hel (kheap st) i))) as [->|]; [split; auto|apply KV]. }
  - apply bindr_ok in H as [h [HW H]]. injection H as <-. unfold hwrite in HW.
    destruct (write_loop_keeps _ _ _ _ _ _ _ _ HW) as [W1 [W2 [W3 W4]]].
    assert (KEEP : forall j, j < n -> 0 < holders st j -> hel h j = hel (kheap st) j).
    { intros j L Q. apply W4. unfold can_write. rewrite F. specialize (CO j L). destruct (N.eqb_spec (fst (f j)) 100); [lia|apply andb_false_r]. }
    assert (SAMEK : forall k j, In k (kmaps st) -> j < n -> holds_key h j k = holds_key (kheap st) j k).
    { intros k j IN L. destruct (holds_key (kheap st) j k) eqn:HK.
      - unfold holds_key. rewrite KEEP; [exact HK|auto|]. unfold holders.
        assert (In k (filter (holds_key (kheap st) j) (kmaps st))) by (apply filter_In; auto).
        destruct (filter (holds_key (kheap st) j) (kmaps st)); [contradiction|cbn [length]; lia].
      - destruct (holds_key h j k) eqn:HK2; [|auto]. unfold holds_key in HK2. destruct (kaddrs k (fst (hel h j))) as [a|] eqn:A; [|discriminate].
        apply N.eqb_eq in HK2. subst a. rewrite Forall_forall in KM. destruct (KM k IN) as [KA _]. destruct (KA _ _ A) as [E _].
        unfold holds_key in HK. rewrite E, A in HK. rewrite N.eqb_refl in HK. discriminate. }
    exists f. cbn [kheap kmaps]. split; [congruence|]. split; [auto|]. split; [auto|]. split; [congruence|]. split; [auto|]. split; [auto|]. split.
    + intros j L. specialize (CO j L). unfold holders in *. cbn [kheap kmaps].
      assert (X : filter (holds_key h j) (kmaps st) = filter (holds_key (kheap st) j) (kmaps st)) by (apply filter_ext_in; intros; apply SAMEK; auto).
      rewrite X. auto.
    + rewrite Forall_forall in *. intros k IN. destruct (KM k IN) as [KA KV]. split; [|auto]. intros key a A. destruct (KA key a A) as [E L].
      split; [|auto]. rewrite KEEP; [auto|auto|]. unfold holders.
      assert (In k (filter (holds_key (kheap st) a) (kmaps st))).
      { apply filter_In. split; [auto|]. unfold holds_key. rewrite E, A. apply N.eqb_refl. }
      destruct (filter (holds_key (kheap st) a) (kmaps st)); [contradiction|cbn [length]; lia].
Qed.
Lemma krun_inv : forall xs st st' n, kinv st n -> krun st xs = Ok st' -> kinv st' n.
Proof.
  induction xs as [|x xs IH]; intros st st' n I H; cbn [krun] in H; [injection H as <-; auto|].
  apply bindr_ok in H as [st1 [H1 H]]. eapply IH; [|exact H]. eapply kstep_inv; eauto.
Qed.

(** Over any history, each element's fraction is what the maps holding its key left,
    and such an element still contains the key it was stored under. *)
Lemma key_conservation : forall st xs st' n, kstart st n -> krun st xs = Ok st' ->
  exists f, hfr (kheap st') = Some f /\
  (forall i, i < n -> fst (f i) + 25 * holders st' i = 100) /\
  (forall k key a, In k (kmaps st') -> kaddrs k key = Some a ->
     a < n /\ fst (hel (kheap st') a) = key /\ can_write (kheap st') a = false).
Proof.
  intros st xs st' n S H. destruct (krun_inv _ _ _ _ (kstart_inv _ _ S) H) as [f [F [FP [SE [ES [KZ [NP [CO KM]]]]]]]].
  exists f. split; [auto|]. split; [auto|]. intros k key a IN A. rewrite Forall_forall in KM. destruct (KM k IN) as [KA _].
  destruct (KA _ _ A) as [E L]. split; [auto|]. split; [auto|]. unfold can_write. rewrite F.
  specialize (CO a L). destruct (N.eqb_spec (fst (f a)) 100) as [Q|]; [|apply andb_false_r]. exfalso.
  assert (In k (filter (holds_key (kheap st') a) (kmaps st'))).
  { apply filter_In. split; [auto|]. unfold holds_key. rewrite E, A. apply N.eqb_refl. }
  unfold holders in CO. destruct (filter (holds_key (kheap st') a) (kmaps st')); [contradiction|cbn [length] in CO; lia].
Qed.
(** Inserting and then removing restores the ownership. *)
Lemma set_remove : forall st m i v st1 st2 n f f2, kinv st n -> hfr (kheap st) = Some f ->
  kset st m i v = Ok st1 -> kremove st1 m i = Ok st2 -> hfr (kheap st2) = Some f2 ->
  (forall f1, hfr (kheap st1) = Some f1 -> fst (f1 i) = fst (f i) - 25) /\ 25 <= fst (f i) /\ (forall j, j < n -> fst (f2 j) = fst (f j)) /\
  (forall k2, nth_error (kmaps st2) m = Some k2 -> kaddrs k2 (fst (hel (kheap st) i)) = None).
Proof.
  intros st m i v st1 st2 n f f2 I F H1 H2 F2.
  assert (I1 : kinv st1 n) by (apply (kstep_inv st (KSet m i v) st1 n); auto).
  destruct I as [f0 [F0 [FP [SE [ES [KZ [NP [CO KM]]]]]]]]. rewrite F in F0. injection F0 as <-.
  assert (OK : own_ok (kheap st)).
  { intros g j G S. rewrite F in G. injection G as <-. rewrite FP in S. apply N.ltb_lt in S. specialize (CO j S). lia. }
  unfold kset in H1. destruct (nth_error (kmaps st) m) as [k|] eqn:KN; [|discriminate].
  apply bindr_ok in H1 as [key [HR H1]]. apply bindr_ok in H1 as [[h got] [HT H1]].
  destruct (kvals k key) eqn:V; [discriminate|]. destruct (kaddrs k key) eqn:A; [discriminate|].
  destruct (klen k <? kcap k); [|discriminate]. injection H1 as <-.
  destruct (hread_whole _ _ _ SE ES KZ HR) as [-> _].
  destruct (take_spec _ _ _ _ _ OK HT) as [f0 [f1 [F0 [F1 [P [_ [T1 [_ [_ [P' [O [HE HS]]]]]]]]]]]]. rewrite F in F0. injection F0 as <-.
  destruct (T1 25 eq_refl eq_refl) as [T2 T3]. rewrite FP in P. apply N.ltb_lt in P.
  destruct I1 as [f1' [F1' [FP1 [SE1 [ES1 [_ [_ [CO1 KM1]]]]]]]]. cbn [kheap] in F1'. rewrite F1 in F1'. injection F1' as <-.
  assert (OK1 : own_ok h).
  { intros g j G S. rewrite F1 in G. injection G as <-. rewrite FP1 in S. apply N.ltb_lt in S. specialize (CO1 j S). cbn in CO1. lia. }
  unfold kremove in H2. cbn [kheap kmaps] in H2.
  set (k' := mkK _ _ _ _) in H2. destruct (set_nth_split m (kmaps st) k k' KN) as [a [b [E1 E2]]].
  destruct (nth_error (set_nth m k' (kmaps st)) m) as [k1|] eqn:KN1; [|discriminate].
  apply bindr_ok in H2 as [key1 [HR1 H2]]. apply bindr_ok in H2 as [[h1 got1] [HT1 H2]].
  destruct (hread_whole _ _ _ SE1 ES1 KZ HR1) as [-> _]. cbn [kheap] in *. rewrite HE in H2.
  destruct (kvals k1 (fst (hel (kheap st) i))) eqn:V1; [|discriminate]. destruct (kaddrs k1 (fst (hel (kheap st) i))) as [ad|] eqn:A1; [|discriminate].
  destruct (negb (got1 =? 0) && (ad =? i)) eqn:CK; [|discriminate].
  apply bindr_ok in H2 as [h2 [HG H2]]. injection H2 as <-. cbn [kheap kmaps] in *.
  destruct (take_spec _ _ _ _ _ OK1 HT1) as [f3 [f4 [F3 [F4 [_ [GT [_ [T4 [_ [P4 [O4 [HE4 HS4]]]]]]]]]]]]. rewrite F1 in F3. injection F3 as <-.
  specialize (T4 eq_refl). destruct (give_spec _ _ _ _ HG) as [f5 [f6 [F5 [F6 [_ [G1 [G2 [G3 [O2 [HE2 HS2]]]]]]]]]].
  rewrite F4 in F5. injection F5 as <-. rewrite F2 in F6. injection F6 as <-.
  split; [intros f1'' E; rewrite F1 in E; injection E as <-; auto|]. split; [auto|]. split.
  - intros j L. destruct (N.eq_dec j i) as [->|NE]; [|rewrite O2, O4, O by auto; auto].
    rewrite G1, T4, GT, T3. rewrite N.add_0_l, N.mod_mod by discriminate. specialize (CO i P).
    rewrite N.mod_small; [lia|]. change (2 ^ 8) with 256. lia.
  - intros k2 KN2. assert (KS : exists k3 : kmap, nth_error (set_nth m k' (kmaps st)) m = Some k3) by eauto.
    set (k3 := mkK _ _ _ _) in KN2. destruct (set_nth_split m _ k1 k3 KN1) as [a2 [b2 [E3 E4]]].
    assert (KN3 : nth_error (set_nth m k3 (set_nth m k' (kmaps st))) m = Some k3).
    { unfold set_nth at 1. rewrite nth_error_app2; [|rewrite firstn_length; lia].
      assert (m < length (set_nth m k' (kmaps st)))%nat by (apply nth_error_Some; congruence).
      rewrite firstn_length_le by lia. rewrite Nat.sub_diag. reflexivity. }
    rewrite KN3 in KN2. injection KN2 as <-. unfold k3, kupd. cbn [kaddrs]. rewrite N.eqb_refl. reflexivity.
Qed.
End Maps.
