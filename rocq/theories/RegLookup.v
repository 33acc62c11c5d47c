(** * Finding the register at an address *)

From Coq Require Import NArith ZArith List Bool Lia Arith String.
From Verif Require Import Expr Solver Regs.
Import ListNotations.
Open Scope N_scope.

(** ** Where the data sheet puts a register

    A range [(b, m, lim)] holds the instances up to number [lim], starting after the
    previous range's limit, every [m] bytes from [b]. *)
Fixpoint placed (first : N) (ranges : list (N * N * N)) (j a : N) : Prop :=
  match ranges with
  | [] => False
  | (b, m, lim) :: rs => (first <= j <= lim /\ a = b + (j - first) * m) \/ placed (lim + 1) rs j a
  end.
(** Instance [j] of the register starts at address [a]. *)
Definition instance (d : reg) (j a : N) : Prop := placed 0 (r_addr d) j a.
(** No two instances start at the same address. *)
Definition no_clash (spec : list reg) : Prop := forall d1 d2 j1 j2 a, In d1 spec -> In d2 spec ->
  instance d1 j1 a -> instance d2 j2 a -> r_name d1 = r_name d2 /\ j1 = j2.
Definition two_ranges (spec : list reg) : Prop := forall d, In d spec -> (List.length (r_addr d) <= 2)%nat.

Lemma cache_range_in : forall name b m idx n e, In e (cache_range name b m idx n) <->
  exists k, k < N.of_nat n /\ e = (b + k * m, (name, k + idx)).
Proof.
  induction n as [|n IH]; intros e; cbn [cache_range].
  - split; [intros []|intros (k & Hk & _); lia].
  - cbn [In]. rewrite IH. split.
    + intros [<-|(k & Hk & ->)]; [exists (N.of_nat n); split; [lia|reflexivity]|exists k; split; [lia|reflexivity]].
    + intros (k & Hk & ->). destruct (N.eq_dec k (N.of_nat n)) as [->|Hne]; [left; reflexivity|right; exists k; split; [lia|reflexivity]].
Qed.
Lemma cache_in : forall spec e, In e (cache spec) <-> exists d, In d spec /\ In e (cache_ranges (r_name d) 0 (r_addr d)).
Proof.
  induction spec as [|d ds IH]; intros e; cbn [cache].
  - split; [intros []|intros (d & [] & _)].
  - rewrite in_app_iff, IH. split.
    + intros [(d' & Hd & He)|He]; [exists d'; split; [right; exact Hd|exact He]|exists d; split; [left; reflexivity|exact He]].
    + intros (d' & [<-|Hd] & He); [right; exact He|left; exists d'; auto].
Qed.
Lemma cache_ranges_two : forall name rs e, (List.length rs <= 2)%nat ->
  In e (cache_ranges name 0 rs) <-> exists j a, placed 0 rs j a /\ e = (a, (name, j)).
Proof.
  intros name rs e H. destruct rs as [|[[b m] lim] [|[[b' m'] lim'] [|x rs]]]; cbn [List.length] in H; [| | |lia].
  - cbn. split; [intros []|intros (j & a & [] & _)].
  - cbn [cache_ranges app placed]. rewrite cache_range_in. split.
    + intros (k & Hk & ->). exists k, (b + k * m). split; [left; split; [lia|f_equal; f_equal; lia]|]. rewrite N.add_0_r. reflexivity.
    + intros (j & a & [(Hj & ->)|[]] & ->). exists j. split; [lia|]. rewrite N.add_0_r, N.sub_0_r. reflexivity.
  - cbn [cache_ranges app placed]. rewrite in_app_iff, !cache_range_in. split.
    + intros [(k & Hk & ->)|(k & Hk & ->)].
      * exists (k + (0 + lim + 1)), (b' + k * m'). split; [right; left; split; [lia|f_equal; f_equal; lia]|]. reflexivity.
      * exists k, (b + k * m). split; [left; split; [lia|f_equal; f_equal; lia]|]. rewrite N.add_0_r. reflexivity.
    + intros (j & a & [(Hj & ->)|[(Hj & ->)|[]]] & ->).
      * right. exists j. split; [lia|]. rewrite N.add_0_r, N.sub_0_r. reflexivity.
      * left. exists (j - (lim + 1)). split; [lia|]. f_equal. f_equal. lia.
Qed.

Lemma find_spec' : forall (A : Type) (p : A -> bool) l, match find p l with
  | Some x => In x l /\ p x = true | None => forall x, In x l -> p x = false end.
Proof.
  intros A p l. destruct (find p l) eqn:E; [apply find_some in E; exact E|]. intros x Hx. apply (find_none _ _ E x Hx).
Qed.
Theorem lookup_instance : forall spec d j a, no_clash spec -> two_ranges spec -> In d spec -> instance d j a ->
  find_reg_from_addr spec a = Ok (r_name d, j).
Proof.
  intros spec d j a Hu H2 Hd Hi. unfold find_reg_from_addr.
  pose proof (find_spec' _ (fun e => fst e =? a) (cache spec)) as F.
  assert (Hin : In (a, (r_name d, j)) (cache spec)).
  { apply cache_in. exists d. split; [exact Hd|]. apply cache_ranges_two; [apply H2; exact Hd|]. exists j, a. auto. }
  destruct (find _ _) as [[a' [n' j']]|].
  - destruct F as [F1 F2]. cbn [fst] in F2. apply N.eqb_eq in F2. subst a'. cbn [snd].
    apply cache_in in F1 as (d' & Hd' & F1). apply cache_ranges_two in F1; [|apply H2; exact Hd'].
    destruct F1 as (j0 & a0 & Hp & E). injection E as <- -> <-.
    destruct (Hu d d' j j' a Hd Hd' Hi Hp) as [-> ->]. reflexivity.
  - exfalso. specialize (F _ Hin). cbn [fst] in F. rewrite N.eqb_refl in F. discriminate.
Qed.

(** ** A quick check that instances do not clash *)
Definition seg := (string * N * N * N * N)%type. (* name, first, base, multiplier, limit *)
Fixpoint segs_of (name : string) (first : N) (ranges : list (N * N * N)) : list seg :=
  match ranges with
  | [] => []
  | (b, m, lim) :: rs => (name, first, b, m, lim) :: segs_of name (lim + 1) rs
  end.
Definition segs (spec : list reg) : list seg := flat_map (fun d => segs_of (r_name d) 0 (r_addr d)) spec.
Definition in_seg (g : seg) (j a : N) : Prop :=
  match g with (_, first, b, m, lim) => first <= j <= lim /\ a = b + (j - first) * m end.
Definition apart (g h : seg) : bool :=
  match g, h with (_, f1, b1, m1, l1), (_, f2, b2, m2, l2) =>
    (b1 + (l1 - f1) * m1 <? b2) || (b2 + (l2 - f2) * m2 <? b1) ||
    ((m1 =? m2) && (0 <? m1) && negb (b1 mod m1 =? b2 mod m1))
  end.
Definition self_ok (g : seg) : bool := match g with (_, f, _, m, l) => (0 <? m) || (f =? l) end.
Fixpoint all_apart (l : list seg) : bool :=
  match l with [] => true | g :: l => forallb (apart g) l && all_apart l end.
Definition check_layout (spec : list reg) : bool :=
  all_apart (segs spec) && forallb self_ok (segs spec) && forallb (fun d => (List.length (r_addr d) <=? 2)%nat) spec.

Lemma placed_seg : forall name rs first j a, placed first rs j a <-> exists g, In g (segs_of name first rs) /\ in_seg g j a.
Proof.
  induction rs as [|[[b m] lim] rs IH]; intros first j a; cbn [placed segs_of].
  - split; [intros []|intros (g & [] & _)].
  - rewrite IH. split.
    + intros [H|(g & Hg & H)]; [eexists; split; [left; reflexivity|exact H]|exists g; split; [right; exact Hg|exact H]].
    + intros (g & [<-|Hg] & H); [left; exact H|right; exists g; auto].
Qed.
Lemma seg_name : forall name rs first g, In g (segs_of name first rs) -> fst (fst (fst (fst g))) = name.
Proof.
  induction rs as [|[[b m] lim] rs IH]; intros first g H; cbn [segs_of] in H; [destruct H|].
  destruct H as [<-|H]; [reflexivity|eauto].
Qed.
Lemma apart_sound : forall g h j1 j2 a, apart g h = true -> in_seg g j1 a -> in_seg h j2 a -> False.
Proof.
  intros [[[[n1 f1] b1] m1] l1] [[[[n2 f2] b2] m2] l2] j1 j2 a H (H1 & E1) (H2 & E2). unfold apart in H.
  apply orb_prop in H as [H|H]; [apply orb_prop in H as [H|H]|].
  - apply N.ltb_lt in H. assert ((j1 - f1) * m1 <= (l1 - f1) * m1) as M by (apply N.mul_le_mono_r; lia). revert E1 E2 H M. generalize ((j1 - f1) * m1) ((l1 - f1) * m1) ((j2 - f2) * m2). intros. lia.
  - apply N.ltb_lt in H. assert ((j2 - f2) * m2 <= (l2 - f2) * m2) as M by (apply N.mul_le_mono_r; lia). revert E1 E2 H M. generalize ((j1 - f1) * m1) ((l2 - f2) * m2) ((j2 - f2) * m2). intros. lia.
  - apply andb_prop in H as [H H3]. apply andb_prop in H as [H H4]. apply N.eqb_eq in H. apply N.ltb_lt in H4. subst m2.
    apply negb_true_iff, N.eqb_neq in H3. apply H3.
    rewrite <- (N.mod_add b1 (j1 - f1) m1), <- (N.mod_add b2 (j2 - f2) m1) by lia. congruence.
Qed.
Lemma self_sound : forall g j1 j2 a, self_ok g = true -> in_seg g j1 a -> in_seg g j2 a -> j1 = j2.
Proof.
  intros [[[[n f] b] m] l] j1 j2 a H (H1 & E1) (H2 & E2). unfold self_ok in H. apply orb_prop in H as [H|H].
  - apply N.ltb_lt in H. assert (E : (j1 - f) * m = (j2 - f) * m) by lia. apply N.mul_cancel_r in E; lia.
  - apply N.eqb_eq in H. lia.
Qed.
Lemma all_apart_in : forall l g h, all_apart l = true -> In g l -> In h l -> g = h \/ apart g h = true \/ apart h g = true.
Proof.
  induction l as [|x l IH]; intros g h H Hg Hh; [destruct Hg|]. cbn [all_apart] in H. apply andb_prop in H as [H1 H2].
  rewrite forallb_forall in H1. destruct Hg as [<-|Hg], Hh as [<-|Hh]; auto.
Qed.
Lemma check_layout_sound : forall spec, check_layout spec = true -> no_clash spec /\ two_ranges spec.
Proof.
  intros spec H. unfold check_layout in H. apply andb_prop in H as [H H3]. apply andb_prop in H as [H1 H2].
  rewrite forallb_forall in H2, H3. split.
  - intros d1 d2 j1 j2 a Hd1 Hd2 I1 I2. unfold instance in *.
    apply (placed_seg (r_name d1)) in I1 as (g & Hg & I1). apply (placed_seg (r_name d2)) in I2 as (h & Hh & I2).
    assert (Sg : In g (segs spec)) by (apply in_flat_map; eauto). assert (Sh : In h (segs spec)) by (apply in_flat_map; eauto).
    destruct (all_apart_in _ _ _ H1 Sg Sh) as [<-|[A|A]].
    + split; [rewrite <- (seg_name _ _ _ _ Hg), <- (seg_name _ _ _ _ Hh); reflexivity|]. eapply self_sound; eauto.
    + exfalso. eapply apart_sound; eauto.
    + exfalso. eapply apart_sound; eauto.
  - intros d Hd. apply Nat.leb_le. apply H3. exact Hd.
Qed.

(** get_pci_reg: the first register with that base. *)
Lemma get_pci_spec : forall spec base name, get_pci_reg spec base = Ok name ->
  exists d m l rs, In d spec /\ r_addr d = (base, m, l) :: rs /\ m = 0 /\ r_name d = name.
Proof.
  induction spec as [|d ds IH]; intros base name H; cbn [get_pci_reg] in H; [discriminate|].
  destruct (r_addr d) as [|[[b m] l] rs] eqn:E; [discriminate|]. destruct (N.eqb_spec m 0) as [Hm|Hm]; cbn [negb] in H; [|discriminate].
  destruct (N.eqb_spec b base) as [Hb|Hb].
  - exists d, m, l, rs. split; [left; reflexivity|]. split; [congruence|]. split; [exact Hm|congruence].
  - destruct (IH _ _ H) as (d' & m' & l' & rs' & Hd & Q). exists d', m', l', rs'. split; [right; exact Hd|exact Q].
Qed.
(** ** What the search for other addresses can find *)
Definition spaced (d : reg) : bool :=
  let n := r_len d / 8 in
  match r_addr d with
  | [] => true
  | [(_, m, l)] => ((0 <? m) && (n <=? m)) || ((m =? 0) && (l =? 0))
  | (_, m, l) :: rs => (0 <? m) && (n <=? m) && forallb (fun x => match x with (_, m', l') => (0 <? m') && (n <=? m') && (l <? l') end) rs
  end.
(** The distance to the next instance in any range, or the register's own length. *)
Definition pitch (d : reg) : N := fold_right (fun x acc => N.max (snd (fst x)) acc) (r_len d / 8) (r_addr d).

Lemma scan_near : forall n b m k a, 0 < m -> n <= m -> b <= a ->
  (Z.of_N a < Z.of_N b + Z.of_N k * Z.of_N m + Z.of_N n)%Z ->
  exists q x, (a - b) / m = q /\ x = q * m /\ q <= k /\ b + x <= a /\ a < b + x + m.
Proof.
  intros n b m k a Hm Hn Hb Ha. pose proof (N.div_mod (a - b) m ltac:(lia)) as D. pose proof (N.mod_lt (a - b) m ltac:(lia)) as M.
  rewrite <- N2Z.inj_mul in Ha. revert D M. generalize ((a - b) / m) as q. generalize ((a - b) mod m) as t. intros t q D M.
  exists q, (q * m). split; [reflexivity|]. split; [reflexivity|]. rewrite (N.mul_comm m q) in D. split; [|revert D; generalize (q * m); intros; lia].
  destruct (N.le_gt_cases q k) as [|G]; [assumption|]. exfalso. assert (K : k * m + m <= q * m) by nia. clear Hm. revert Ha D K. generalize (k * m) (q * m). intros. lia.
Qed.
Lemma scan_ranges_near : forall d a j, spaced d = true -> (List.length (r_addr d) <= 2)%nat ->
  scan_ranges (r_len d / 8) a 0 (r_addr d) = Some j ->
  exists b, instance d j b /\ b <= a < b + pitch d.
Proof.
  intros d a j S2 L H. unfold instance, pitch, spaced in *. set (n := r_len d / 8) in *.
  destruct (r_addr d) as [|[[b m] lim] [|[[b' m'] lim'] [|x rs]]]; cbn [List.length] in L; [| | |lia].
  - discriminate.
  - cbn [scan_ranges] in H. destruct (N.leb_spec b a) as [A|A]; cbn [andb] in H; [|discriminate].
    destruct (Z.ltb_spec (Z.of_N a) (Z.of_N b + (Z.of_N lim - Z.of_N 0) * Z.of_N m + Z.of_N n)) as [B|B]; [|discriminate].
    rewrite Z.sub_0_r in B. cbn [placed fold_right fst snd]. injection H as <-.
    apply orb_prop in S2 as [S2|S2]; apply andb_prop in S2 as [X Y].
    + apply N.ltb_lt in X. apply N.leb_le in Y. destruct (N.eqb_spec m 0) as [|_]; [lia|].
      destruct (scan_near n b m lim a X Y A B) as (q & x & -> & Ex & C1 & C2 & C3). rewrite N.add_0_r.
      exists (b + x). split; [left; split; [lia|rewrite N.sub_0_r, Ex; reflexivity]|lia].
    + apply N.eqb_eq in X, Y. subst m lim. cbn [N.eqb]. exists b. split; [left; split; [lia|cbn; lia]|]. change (Z.of_N 0) with 0%Z in B. lia.
  - cbn [forallb] in S2. repeat (apply andb_prop in S2 as [S2 ?]). rewrite andb_true_r in *.
    repeat match goal with X : (_ && _)%bool = true |- _ => apply andb_prop in X as [? ?] end.
    repeat match goal with X : (_ <? _) = true |- _ => apply N.ltb_lt in X | X : (_ <=? _) = true |- _ => apply N.leb_le in X end.
    cbn [scan_ranges] in H. cbn [placed fold_right fst snd].
    destruct ((b <=? a) && (Z.of_N a <? Z.of_N b + (Z.of_N lim - Z.of_N 0) * Z.of_N m + Z.of_N n)%Z) eqn:E1.
    + apply andb_prop in E1 as [A B]. apply N.leb_le in A. apply Z.ltb_lt in B. rewrite Z.sub_0_r in B. injection H as <-.
      destruct (N.eqb_spec m 0) as [|_]; [lia|]. destruct (scan_near n b m lim a) as (q & x & -> & Ex & C1 & C2 & C3); [assumption..|]. rewrite N.add_0_r.
      exists (b + x). split; [left; split; [lia|rewrite N.sub_0_r, Ex; reflexivity]|lia].
    + destruct ((b' <=? a) && (Z.of_N a <? Z.of_N b' + (Z.of_N lim' - Z.of_N (0 + lim + 1)) * Z.of_N m' + Z.of_N n)%Z) eqn:E2; [|discriminate].
      apply andb_prop in E2 as [A B]. apply N.leb_le in A. apply Z.ltb_lt in B. injection H as <-.
      destruct (N.eqb_spec m' 0) as [|_]; [lia|]. replace (Z.of_N lim' - Z.of_N (0 + lim + 1))%Z with (Z.of_N (lim' - (lim + 1))) in B by lia.
      destruct (scan_near n b' m' (lim' - (lim + 1)) a) as (q & x & -> & Ex & C1 & C2 & C3); [assumption..|].
      exists (b' + x). split; [right; left; split; [lia|rewrite Ex; f_equal; f_equal; lia]|lia].
Qed.
Lemma scan_in : forall spec a name j, scan spec a = Some (name, j) ->
  exists d, In d spec /\ r_name d = name /\ scan_ranges (r_len d / 8) a 0 (r_addr d) = Some j.
Proof.
  induction spec as [|d ds IH]; intros a name j H; cbn [scan] in H; [discriminate|].
  destruct (scan_ranges _ a 0 (r_addr d)) eqn:E.
  - injection H as <- <-. exists d. split; [left; reflexivity|]. auto.
  - destruct (IH _ _ _ H) as (d' & Hd & Q). exists d'. split; [right; exact Hd|exact Q].
Qed.
Lemma pitch_pos : forall d, 0 < r_len d / 8 -> 0 < pitch d.
Proof. intros d H. unfold pitch. induction (r_addr d) as [|x l IH]; cbn [fold_right]; lia. Qed.
(** Whatever is found starts at or before the address, and the next instance after it. *)
Theorem lookup_near : forall spec a name j, two_ranges spec -> Forall (fun d => spaced d = true /\ 0 < r_len d / 8) spec ->
  find_reg_from_addr spec a = Ok (name, j) ->
  exists d b, In d spec /\ r_name d = name /\ instance d j b /\ b <= a < b + pitch d.
Proof.
  intros spec a name j H2 HS H. rewrite Forall_forall in HS. unfold find_reg_from_addr in H.
  pose proof (find_spec' _ (fun e => fst e =? a) (cache spec)) as F. destruct (find _ _) as [[a' [n' j']]|].
  - cbn [snd] in H. injection H as -> ->. destruct F as [F1 F2]. cbn [fst] in F2. apply N.eqb_eq in F2. subst a'.
    apply cache_in in F1 as (d & Hd & F1). apply cache_ranges_two in F1; [|apply H2; exact Hd].
    destruct F1 as (j0 & a0 & Hp & E). injection E as <- -> <-. exists d, a. split; [exact Hd|]. split; [reflexivity|]. split; [exact Hp|].
    pose proof (pitch_pos d (proj2 (HS d Hd))). lia.
  - destruct (scan spec a) as [[n0 j0]|] eqn:E; [|discriminate]. injection H as -> ->.
    destruct (scan_in _ _ _ _ E) as (d & Hd & En & Sc). destruct (scan_ranges_near d a j (proj1 (HS d Hd)) (H2 d Hd) Sc) as (b & Ib & Lb). exists d, b. auto.
Qed.
