(** Property theorems C119 to C129: the register helpers, the start-up and the queues of the
    TinyNF driver. *)

From Coq Require Import NArith List Bool Lia Arith String.
From Verif Require Import Expr Solver Regs RegTable RegFacts RegLookup RegActions Ixgbe IxgbeFacts IxgbeSpec IxgbeInit IxgbeRun.
From Verif Require Props_Device.
Import ListNotations.
Open Scope N_scope.

(** Inversion of executions. *)
Lemma runs_ret : forall A (a : A) tr o, runs (Ret a) tr o -> tr = [] /\ o = Some a.
Proof. intros A a tr o H. inversion H. auto. Qed.
Lemma runs_fatal : forall A tr (o : option A), runs Fatal tr o -> tr = [] /\ o = None.
Proof. intros A tr o H. inversion H. auto. Qed.
Lemma runs_read : forall A l (k : N -> prog A) tr o, runs (Read l k) tr o -> exists v tr', v < 2 ^ 32 /\ tr = ERead l v :: tr' /\ runs (k v) tr' o.
Proof. intros A l k tr o H. inversion H. eauto. Qed.
Lemma runs_write : forall A l v (k : prog A) tr o, runs (Write l v k) tr o -> exists tr', tr = EWrite l v :: tr' /\ runs k tr' o.
Proof. intros A l v k tr o H. inversion H. eauto. Qed.
Lemma runs_sleep : forall A ns (k : prog A) tr o, runs (Sleep ns k) tr o -> exists tr', tr = ESleep ns :: tr' /\ runs k tr' o.
Proof. intros A ns k tr o H. inversion H. eauto. Qed.
Lemma runs_map : forall A d p s (k : prog A) tr o, runs (Map d p s k) tr o -> exists tr', tr = EMap d p s :: tr' /\ runs k tr' o.
Proof. intros A d p s k tr o H. inversion H. eauto. Qed.
Lemma runs_phys : forall A x (k : N -> prog A) tr o, runs (Phys x k) tr o -> exists v tr', v < 2 ^ 64 /\ tr = EPhys x v :: tr' /\ runs (k v) tr' o.
Proof. intros A x k tr o H. inversion H. eauto. Qed.
Lemma runs_bind : forall A B (p : prog A) (f : A -> prog B) tr o, runs (bind p f) tr o ->
  (runs p tr None /\ o = None) \/ exists a tr1 tr2, runs p tr1 (Some a) /\ runs (f a) tr2 o /\ tr = (tr1 ++ tr2)%list.
Proof.
  induction p as [a| |l k IH|l v k IH|ns k IH|d ph s k IH|x k IH]; intros f tr o H; cbn [bind] in H.
  - right. exists a, [], tr. split; [constructor|]. auto.
  - apply runs_fatal in H as [-> ->]. left. split; [constructor|reflexivity].
  - apply runs_read in H as (v & tr' & Hv & -> & H). apply IH in H as [[H ->]|(a & t1 & t2 & H1 & H2 & ->)].
    + left. split; [constructor; assumption|reflexivity].
    + right. exists a, (ERead l v :: t1), t2. split; [constructor; assumption|auto].
  - apply runs_write in H as (tr' & -> & H). apply IH in H as [[H ->]|(a & t1 & t2 & H1 & H2 & ->)].
    + left. split; [constructor; assumption|reflexivity].
    + right. exists a, (EWrite l v :: t1), t2. split; [constructor; assumption|auto].
  - apply runs_sleep in H as (tr' & -> & H). apply IH in H as [[H ->]|(a & t1 & t2 & H1 & H2 & ->)].
    + left. split; [constructor; assumption|reflexivity].
    + right. exists a, (ESleep ns :: t1), t2. split; [constructor; assumption|auto].
  - apply runs_map in H as (tr' & -> & H). apply IH in H as [[H ->]|(a & t1 & t2 & H1 & H2 & ->)].
    + left. split; [constructor; assumption|reflexivity].
    + right. exists a, (EMap d ph s :: t1), t2. split; [constructor; assumption|auto].
  - apply runs_phys in H as (v & tr' & Hv & -> & H). apply IH in H as [[H ->]|(a & t1 & t2 & H1 & H2 & ->)].
    + left. split; [constructor; assumption|reflexivity].
    + right. exists a, (EPhys x v :: t1), t2. split; [constructor; assumption|auto].
Qed.

(** ** C119: the register helpers *)

(** Writing a value that fits in a field reads the register once and writes it once, with
    the value in the field and every other bit as read. *)
Theorem C119_write_field_partial : forall dev reg s e v tr out, s <= e <= 31 -> v < 2 ^ (e + 1 - s) ->
  runs (reg_write_field dev reg (BITS s e) v) tr out ->
  out = Some tt /\ exists old new, old < 2 ^ 32 /\ new < 2 ^ 32 /\ tr = [ERead (Mmio dev reg) old; EWrite (Mmio dev reg) new] /\
  bits new s e = v /\ forall b, b < s \/ e < b -> N.testbit new b = N.testbit old b.
Proof.
  intros dev reg s e v tr out Hs Hv H. unfold reg_write_field, reg_read, reg_write in H. cbn [bind] in H.
  apply runs_read in H as (old & t1 & Ho & -> & H). apply runs_write in H as (t2 & -> & H). apply runs_ret in H as [-> ->].
  split; [reflexivity|]. exists old, (field_write old (BITS s e) v). split; [exact Ho|]. split; [apply field_write_lt; assumption|].
  split; [reflexivity|]. split; [apply bits_write_same; assumption|]. intros b Hb. rewrite testbit_field_write by assumption.
  destruct (N.leb_spec s b), (N.leb_spec b e); cbn [andb]; try reflexivity; lia.
Qed.
Print Assumptions C119_write_field_partial.
Theorem C119_set_and_clear : forall dev reg n (up : bool) tr out, n <= 31 ->
  runs (if up then reg_set_field dev reg (BIT n) else reg_clear_field dev reg (BIT n)) tr out ->
  out = Some tt /\ exists old new, old < 2 ^ 32 /\ new < 2 ^ 32 /\ tr = [ERead (Mmio dev reg) old; EWrite (Mmio dev reg) new] /\
  N.testbit new n = up /\ forall b, b <> n -> N.testbit new b = N.testbit old b.
Proof.
  intros dev reg n up tr out Hn H. destruct up.
  - unfold reg_set_field, reg_read, reg_write in H. cbn [bind] in H.
    apply runs_read in H as (old & t1 & Ho & -> & H). apply runs_write in H as (t2 & -> & H). apply runs_ret in H as [-> ->].
    split; [reflexivity|]. rewrite set_is_write by assumption. exists old, (field_write old (BITS n n) 1).
    split; [exact Ho|]. split; [apply field_write_lt; (assumption || lia)|]. split; [reflexivity|].
    assert (F : 1 < 2 ^ (n + 1 - n)) by (replace (n + 1 - n) with 1 by lia; reflexivity).
    split; [|intros b Hb]; rewrite testbit_field_write by (assumption || lia).
    + rewrite N.leb_refl. cbn [andb]. rewrite N.sub_diag. reflexivity.
    + destruct (N.leb_spec n b), (N.leb_spec b n); cbn [andb]; try reflexivity. lia.
  - unfold reg_clear_field in H. rewrite BIT_BITS in H by exact Hn.
    assert (F : 0 < 2 ^ (n + 1 - n)) by (replace (n + 1 - n) with 1 by lia; reflexivity).
    apply C119_write_field_partial in H as (-> & old & new & Ho & Hw & -> & B & K); [|lia|exact F]. split; [reflexivity|].
    exists old, new. split; [exact Ho|]. split; [exact Hw|]. split; [reflexivity|]. split.
    + rewrite bits_one in B. destruct (N.testbit new n); [discriminate|reflexivity].
    + intros b Hb. apply K. lia.
Qed.
Print Assumptions C119_set_and_clear.
(** Reading a field: the register is read once, and its bits from the first to the last of
    the field are the result. *)
Theorem C119_read_field : forall dev reg s e tr out, s <= e <= 31 -> runs (reg_read_field dev reg (BITS s e)) tr out ->
  exists v, v < 2 ^ 32 /\ tr = [ERead (Mmio dev reg) v] /\ out = Some ((v / 2 ^ s) mod 2 ^ (e + 1 - s)).
Proof.
  intros dev reg s e tr out Hs H. unfold reg_read_field, reg_read in H. cbn [bind] in H.
  apply runs_read in H as (v & t1 & Hv & -> & H). apply runs_ret in H as [-> ->]. exists v. rewrite field_read_bits by exact Hs. auto.
Qed.
Print Assumptions C119_read_field.
(** The masks, and the first set bit of a mask: the loop ends for all values of 32 bits. *)
Theorem C119_masks : (forall s e b, s <= e <= 31 -> N.testbit (BITS s e) b = ((s <=? b) && (b <=? e))) /\
  (forall n b, n <= 31 -> N.testbit (BIT n) b = (b =? n)) /\
  (forall v, v <> 0 -> v < 2 ^ 32 -> N.testbit v (find_first_set v) = true /\ forall b, b < find_first_set v -> N.testbit v b = false).
Proof.
  split; [exact testbit_BITS|]. split; [|exact ffs_spec]. intros n b H. rewrite BIT_BITS, testbit_BITS by lia.
  destruct (N.leb_spec n b), (N.leb_spec b n), (N.eqb_spec b n); try reflexivity; lia.
Qed.
Print Assumptions C119_masks.
(** A value that does not fit in the field changes the bits above it. *)
Theorem C119_wide_value_refuted : exists s e v old, s <= e <= 31 /\ v < 2 ^ 32 /\ old < 2 ^ 32 /\ exists tr,
  runs (reg_write_field 0 0x3D00 (BITS s e) v) (ERead (Mmio 0 0x3D00) old :: EWrite (Mmio 0 0x3D00) (N.lor old 32) :: tr) (Some tt) /\
  e < 5 /\ N.testbit old 5 = false.
Proof.
  exists 3, 4, 4, 0. split; [lia|]. split; [reflexivity|]. split; [reflexivity|]. exists [].
  split; [|split; [lia|reflexivity]]. apply RunRead; [reflexivity|]. apply RunWrite. apply RunRet.
Qed.
Print Assumptions C119_wide_value_refuted.
Example C119_ex : runs (reg_write_field 0 0x3260 (BITS 5 18) 100) [ERead (Mmio 0 0x3260) 0xFFFFFFFF; EWrite (Mmio 0 0x3260) 0xFFF80C9F] (Some tt).
Proof. apply RunRead; [reflexivity|]. apply RunWrite. apply RunRet. Qed.

(** ** C120, C121, C124: every access the driver makes *)

(** The driver's accesses are checked from any view of the registers, whatever the cards
    answer. *)
Definition writes_allowed (vw : view) (tr : list event) : Prop :=
  along (fun w e => match e with EWrite l v => allowed w l v | _ => True end) vw tr.
Definition accesses_reachable (vw : view) (tr : list event) : Prop :=
  along (fun w e => match e with EWrite l _ | ERead l _ => reachable l | _ => True end) vw tr.
Definition in_order (vw : view) (tr : list event) : Prop :=
  along (fun w e => match e with EWrite l v => reset_order w l v /\ arbiter_order w l | _ => True end) vw tr.
Lemma all_ok : forall A (p : prog A) vw tr o, safe any0 ok1 p vw (fun _ _ => True) -> runs p tr o ->
  writes_allowed vw tr /\ accesses_reachable vw tr /\ in_order vw tr.
Proof.
  intros A p vw tr o S R. destruct (safe_sound any0 ok1 A p tr o R vw _ S) as [H _]; [intros ? ? ? ?; exact I|].
  split; [|split]; (eapply along_impl; [|exact H]); intros w [l v|l v|ns|d ph s|x v] K; cbn [ok1] in K; try exact I; try tauto.
Qed.

(** Start-up, promiscuous mode, and agents on any number of cards. *)
Definition driver_run (tr : list event) : Prop :=
  (exists dev out, runs (device_init dev) tr out) \/ (exists dev out, runs (set_promiscuous dev) tr out) \/
  (exists input ds tail out, runs (agent_init input ds tail) tr out) \/ (exists dev out, runs (get_mac dev) tr out).
Lemma driver_ok : forall vw tr, driver_run tr -> writes_allowed vw tr /\ accesses_reachable vw tr /\ in_order vw tr.
Proof.
  intros vw tr [(dev & out & R)|[(dev & out & R)|[(input & ds & tail & out & R)|(dev & out & R)]]]; (eapply all_ok; [|exact R]).
  - apply device_stage.
  - apply promiscuous_stage.
  - apply agent_stage.
  - unfold get_mac, reg_read. cbn [bind safe]. intros v Hv _. split; [cbn [ok1]; reach|]. intros v' Hv' _. split; [cbn [ok1]; reach|exact I].
Qed.
Theorem C120_writes_allowed : forall vw tr, driver_run tr -> writes_allowed vw tr.
Proof. intros vw tr H. apply driver_ok. exact H. Qed.
Print Assumptions C120_writes_allowed.
Theorem C121_accesses_reachable : forall vw tr, driver_run tr -> accesses_reachable vw tr.
Proof. intros vw tr H. apply driver_ok. exact H. Qed.
Print Assumptions C121_accesses_reachable.
Theorem C124_order : forall vw tr, driver_run tr -> in_order vw tr.
Proof. intros vw tr H. apply driver_ok. exact H. Qed.
Print Assumptions C124_order.

(** An execution with a card that answers according to what happened before; physical
    addresses are 4096. *)
Fixpoint exec {A} (answer : list event -> loc -> N) (past : list event) (p : prog A) : list event * option A :=
  match p with
  | Ret a => ([], Some a)
  | Fatal => ([], None)
  | Read l k => let v := u32 (answer past l) in let r := exec answer (ERead l v :: past) (k v) in (ERead l v :: fst r, snd r)
  | Write l v k => let r := exec answer (EWrite l v :: past) k in (EWrite l v :: fst r, snd r)
  | Sleep ns k => let r := exec answer (ESleep ns :: past) k in (ESleep ns :: fst r, snd r)
  | Map d ph s k => let r := exec answer (EMap d ph s :: past) k in (EMap d ph s :: fst r, snd r)
  | Phys x k => let r := exec answer (EPhys x 4096 :: past) (k 4096) in (EPhys x 4096 :: fst r, snd r)
  end.
Lemma exec_runs : forall A answer (p : prog A) past, runs p (fst (exec answer past p)) (snd (exec answer past p)).
Proof.
  intros A answer. induction p as [a| |l k IH|l v k IH|ns k IH|d ph s k IH|x k IH]; intros past; cbn [exec fst snd]; try (constructor; auto; fail).
  - apply RunRead; [apply u32_lt|apply IH].
  - apply RunPhys; [reflexivity|apply IH].
Qed.
(** A card that has finished its own start-up: every other register reads as zero. *)
Definition ready_card (_ : list event) (l : loc) : N :=
  match l with
  | Pci _ 0 => 0x10FB8086 | Pci _ 0x10 => 0xF0000004
  | Mmio _ 0x10010 => 0x300 | Mmio _ 0x2F00 => 8
  | _ => 0
  end.
(** The same, when the master disable does not take. *)
Definition busy_card (past : list event) (l : loc) : N := match l with Mmio _ 8 => N.shiftl 1 19 | _ => ready_card past l end.
(** A card whose registers hold what was last written. *)
Fixpoint last_written (past : list event) (l : loc) : N :=
  match past with
  | [] => match l with Mmio _ 0x8D04 => 1 | _ => 0 end
  | EWrite l' v :: past => if loc_eqb l' l then v else last_written past l
  | _ :: past => last_written past l
  end.
Definition wrote_to (l : loc) (tr : list event) : list N := flat_map (fun e => match e with EWrite l' v => if loc_eqb l l' then [v] else [] | _ => [] end) tr.
Example C120_ex_start : driver_run (fst (exec ready_card [] (device_init 0))) /\ snd (exec ready_card [] (device_init 0)) = Some tt /\
  wrote_to (Mmio 0 0) (fst (exec ready_card [] (device_init 0))) = [4; 2 ^ 26] /\
  wrote_to (Mmio 0 0xCC1C) (fst (exec ready_card [] (device_init 0))) = [0].
Proof.
  split; [left; exists 0; eexists; apply exec_runs|]. split; [vm_compute; reflexivity|]. split; vm_compute; reflexivity.
Qed.
Example C120_ex_busy : driver_run (fst (exec busy_card [] (device_init 0))) /\ snd (exec busy_card [] (device_init 0)) = Some tt /\
  wrote_to (Mmio 0 0x4240) (fst (exec busy_card [] (device_init 0))) = [2 ^ 15; 0].
Proof. split; [left; exists 0; eexists; apply exec_runs|]. split; vm_compute; reflexivity. Qed.
Definition fresh := mkDevice false false.
Example C120_ex_agent : driver_run (fst (exec last_written [] (agent_init 1 [fresh; fresh; fresh] None))) /\
  match snd (exec last_written [] (agent_init 1 [fresh; fresh; fresh] None)) with
  | Some (ag, ds) => receive_tail ag = Some (Mmio 1 0x1018) /\ transmit_tails ag = [Some (Mmio 0 0x6098); Some (Mmio 2 0x60D8)] /\
                     ds = [mkDevice false true; mkDevice true false; mkDevice false true]
  | None => False
  end.
Proof.
  split; [right; right; left; exists 1%nat, [fresh; fresh; fresh], None; eexists; apply exec_runs|]. vm_compute. repeat split.
Qed.
(** What is checked is not always true: enabling a receive queue without having read its
    register, and a reset before the queues are disabled, are errors. *)
Example C120_ex_not : ~ writes_allowed (fun _ => None) [EWrite (Mmio 0 0x1028) (2 ^ 25)] /\
  ~ in_order (fun _ => None) [ERead (Mmio 0 0) 0; EWrite (Mmio 0 0) (2 ^ 26)].
Proof.
  split.
  - intros H. specialize (H [] _ [] eq_refl). cbn [allowed view_after fold_left] in H. destruct H as (d & i & Hd & Hi & W).
    destruct (find_reg registers "RXDCTL") as [d'|] eqn:E; [|discriminate]. destruct (find_reg_in _ _ _ E) as [Hd' Hn].
    assert (d = d') as ->.
    { apply Props_Device.names_unique1; try assumption. destruct (check_layout_sound registers) as [C _]; [vm_compute; reflexivity|].
      apply (C d d' i 0 0x1028); try assumption. injection E as <-. inst. }
    clear Hd Hi Hd' Hn. injection E as <-. destruct W as (_ & W & _).
    destruct (W (mkF "VME" 30 30 (Some 0) RW)) as [C|[(o & C & _)|(_ & a & Ha & J & _)]]; [right; left; reflexivity|discriminate|discriminate|].
    assert (X : forallb (fun a => negb (match a_act a with AWrite rg fl _ | ASet rg fl | AClear rg fl => String.eqb fl "VME" end)) actions = true)
      by (vm_compute; reflexivity).
    rewrite forallb_forall in X. specialize (X a Ha). unfold justifies in J. destruct (a_act a); destruct J as (_ & -> & _); discriminate X.
  - intros H. destruct (H [ERead (Mmio 0 0) 0] _ [] eq_refl) as [R _].
    destruct (R 0 0 eq_refl) with (q := 0) as (a & o & Ha & Hv & _); [eexists; split; [reflexivity|inst]|reflexivity|reflexivity|].
    eapply at_reg_inv in Ha; [|reflexivity]. unfold instance in Ha. cbn [r_addr placed] in Ha.
    cbn [view_after fold_left see] in Hv. rewrite upd_other in Hv; [discriminate|]. apply neq_reg. lia.
Qed.

(** ** C122: waiting with a timeout *)

(** [at_ i] is the time of the [i]-th test. *)
Theorem C122_timeout_partial : forall card t us l c b t',
  timed card t (if_after_timeout us (Read l (fun v => Ret (c v)))) = (Some b, t') ->
  let at_ i := t + (us mod 10 + N.of_nat i * (us / 10)) * 1000 in
  (b = true <-> forall i, (i < 10)%nat -> c (card (at_ i) l) = true) /\
  (b = true -> t' = t + us * 1000) /\
  (b = false -> exists i, (i < 10)%nat /\ t' = at_ i /\ c (card t' l) = false /\ t' <= t + us * 1000).
Proof.
  intros card t us l c b t' H at_.
  assert (G : forall n k, (k + n = 10)%nat -> (forall i, (i < k)%nat -> c (card (at_ i) l) = true) ->
    timed card (at_ k) (poll n us (Read l (fun v => Ret (c v)))) = (Some b, t') ->
    (b = true /\ t' = at_ 10%nat /\ forall i, (i < 10)%nat -> c (card (at_ i) l) = true) \/
    (b = false /\ exists i, (i < 10)%nat /\ t' = at_ i /\ c (card t' l) = false)).
  { induction n as [|n IH]; intros k Hk Hb E; cbn [poll timed bind] in E.
    - left. replace k with 10%nat in * by lia. injection E as <- <-. auto.
    - destruct (c (card (at_ k) l)) eqn:C; cbn [negb timed] in E.
      + apply (IH (S k)); [lia| |].
        * intros i Hi. destruct (Nat.eq_dec i k) as [->|]; [exact C|apply Hb; lia].
        * replace (at_ (S k)) with (at_ k + us / 10 * 1000); [exact E|]. unfold at_. lia.
      + right. injection E as <- <-. split; [reflexivity|]. exists k. split; [lia|]. auto. }
  assert (E10 : at_ 10%nat = t + us * 1000).
  { unfold at_. change (N.of_nat 10) with 10. rewrite (N.div_mod us 10) at 3 by discriminate. lia. }
  unfold if_after_timeout in H. cbn [timed] in H.
  replace (t + us mod 10 * 1000) with (at_ 0%nat) in H by (unfold at_; lia).
  destruct (G 10%nat 0%nat eq_refl) as [(-> & -> & A)|(-> & i & Hi & -> & A)]; [intros i Hi; lia|exact H| |].
  - split; [split; auto|]. split; [intros _; exact E10|discriminate].
  - split; [split; [discriminate|intros B; rewrite B in A by exact Hi; discriminate]|]. split; [discriminate|].
    intros _. exists i. split; [exact Hi|]. split; [reflexivity|]. split; [exact A|]. rewrite <- E10. unfold at_.
    assert (N.of_nat i <= N.of_nat 10) by lia. apply N.add_le_mono_l, N.mul_le_mono_r, N.add_le_mono_l, N.mul_le_mono_r. exact H0.
Qed.
Print Assumptions C122_timeout_partial.
(** The condition can be false when the body is executed: the last tenth is not tested. *)
Theorem C122_still_true_refuted : exists card l c t', timed card 0 (if_after_timeout 1000000 (Read l (fun v => Ret (c v)))) = (Some true, t') /\
  c (card t' l) = false /\ t' = 1000 * 1000 * 1000 /\ forall t, 910 * 1000 * 1000 <= t -> c (card t l) = false.
Proof.
  exists (fun t _ => if t <? 910000000 then 1 else 0), (Mmio 0 8), (fun v => v =? 1), 1000000000.
  split; [vm_compute; reflexivity|]. split; [reflexivity|]. split; [reflexivity|]. intros t Ht.
  destruct (N.ltb_spec t 910000000); [lia|reflexivity].
Qed.
Print Assumptions C122_still_true_refuted.
Example C122_ex : timed (fun t _ => if t <? 350000000 then 0 else 1) 5 (if_after_timeout 1000007 (Read (Mmio 0 8) (fun v => Ret (v =? 0)))) = (Some false, 400007005).
Proof. vm_compute. reflexivity. Qed.

(** ** C123: start-up ends *)
Definition slept (tr : list event) : N := fold_right (fun e acc => match e with ESleep ns => ns + acc | _ => acc end) 0 tr.
Lemma slept_app : forall t1 t2, slept (t1 ++ t2)%list = slept t1 + slept t2.
Proof. induction t1 as [|e t1 IH]; intros t2; [reflexivity|]. cbn [slept fold_right app] in *. fold (slept (t1 ++ t2)%list). fold (slept t1). rewrite IH. destruct e; lia. Qed.
Definition bounded {A} (p : prog A) (n s : N) : Prop := forall tr o, runs p tr o -> N.of_nat (List.length tr) <= n /\ slept tr <= s.
Lemma b_ret : forall A (a : A), bounded (Ret a) 0 0.
Proof. intros A a tr o H. apply runs_ret in H as [-> _]. cbn. lia. Qed.
Lemma b_fatal : forall A, bounded (@Fatal A) 0 0.
Proof. intros A tr o H. apply runs_fatal in H as [-> _]. cbn. lia. Qed.
Lemma b_read : forall A l (k : N -> prog A) n s, (forall v, bounded (k v) n s) -> bounded (Read l k) (n + 1) s.
Proof. intros A l k n s B tr o H. apply runs_read in H as (v & tr' & _ & -> & H). apply B in H. cbn [List.length slept fold_right]. fold (slept tr'). lia. Qed.
Lemma b_write : forall A l v (k : prog A) n s, bounded k n s -> bounded (Write l v k) (n + 1) s.
Proof. intros A l v k n s B tr o H. apply runs_write in H as (tr' & -> & H). apply B in H. cbn [List.length slept fold_right]. fold (slept tr'). lia. Qed.
Lemma b_sleep : forall A ns (k : prog A) n s, bounded k n s -> bounded (Sleep ns k) (n + 1) (s + ns).
Proof. intros A ns k n s B tr o H. apply runs_sleep in H as (tr' & -> & H). apply B in H. cbn [List.length slept fold_right]. fold (slept tr'). lia. Qed.
Lemma b_map : forall A d ph sz (k : prog A) n s, bounded k n s -> bounded (Map d ph sz k) (n + 1) s.
Proof. intros A d ph sz k n s B tr o H. apply runs_map in H as (tr' & -> & H). apply B in H. cbn [List.length slept fold_right]. fold (slept tr'). lia. Qed.
Lemma b_phys : forall A x (k : N -> prog A) n s, (forall v, bounded (k v) n s) -> bounded (Phys x k) (n + 1) s.
Proof. intros A x k n s B tr o H. apply runs_phys in H as (v & tr' & _ & -> & H). apply B in H. cbn [List.length slept fold_right]. fold (slept tr'). lia. Qed.
Lemma b_bind : forall A B (p : prog A) (f : A -> prog B) n s n' s', bounded p n s -> (forall a, bounded (f a) n' s') -> bounded (bind p f) (n + n') (s + s').
Proof.
  intros A B p f n s n' s' H1 H2 tr o H. apply runs_bind in H as [[H _]|(a & t1 & t2 & R1 & R2 & ->)].
  - apply H1 in H. lia.
  - apply H1 in R1. apply H2 in R2. rewrite app_length, slept_app. lia.
Qed.
Lemma b_weak : forall A (p : prog A) n s n' s', bounded p n s -> n <= n' -> s <= s' -> bounded p n' s'.
Proof. intros A p n s n' s' B H1 H2 tr o H. apply B in H. lia. Qed.
Lemma b_when : forall b p n s, bounded p n s -> bounded (when b p) n s.
Proof. intros [|] p n s B; cbn [when]; [exact B|]. eapply b_weak; [apply b_ret|lia|lia]. Qed.
Lemma b_for : forall count lo body n s, (forall i, bounded (body i) n s) -> bounded (for_ lo count body) (N.of_nat count * n) (N.of_nat count * s).
Proof.
  induction count as [|c IH]; intros lo body n s B; cbn [for_]; [apply b_ret|].
  replace (N.of_nat (S c) * n) with (n + N.of_nat c * n) by lia. replace (N.of_nat (S c) * s) with (s + N.of_nat c * s) by lia.
  apply b_bind; [apply B|]. intros _. apply IH. exact B.
Qed.
Lemma b_write_field : forall dev reg f v, bounded (reg_write_field dev reg f v) 2 0.
Proof. intros. unfold reg_write_field, reg_read, reg_write. cbn [bind]. apply (b_read _ _ _ 1). intros o. apply (b_write _ _ _ _ 0), b_ret. Qed.
Lemma b_set : forall dev reg f, bounded (reg_set_field dev reg f) 2 0.
Proof. intros. unfold reg_set_field, reg_read, reg_write. cbn [bind]. apply (b_read _ _ _ 1). intros o. apply (b_write _ _ _ _ 0), b_ret. Qed.
Lemma b_reg_write : forall dev reg v, bounded (reg_write dev reg v) 1 0.
Proof. intros. apply (b_write _ _ _ _ 0), b_ret. Qed.
Lemma b_cleared : forall dev reg f, bounded (reg_is_field_cleared dev reg f) 1 0.
Proof. intros. unfold reg_is_field_cleared, reg_read_field, reg_read. cbn [bind]. apply (b_read _ _ _ 0). intros. apply b_ret. Qed.
Lemma b_not : forall dev reg f, bounded (not_ (reg_is_field_cleared dev reg f)) 1 0.
Proof. intros. unfold not_, reg_is_field_cleared, reg_read_field, reg_read. cbn [bind]. apply (b_read _ _ _ 0). intros. apply b_ret. Qed.
Lemma b_poll : forall n us c, bounded c 1 0 -> bounded (poll n us c) (2 * N.of_nat n) (N.of_nat n * (us / 10 * 1000)).
Proof.
  induction n as [|n IH]; intros us c B; cbn [poll]; [apply b_ret|].
  eapply b_weak; [apply (b_bind _ _ _ _ 1 0 (2 * N.of_nat n + 1) (N.of_nat n * (us / 10 * 1000) + us / 10 * 1000)); [exact B|]|lia|lia].
  intros [|]; cbn [negb]; [apply b_sleep; apply IH; exact B|]. eapply b_weak; [apply b_ret|apply N.le_0_l|apply N.le_0_l].
Qed.
Lemma b_wait : forall c, bounded c 1 0 -> bounded (if_after_timeout (1000 * 1000) c) 21 (1000 * 1000 * 1000).
Proof.
  intros c B. unfold if_after_timeout. eapply b_weak; [apply b_sleep; apply (b_poll 10); exact B|vm_compute; discriminate|vm_compute; discriminate].
Qed.
Lemma b_either : forall (b : bool) dev reg f, bounded (if b then Ret true else not_ (reg_is_field_cleared dev reg f)) 1 0.
Proof. intros [|] dev reg f; [eapply b_weak; [apply b_ret|lia|lia]|apply b_not]. Qed.
Ltac bd := repeat match goal with
  | |- bounded (bind _ _) _ _ => apply b_bind; [|intros ?]
  | |- bounded (Ret _) _ _ => apply b_ret
  | |- bounded Fatal _ _ => apply b_fatal
  | |- bounded (reg_write_field _ _ _ _) _ _ => apply b_write_field
  | |- bounded (reg_set_field _ _ _) _ _ => apply b_set
  | |- bounded (reg_write _ _ _) _ _ => apply b_reg_write
  | |- bounded (reg_is_field_cleared _ _ _) _ _ => apply b_cleared
  | |- bounded (not_ _) _ _ => apply b_not
  | |- bounded (if_after_timeout _ _) _ _ => apply b_wait
  | |- bounded (when _ _) _ _ => apply b_when
  | |- bounded (for_ _ _ _) _ _ => apply b_for; intros ?
  | |- bounded (if _ then Ret _ else _) _ _ => apply b_either
  | |- bounded (Sleep _ _) _ _ => apply b_sleep
  | |- bounded (Map _ _ _ _) _ _ => apply b_map
  | |- bounded (Phys _ _) _ _ => apply b_phys; intros ?
  | |- bounded (Read _ _) _ _ => apply b_read; intros ?
  | |- bounded (Write _ _ _) _ _ => apply b_write
  end.
Lemma b_pci : forall dev, bounded (device_pci dev) 11 0.
Proof.
  intros dev. unfold device_pci, pcireg_is_field_cleared, pcireg_set_field, pcireg_read. eapply b_weak; [bd|vm_compute; discriminate|vm_compute; discriminate].
Qed.
Lemma b_disable : forall dev q, bounded (disable_queue dev q) 23 (1000 * 1000 * 1000).
Proof. intros dev q. unfold disable_queue, reg_clear_field. eapply b_weak; [bd|vm_compute; discriminate|vm_compute; discriminate]. Qed.
Lemma b_general : forall dev, bounded (init_general dev) 49 (2 * 1000 * 1000 * 1000).
Proof.
  intros dev. unfold init_general. eapply b_weak; [|..].
  { bd. }
  { vm_compute. discriminate. }
  vm_compute. discriminate.
Qed.
Lemma b_init : forall dev, bounded (device_init dev) 4300 (131020 * 1000 * 1000).
Proof.
  intros dev. unfold device_init, after_reset. eapply b_weak.
  - apply b_bind; [apply b_pci|intros ?]. apply b_bind; [apply b_for; intros ?; apply b_disable|intros ?].
    apply b_bind; [unfold master_disable, reg_clear_field, pcireg_is_field_cleared, pcireg_read; bd|intros ?].
    apply b_bind; [unfold reset; bd|intros ?]. apply b_bind; [apply b_general|intros ?].
    apply b_bind; [unfold init_receive, reg_clear, reg_clear_field; bd|intros ?]. unfold init_transmit, reg_clear, reg_clear_field. bd.
  - vm_compute. discriminate.
  - vm_compute. discriminate.
Qed.
(** The start-up of a card makes at most 4300 accesses and sleeps for at most 131.02
    seconds, whatever the card answers; an agent, at most a second per card and one more. *)
Theorem C123_start_up_ends : forall dev tr out, runs (device_init dev) tr out ->
  N.of_nat (List.length tr) <= 4300 /\ slept tr <= 131020 * 1000 * 1000.
Proof. intros dev tr out H. exact (b_init dev tr out H). Qed.
Print Assumptions C123_start_up_ends.

Lemma b_output : forall ag dev d i q, bounded (add_output ag dev d i q) 45 (1000 * 1000 * 1000).
Proof. intros. unfold add_output, reg_clear_field. eapply b_weak; [bd|vm_compute; discriminate|vm_compute; discriminate]. Qed.
Lemma b_input : forall ag dev d, bounded (set_input ag dev d) 70 (2 * 1000 * 1000 * 1000).
Proof. intros. unfold set_input, reg_clear_field. eapply b_weak; [bd|vm_compute; discriminate|vm_compute; discriminate]. Qed.
Lemma b_outputs : forall count ag ds input outputs n, bounded (add_outputs ag ds input outputs n count) (N.of_nat count * 45) (N.of_nat count * (1000 * 1000 * 1000)).
Proof.
  induction count as [|c IH]; intros ag ds input outputs n; cbn [add_outputs]; [apply b_ret|]. destruct (_ =? _).
  - eapply b_weak; [apply IH|lia|lia].
  - eapply b_weak; [apply b_bind; [apply b_output|intros ?; apply IH]|lia|lia].
Qed.
Theorem C123_agent_ends : forall input ds tail tr out, runs (agent_init input ds tail) tr out ->
  N.of_nat (List.length tr) <= 45 * N.of_nat (List.length ds) + 70 /\ slept tr <= (N.of_nat (List.length ds) + 2) * (1000 * 1000 * 1000).
Proof.
  intros input ds tail tr out H. unfold agent_init in H. revert tr out H.
  change (bounded (when (Nat.eqb (List.length ds) 0) Fatal ;; when (Nat.leb (List.length ds) input) Fatal ;; when (Nat.eqb (List.length ds) 1) Fatal ;;
    let! r := add_outputs (mkAgent tail (repeat [] (List.length ds - 1)) (repeat None (List.length ds - 1))) ds
              (N.of_nat input) (N.of_nat (List.length ds) - 1) 0 (List.length ds) in
    let! r' := set_input (fst r) (N.of_nat input) (nth input (snd r) (mkDevice false false)) in
    Ret (fst r', update (snd r) input (snd r'))) (45 * N.of_nat (List.length ds) + 70) ((N.of_nat (List.length ds) + 2) * (1000 * 1000 * 1000))).
  eapply b_weak.
  - do 3 (apply b_bind; [apply b_when, b_fatal|intros ?]). apply b_bind; [apply b_outputs|intros ?]. apply b_bind; [apply b_input|intros ?]. apply b_ret.
  - lia.
  - lia.
Qed.
Print Assumptions C123_agent_ends.
(** The slowest start-up that succeeds takes most of that time: the queues and the master
    disable are polled ten times each. *)
Definition slow_card (past : list event) (l : loc) : N :=
  match l with
  | Mmio _ 8 => N.shiftl 1 19
  | Mmio _ a => if negb (a mod 64 =? 40) then ready_card past l
                else if Nat.leb 9 (List.length (filter (fun e => match e with ERead l' _ => loc_eqb l' l | _ => false end) (firstn 18 past))) then 0 else 2 ^ 25
  | _ => ready_card past l
  end.
Example C123_ex : snd (exec slow_card [] (device_init 0)) = Some tt /\ 116 * 1000 * 1000 * 1000 <= slept (fst (exec slow_card [] (device_init 0))).
Proof. split; vm_compute; [reflexivity|discriminate]. Qed.

(** ** C126: Ethernet addresses *)

Lemma byte_low : forall ral rah k, k <= 24 -> N.shiftr (N.lor ral (N.shiftl rah 32)) k mod 256 = N.shiftr ral k mod 256.
Proof.
  intros ral rah k H. change 256 with (2 ^ 8). rewrite <- !N.land_ones.
  apply N.bits_inj. intros b. rewrite !N.land_spec. destruct (N.lt_ge_cases b 8) as [B|B].
  - rewrite !N.shiftr_spec by lia. rewrite N.lor_spec, N.shiftl_spec_low by lia. rewrite orb_false_r. reflexivity.
  - rewrite N.ones_spec_high by lia. rewrite !andb_false_r. reflexivity.
Qed.
Lemma byte_high : forall ral rah k, ral < 2 ^ 32 -> 32 <= k -> N.shiftr (N.lor ral (N.shiftl rah 32)) k = N.shiftr rah (k - 32).
Proof.
  intros ral rah k H Hk. apply N.bits_inj. intros b. rewrite !N.shiftr_spec by lia. rewrite N.lor_spec, (high_bits ral 32) by (assumption || lia).
  rewrite N.shiftl_spec_high by lia. cbn [orb]. f_equal. lia.
Qed.
(** A card's address has the four bytes of its first RAL and two bytes of its first RAH, least
    significant first, each of the registers being read once. *)
Theorem C126_card_address : forall dev tr out, runs (get_mac dev) tr out ->
  exists ral rah a b mac, tr = [ERead (Mmio dev a) ral; ERead (Mmio dev b) rah] /\ at_reg "RAL" 0 a /\ at_reg "RAH" 0 b /\ out = Some mac /\
  device_mac mac = [ral mod 256; ral / 2 ^ 8 mod 256; ral / 2 ^ 16 mod 256; ral / 2 ^ 24 mod 256; rah mod 256; rah / 2 ^ 8 mod 256].
Proof.
  intros dev tr out H. unfold get_mac, reg_read in H. cbn [bind] in H.
  apply runs_read in H as (ral & t1 & H1 & -> & H). apply runs_read in H as (rah & t2 & H2 & -> & H). apply runs_ret in H as [-> ->].
  exists ral, rah, (REG_RAL 0), (REG_RAH 0), (N.lor ral (N.shiftl rah 32)).
  split; [reflexivity|]. split; [eexists; split; [reflexivity|inst]|]. split; [eexists; split; [reflexivity|inst]|]. split; [reflexivity|].
  unfold device_mac. cbn [map]. rewrite (byte_low ral rah 0), (byte_low ral rah 8), (byte_low ral rah 16), (byte_low ral rah 24) by lia.
  rewrite (byte_high ral rah 32), (byte_high ral rah 40) by (assumption || lia).
  rewrite !N.shiftr_div_pow2. change (32 - 32) with 0. change (40 - 32) with 8. rewrite !N.div_1_r. reflexivity.
Qed.
Print Assumptions C126_card_address.
(** The result has more than 48 bits: the register's valid bit comes with the address. *)
Theorem C126_48_bits_refuted : exists dev tr mac, runs (get_mac dev) tr (Some mac) /\ 2 ^ 48 <= mac /\
  tr = [ERead (Mmio dev 0xA200) 0x33221100; ERead (Mmio dev 0xA204) (2 ^ 31 + 0x5544)].
Proof.
  exists 0. eexists. eexists. split; [unfold get_mac, reg_read; cbn [bind]; apply RunRead; [|apply RunRead; [|apply RunRet]]|split; [|reflexivity]]; vm_compute; congruence.
Qed.
Print Assumptions C126_48_bits_refuted.
(** The first 1024 destinations have the same address, all zeros. *)
Theorem C126_destinations_refuted : forall n, n < 1024 -> endpoint_mac n = [0; 0; 0; 0; 0; 0].
Proof.
  intros n H. unfold endpoint_mac. assert (Z : forall k, 10 <= k -> N.shiftr n k mod 256 = 0); [|rewrite !Z by lia; reflexivity].
  intros k Hk. rewrite N.shiftr_div_pow2, N.div_small; [reflexivity|]. eapply N.lt_le_trans; [exact H|]. change 1024 with (2 ^ 10). apply N.pow_le_mono_r; lia.
Qed.
Print Assumptions C126_destinations_refuted.
(** Two destinations get the same address exactly if they agree on bits 10 to 17, 20 to 27, 30
    to 37 and 40 to 47. *)
Theorem C126_destinations_agree : forall n m, endpoint_mac n = endpoint_mac m <->
  forall i j, In i [10; 20; 30; 40] -> j < 8 -> N.testbit n (i + j) = N.testbit m (i + j).
Proof.
  intros n m.
  assert (B : forall i, N.shiftr n i mod 256 = N.shiftr m i mod 256 <-> forall j, j < 8 -> N.testbit n (i + j) = N.testbit m (i + j)).
  { intros i. change 256 with (2 ^ 8). split.
    - intros H j Hj. apply (f_equal (fun x => N.testbit x j)) in H. rewrite !N.mod_pow2_bits_low in H by exact Hj.
      rewrite !N.shiftr_spec' in H. rewrite (N.add_comm i j). exact H.
    - intros H. apply N.bits_inj. intros j. destruct (N.lt_ge_cases j 8) as [L|G].
      + rewrite !N.mod_pow2_bits_low by exact L. rewrite !N.shiftr_spec'. rewrite (N.add_comm j i). apply H. exact L.
      + rewrite !N.mod_pow2_bits_high by exact G. reflexivity. }
  unfold endpoint_mac. split.
  - intros H. pose proof (f_equal (fun l => nth 1 l 0) H) as H1. pose proof (f_equal (fun l => nth 2 l 0) H) as H2.
    pose proof (f_equal (fun l => nth 3 l 0) H) as H3. pose proof (f_equal (fun l => nth 4 l 0) H) as H4. cbn [nth] in H1, H2, H3, H4. intros i j [<-|[<-|[<-|[<-|[]]]]]; apply B; assumption.
  - intros H. rewrite (proj2 (B 10) (fun j => H 10 j (or_introl eq_refl))).
    rewrite (proj2 (B 20) (fun j => H 20 j (or_intror (or_introl eq_refl)))).
    rewrite (proj2 (B 30) (fun j => H 30 j (or_intror (or_intror (or_introl eq_refl))))).
    rewrite (proj2 (B 40) (fun j => H 40 j (or_intror (or_intror (or_intror (or_introl eq_refl)))))). reflexivity.
Qed.
Print Assumptions C126_destinations_agree.
Example C126_agree_ex : endpoint_mac 1023 = endpoint_mac 0 /\ endpoint_mac 1024 <> endpoint_mac 0 /\ endpoint_mac (2 ^ 47) <> endpoint_mac 0.
Proof. repeat split; vm_compute; congruence. Qed.
Example C126_ex : device_mac (N.lor 0x33221100 (N.shiftl (2 ^ 31 + 0x5544) 32)) = [0; 0x11; 0x22; 0x33; 0x44; 0x55].
Proof. vm_compute. reflexivity. Qed.

(** ** C127: PCI configuration *)

Lemma target_bits : forall bus device function reg b, bus < 256 -> device < 32 -> function < 8 -> reg < 256 ->
  N.testbit (pci_target bus device function reg) b =
  if b <? 8 then N.testbit reg b else if b <? 11 then N.testbit function (b - 8) else if b <? 16 then N.testbit device (b - 11)
  else if b <? 24 then N.testbit bus (b - 16) else b =? 31.
Proof.
  intros bus device function reg b H1 H2 H3 H4. unfold pci_target. rewrite !N.lor_spec.
  assert (H8 : N.testbit 0x80000000 b = (b =? 31)) by (change 0x80000000 with (2 ^ 31); destruct (N.eqb_spec b 31) as [->|]; [reflexivity|apply N.pow2_bits_false; auto]).
  rewrite H8.
  assert (HS : forall x n, N.testbit (N.shiftl x n) b = if b <? n then false else N.testbit x (b - n)).
  { intros x n. destruct (N.ltb_spec b n); [apply N.shiftl_spec_low; assumption|apply N.shiftl_spec_high; lia]. }
  rewrite !HS.
  assert (HB : forall x n k, x < 2 ^ n -> N.testbit x k = if k <? n then N.testbit x k else false).
  { intros x n k Hx. destruct (N.ltb_spec k n); [reflexivity|]. apply (high_bits x n); assumption. }
  rewrite (HB bus 8), (HB device 5), (HB function 3), (HB reg 8) by assumption.
  destruct (N.ltb_spec b 8), (N.ltb_spec b 11), (N.ltb_spec b 16), (N.ltb_spec b 24), (N.eqb_spec b 31), (N.ltb_spec (b - 16) 8), (N.ltb_spec (b - 11) 5), (N.ltb_spec (b - 8) 3);
  try lia; cbn [orb]; rewrite ?orb_false_r; reflexivity.
Qed.
Lemma part_of : forall t x s n, (forall k, k < n -> N.testbit t (k + s) = N.testbit x k) -> x < 2 ^ n -> N.land (N.shiftr t s) (N.ones n) = x.
Proof.
  intros t x s n H Hx. apply N.bits_inj. intros b. rewrite N.land_spec, N.shiftr_spec by lia. destruct (N.lt_ge_cases b n) as [C|C].
  - rewrite N.ones_spec_low, andb_true_r by exact C. apply H. exact C.
  - rewrite N.ones_spec_high, andb_false_r by exact C. symmetry. apply (high_bits x n); assumption.
Qed.
(** A read of a 32-bit register is a read of the word at that offset in the configuration
    space of that function. *)
Theorem C127_configuration_read_partial : forall space bus device function n, bus < 256 -> device < 32 -> function < 8 -> n < 64 ->
  os_pci_read space bus device function (4 * n) = space bus device function n.
Proof.
  intros space bus device function n H1 H2 H3 H4. unfold os_pci_read, pci_bus.
  assert (TB := fun b => target_bits bus device function (4 * n) b H1 H2 H3). assert (R : 4 * n < 256) by lia.
  change 0xFF with (N.ones 8). change 0x1F with (N.ones 5). change 0x7 with (N.ones 3). change 0x3F with (N.ones 6).
  rewrite (part_of _ bus 16 8), (part_of _ device 11 5), (part_of _ function 8 3), (part_of _ n 2 6); try assumption; try reflexivity;
  intros k Hk; rewrite TB by exact R.
  - rewrite (proj2 (N.ltb_lt (k + 2) 8)) by lia. change 4 with (2 ^ 2). rewrite N.mul_comm, <- N.shiftl_mul_pow2, N.shiftl_spec_high by lia. f_equal. lia.
  - rewrite (proj2 (N.ltb_ge (k + 8) 8)), (proj2 (N.ltb_lt (k + 8) 11)) by lia. f_equal. lia.
  - rewrite (proj2 (N.ltb_ge (k + 11) 8)), (proj2 (N.ltb_ge (k + 11) 11)), (proj2 (N.ltb_lt (k + 11) 16)) by lia. f_equal. lia.
  - rewrite (proj2 (N.ltb_ge (k + 16) 8)), (proj2 (N.ltb_ge (k + 16) 11)), (proj2 (N.ltb_ge (k + 16) 16)), (proj2 (N.ltb_lt (k + 16) 24)) by lia. f_equal. lia.
Qed.
Print Assumptions C127_configuration_read_partial.
(** The device status is at offset 0xAA, the upper half of a word.  With a card that has
    no transaction pending (bit 5 of the status) and whose device control (the lower half)
    has bit 5 set, the driver sees a transaction pending; and the other way around. *)
Theorem C127_pending_refuted : exists control status, control < 2 ^ 16 /\ status < 2 ^ 16 /\
  let space (_ _ _ n : N) := if n =? 0xA8 / 4 then control + status * 2 ^ 16 else 0 in
  (N.testbit status 5 = false /\ N.land (os_pci_read space 1 2 3 PCIREG_DEVICESTATUS) (BIT 5) <> 0) /\
  exists control status, control < 2 ^ 16 /\ status < 2 ^ 16 /\
  let space (_ _ _ n : N) := if n =? 0xA8 / 4 then control + status * 2 ^ 16 else 0 in
  N.testbit status 5 = true /\ N.land (os_pci_read space 1 2 3 PCIREG_DEVICESTATUS) (BIT 5) = 0.
Proof.
  exists 32, 0. split; [reflexivity|]. split; [reflexivity|]. split; [split; [reflexivity|vm_compute; discriminate]|].
  exists 0, 32. repeat split; vm_compute; reflexivity.
Qed.
Print Assumptions C127_pending_refuted.
Definition mappings (tr : list event) : list event := filter (fun e => match e with EMap _ _ _ => true | _ => false end) tr.
(** A card is started only if it identifies itself as an Intel 82599 (device 0x10FB of
    vendor 0x8086), is in power state D0 and has a 64-bit memory address, and then 128 KB
    are mapped at exactly that address. *)
Ltac pci H := match type of H with
  | runs (Read _ _) _ _ => let v := fresh "v" in let t := fresh "t" in let Hv := fresh "Hv" in apply runs_read in H as (v & t & Hv & -> & H)
  | runs (Write _ _ _) _ _ => let t := fresh "t" in apply runs_write in H as (t & -> & H)
  | runs (Map _ _ _ _) _ _ => let t := fresh "t" in apply runs_map in H as (t & -> & H)
  | runs (Ret _) _ _ => apply runs_ret in H as [-> _]
  | runs Fatal _ _ => exfalso; apply runs_fatal in H as [_ H]; discriminate H
  end.
Theorem C127_identity : forall dev tr, runs (device_pci dev) tr (Some tt) ->
  exists pmcsr low high, low < 2 ^ 32 /\ high < 2 ^ 32 /\ In (ERead (Pci dev 0) (0x10FB * 2 ^ 16 + 0x8086)) tr /\
  In (ERead (Pci dev 0x44) pmcsr) tr /\ pmcsr mod 4 = 0 /\
  In (ERead (Pci dev 0x10) low) tr /\ In (ERead (Pci dev 0x14) high) tr /\ bits low 1 2 = 2 /\
  mappings tr = [EMap dev (high * 2 ^ 32 + low / 16 * 16) (128 * 1024)].
Proof.
  intros dev tr H. unfold device_pci, pcireg_is_field_cleared, pcireg_set_field, pcireg_read in H. cbn [bind] in H.
  pci H. destruct (v =? _) eqn:E; cbn [negb when bind] in H; [|pci H]. apply N.eqb_eq in E. pci H.
  destruct (N.land v0 (BITS 0 1) =? 0) eqn:E0; cbn [negb when bind] in H; [|pci H]. apply N.eqb_eq in E0. do 7 pci H. 
  destruct (_ || _)%bool eqn:E1 in H; cbn [when bind] in H; [pci H|]. apply orb_false_iff in E1 as [E1 E2]. apply negb_false_iff in E2. apply N.eqb_neq in E1. apply N.eqb_eq in E2.
  do 3 pci H. exists v0, v4, v5. split; [assumption|]. split; [assumption|]. subst v.
  split; [left; reflexivity|]. split; [right; left; reflexivity|]. split.
  { change (BITS 0 1) with (N.ones 2) in E0. rewrite N.land_ones in E0. exact E0. }
  split; [do 8 right; left; reflexivity|]. split; [do 9 right; left; reflexivity|]. split.
  - apply N.bits_inj. intros b. rewrite testbit_bits. change (2 + 1 - 1) with 2.
    assert (B1 : N.testbit v4 1 = false).
    { destruct (N.testbit v4 1) eqn:B; [|reflexivity]. exfalso. assert (C : N.testbit (N.land v4 (BIT 1)) 1 = true) by (rewrite N.land_spec, B; reflexivity).
      rewrite E2 in C. discriminate. }
    assert (B2 : N.testbit v4 2 = true).
    { destruct (N.testbit v4 2) eqn:B; [reflexivity|]. exfalso. apply E1. apply N.bits_inj. intros k. rewrite N.land_spec, N.bits_0. change (BIT 2) with (2 ^ 2).
      destruct (N.eq_dec k 2) as [->|]; [rewrite B; reflexivity|]. rewrite N.pow2_bits_false by auto. apply andb_false_r. }
    destruct (N.ltb_spec b 2) as [C|C]; cbn [andb].
    + assert (b = 0 \/ b = 1) as [->| ->] by lia; [exact B1|exact B2].
    + change 2 with (2 ^ 1). symmetry. apply N.pow2_bits_false. lia.
  - cbn [mappings filter]. f_equal. f_equal.
    assert (L : N.land v4 (not32 (BITS 0 3)) = v4 / 16 * 16).
    { change (v4 / 16 * 16) with (v4 / 2 ^ 4 * 2 ^ 4). rewrite <- N.shiftr_div_pow2, <- N.shiftl_mul_pow2. apply N.bits_inj. intros b. rewrite N.land_spec.
      destruct (N.lt_ge_cases b 4) as [C|C].
      - rewrite N.shiftl_spec_low by exact C. replace (N.testbit (not32 (BITS 0 3)) b) with false; [apply andb_false_r|].
        assert (b = 0 \/ b = 1 \/ b = 2 \/ b = 3) as [->|[->|[->| ->]]] by lia; reflexivity.
      - rewrite N.shiftl_spec_high, N.shiftr_spec by lia. replace (b - 4 + 4) with b by lia. destruct (N.lt_ge_cases b 32) as [D|D].
        + change (not32 (BITS 0 3)) with (N.shiftl (N.ones 28) 4). rewrite N.shiftl_spec_high, N.ones_spec_low by lia. apply andb_true_r.
        + rewrite (high_bits v4 32 b) by assumption. reflexivity. }
    rewrite L. rewrite N.shiftl_mul_pow2. rewrite N.lor_comm. rewrite <- N.shiftl_mul_pow2.
    rewrite N.add_comm. assert (S : v4 / 16 * 16 < 2 ^ 32) by (pose proof (N.mul_div_le v4 16); lia).
    symmetry. rewrite <- N.lxor_lor, N.add_nocarry_lxor; try reflexivity; apply N.bits_inj; intros b; rewrite N.land_spec, N.bits_0;
    (destruct (N.lt_ge_cases b 32); [rewrite N.shiftl_spec_low by assumption; apply andb_false_r|rewrite (high_bits _ 32 b S) by assumption; reflexivity]).
Qed.
Print Assumptions C127_identity.
Example C127_ex : mappings (fst (exec ready_card [] (device_pci 7))) = [EMap 7 0xF0000000 131072] /\ snd (exec ready_card [] (device_pci 7)) = Some tt.
Proof. vm_compute. split; reflexivity. Qed.

(** ** C128: byte order *)

(** Reversed bytes: byte [i] of the result is byte [n - 1 - i] of the value. *)
Definition reversed (n v w : N) : Prop := w < 2 ^ (8 * n) /\ forall i, i < n -> w / 2 ^ (8 * i) mod 256 = v / 2 ^ (8 * (n - 1 - i)) mod 256.
Theorem C128_swap16_partial : forall v, v < 2 ^ 16 -> reversed 2 v (swap16 v mod 2 ^ 16).
Proof.
  intros v H. unfold swap16. rewrite N.shiftl_mul_pow2, N.shiftr_div_pow2. change (2 ^ 8) with 256.
  assert (D : N.lor (v * 256) (v / 256) = v * 256 + v / 256).
  { rewrite N.add_comm, N.lor_comm. change 256 with (2 ^ 8). rewrite <- N.shiftl_mul_pow2. symmetry. rewrite <- N.lxor_lor; [apply N.add_nocarry_lxor|];
    apply N.bits_inj; intros b; rewrite N.land_spec, N.bits_0; (destruct (N.lt_ge_cases b 8) as [C|C]; [rewrite N.shiftl_spec_low by exact C; apply andb_false_r|]);
    (rewrite (high_bits (v / 2 ^ 8) 8 b); [reflexivity|apply N.div_lt_upper_bound; [discriminate|exact H]|exact C]). }
  rewrite D. assert (E : (v * 256 + v / 256) mod 2 ^ 16 = v mod 256 * 256 + v / 256).
  { symmetry. apply (N.mod_unique _ _ (v / 256)); pose proof (N.div_mod v 256 ltac:(discriminate)); pose proof (N.mod_lt v 256 ltac:(discriminate)); assert (v / 256 < 256) by (apply N.div_lt_upper_bound; [discriminate|exact H]); change (2 ^ 16) with 65536 in *; lia. }
  rewrite E. assert (v / 256 < 256) by (apply N.div_lt_upper_bound; [discriminate|exact H]). pose proof (N.mod_lt v 256 ltac:(discriminate)). split.
  - change (2 ^ (8 * 2)) with 65536. lia.
  - intros i Hi. assert (i = 0 \/ i = 1) as [->| ->] by lia.
    + change (2 ^ (8 * 0)) with 1. change (2 ^ (8 * (2 - 1 - 0))) with 256. rewrite N.div_1_r, N.add_comm, N.mod_add by discriminate. reflexivity.
    + change (2 ^ (8 * 1)) with 256. change (2 ^ (8 * (2 - 1 - 1))) with 1. rewrite N.div_1_r, N.div_add_l, (N.div_small (v / 256)) by (discriminate || assumption).
      rewrite N.add_0_r. apply N.mod_mod. discriminate.
Qed.
Print Assumptions C128_swap16_partial.
(** Without the store in 16 bits the value has more bits; 32 and 64 bits are wrong. *)
Theorem C128_swap_refuted : ~ reversed 2 0x1234 (swap16 0x1234) /\ ~ reversed 4 0x12345678 (swap32 0x12345678) /\ ~ reversed 8 0x123456789ABCDEF0 (swap64 0x123456789ABCDEF0).
Proof.
  repeat split; intros [H1 H2]; [discriminate H1|specialize (H2 1 eq_refl); vm_compute in H2; discriminate|specialize (H2 1 eq_refl); vm_compute in H2; discriminate].
Qed.
Print Assumptions C128_swap_refuted.
Example C128_ex : swap16 0x1234 mod 2 ^ 16 = 0x3412.
Proof. reflexivity. Qed.

(** ** C129: what the caller has to provide *)

Definition never {A} (l : loc) (p : prog A) : Prop := forall tr o, runs p tr o -> forall v, ~ In (EWrite l v) tr.
Lemma n_bind : forall l A B (p : prog A) (f : A -> prog B), never l p -> (forall a, never l (f a)) -> never l (bind p f).
Proof.
  intros l A B p f H1 H2 tr o R v I. apply runs_bind in R as [[R _]|(a & t1 & t2 & R1 & R2 & ->)]; [exact (H1 _ _ R v I)|].
  apply in_app_or in I as [I|I]; [exact (H1 _ _ R1 v I)|exact (H2 a _ _ R2 v I)].
Qed.
Lemma n_ret : forall l A (a : A), never l (Ret a). Proof. intros l A a tr o R v I. apply runs_ret in R as [-> _]. exact I. Qed.
Lemma n_fatal : forall l A, never l (@Fatal A). Proof. intros l A tr o R v I. apply runs_fatal in R as [-> _]. exact I. Qed.
Lemma n_read : forall l A l' (k : N -> prog A), (forall v, never l (k v)) -> never l (Read l' k).
Proof. intros l A l' k H tr o R v I. apply runs_read in R as (x & t & _ & -> & R). destruct I as [I|I]; [discriminate|exact (H x _ _ R v I)]. Qed.
Lemma n_phys : forall l A x (k : N -> prog A), (forall v, never l (k v)) -> never l (Phys x k).
Proof. intros l A x k H tr o R v I. apply runs_phys in R as (y & t & _ & -> & R). destruct I as [I|I]; [discriminate|exact (H y _ _ R v I)]. Qed.
Lemma n_write : forall l A l' v (k : prog A), l' <> l -> never l k -> never l (Write l' v k).
Proof. intros l A l' v k N H tr o R x I. apply runs_write in R as (t & -> & R). destruct I as [I|I]; [congruence|exact (H _ _ R x I)]. Qed.
Lemma n_sleep : forall l A ns (k : prog A), never l k -> never l (Sleep ns k).
Proof. intros l A ns k H tr o R x I. apply runs_sleep in R as (t & -> & R). destruct I as [I|I]; [congruence|exact (H _ _ R x I)]. Qed.
Lemma n_wait : forall l us c, never l c -> never l (if_after_timeout us c).
Proof.
  intros l us c H. apply n_sleep. generalize 10%nat as n. induction n as [|n IH]; cbn [poll]; [apply n_ret|]. apply n_bind; [exact H|].
  intros [|]; cbn [negb]; [apply n_sleep; exact IH|apply n_ret].
Qed.
Ltac nv := unfold reg_clear_field, reg_write_field, reg_set_field, reg_is_field_cleared, reg_read_field, reg_read, reg_write;
  repeat match goal with
  | |- never _ (bind _ _) => apply n_bind; [|intros ?]
  | |- never _ (Ret _) => apply n_ret
  | |- never _ Fatal => apply n_fatal
  | |- never _ (if_after_timeout _ _) => apply n_wait
  | |- never _ (when ?b _) => destruct b; cbn [when]
  | |- never _ (Sleep _ _) => apply n_sleep
  | |- never _ (Phys _ _) => apply n_phys; intros ?
  | |- never _ (Read _ _) => apply n_read; intros ?
  | |- never _ (Write _ _ _) => apply n_write
  end.
(** The card's structure is said to be overwritten, but its flags are not: with a structure
    where they are set already, the card is never allowed to send (DMATXCTL) or receive
    (RXCTRL), and no error is reported. *)
Theorem C129_flags_refuted : exists d, forall ag dev i q tr out,
  (runs (add_output ag dev (device_after_init d) i q) tr out -> forall a v, at_reg "DMATXCTL" 0 a -> ~ In (EWrite (Mmio dev a) v) tr) /\
  (runs (set_input ag dev (device_after_init d)) tr out -> forall a v, at_reg "RXCTRL" 0 a -> ~ In (EWrite (Mmio dev a) v) tr).
Proof.
  exists (mkDevice true true). intros ag dev i q tr out.
  split; intros R a v Ha; (eapply at_reg_inv in Ha; [|reflexivity]); unfold instance in Ha; cbn [r_addr placed] in Ha.
  - revert v. eapply (fun H : never _ _ => H tr out R). assert (a = 19072) as -> by lia. clear Ha R. unfold add_output. cbn [device_after_init tx_enabled negb when].
    nv; apply neq_reg; unfold REG_TDBAH, REG_TDBAL, REG_TDLEN, REG_TXDCTL, REG_TDWBAH, REG_TDWBAL, REG_DCATXCTRL; lia.
  - revert v. eapply (fun H : never _ _ => H tr out R). assert (a = 12288) as -> by lia. clear Ha R. unfold set_input. cbn [device_after_init rx_enabled negb when].
    nv; apply neq_reg; vm_compute; discriminate.
Qed.
Print Assumptions C129_flags_refuted.
(** An agent's structure is said to be overwritten too, but any start with one whose tail
    is not null fails. *)
Theorem C129_tail_refuted : forall input ds tail tr out, runs (agent_init input ds (Some tail)) tr out -> out = None.
Proof.
  assert (O : forall ag dev d i q tr r, runs (add_output ag dev d i q) tr (Some r) -> receive_tail (fst r) = receive_tail ag).
  { intros ag dev d i q tr r R. unfold add_output in R.
    repeat (first [apply runs_bind in R as [[_ R]|(? & ? & ? & _ & R & _)]; [discriminate R|] | apply runs_phys in R as (? & ? & _ & _ & R)]; cbv beta in R).
    apply runs_ret in R as [_ R]. injection R as ->. reflexivity. }
  assert (OS : forall count ag ds input outs n tr r, runs (add_outputs ag ds input outs n count) tr (Some r) -> receive_tail (fst r) = receive_tail ag).
  { induction count as [|c IH]; intros ag ds input outs n tr r R; cbn [add_outputs] in R; [apply runs_ret in R as [_ R]; injection R as ->; reflexivity|].
    destruct (_ =? _); [apply IH in R; exact R|]. apply runs_bind in R as [[_ R]|(r1 & t1 & t2 & R1 & R & _)]; [discriminate R|].
    apply O in R1. apply IH in R. congruence. }
  intros input ds tail tr out R. destruct out as [r|]; [exfalso|reflexivity]. unfold agent_init in R.
  do 3 (apply runs_bind in R as [[_ R]|(? & ? & ? & _ & R & _)]; [discriminate R|]; cbv beta in R).
  apply runs_bind in R as [[_ R]|(r1 & t1 & t2 & R1 & R & _)]; [discriminate R|]. apply OS in R1. cbn [receive_tail] in R1.
  apply runs_bind in R as [[_ R]|(r2 & t3 & t4 & R2 & R & _)]; [discriminate R|]. unfold set_input in R2. rewrite R1 in R2. cbn [when bind] in R2.
  apply runs_fatal in R2 as [_ R2]. discriminate.
Qed.
Print Assumptions C129_tail_refuted.
(** With structures filled with zeros, as the program provides, an output that succeeds was
    allowed to send, an input that succeeds was allowed to receive. *)
Ltac go R := repeat (first [apply runs_bind in R as [[_ R]|(? & ? & ? & ?R & R & ->)]; [discriminate R|] | apply runs_phys in R as (? & ? & _ & -> & R)]; cbv beta in R).
Theorem C129_zeros_partial : forall ag dev d i q tr r,
  (tx_enabled d = false -> runs (add_output ag dev (device_after_init d) i q) tr (Some r) ->
     tx_enabled (snd r) = true /\ exists a v, at_reg "DMATXCTL" 0 a /\ In (EWrite (Mmio dev a) v) tr /\ N.testbit v 0 = true) /\
  (rx_enabled d = false -> runs (set_input ag dev (device_after_init d)) tr (Some r) ->
     rx_enabled (snd r) = true /\ exists a v, at_reg "RXCTRL" 0 a /\ In (EWrite (Mmio dev a) v) tr /\ N.testbit v 0 = true).
Proof.
  intros ag dev d i q tr r. split; intros D R.
  - unfold add_output in R. cbn [device_after_init tx_enabled] in R. rewrite D in R. cbn [negb] in R. go R. apply runs_ret in R as [-> R]. injection R as ->. cbn [snd tx_enabled].
    split; [reflexivity|]. match goal with H : runs (when true _) _ _ |- _ => cbn [when] in H; apply (C119_set_and_clear dev REG_DMATXCTL 0 true) in H as (_ & o & n & _ & _ & -> & B & _); [|lia] end.
    exists 19072, n. split; [eexists; split; [reflexivity|inst]|]. split; [|exact B].
    repeat (first [left; reflexivity | right | apply in_or_app; (left; left; fail) | apply in_or_app; right; left; reflexivity]).
    all: repeat (rewrite in_app_iff || cbn [In]); tauto.
  - unfold set_input in R. cbn [device_after_init rx_enabled] in R. rewrite D in R. cbn [negb] in R. go R. apply runs_ret in R as [-> R]. injection R as ->. cbn [snd rx_enabled].
    split; [reflexivity|]. match goal with H : runs (when true _) _ _ |- _ => cbn [when] in H; rename H into W end. go W.
    match goal with H : runs (reg_set_field dev REG_RXCTRL _) _ _ |- _ => apply (C119_set_and_clear dev REG_RXCTRL 0 true) in H as (_ & o & n & _ & _ & -> & B & _); [|lia] end.
    exists 12288, n. split; [eexists; split; [reflexivity|inst]|]. split; [|exact B].
    repeat (rewrite in_app_iff || cbn [In]); tauto.
Qed.
Print Assumptions C129_zeros_partial.
