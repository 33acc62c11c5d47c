(** * Property theorems: how long the driver leaves a card alone after a reset (C124) *)

From Coq Require Import NArith List Bool Lia.
From Verif Require Import Ixgbe IxgbeFacts Props_Ixgbe Props_IxgbeCard.
Import ListNotations.
Open Scope N_scope.

(** ** Specification *)

(** The time until the next access, in nanoseconds. *)
Fixpoint idle (tr : list event) : N := match tr with ESleep ns :: tr => ns + idle tr | _ => 0 end.
Fixpoint next_access (tr : list event) : list event := match tr with ESleep _ :: tr => next_access tr | tr => tr end.
(** A write that resets card [dev]: bit 26 of its first register (data sheet 8.2.3.1.1). *)
Definition resets (dev : N) (e : event) : Prop := match e with EWrite (Mmio d 0) v => d = dev /\ N.testbit v 26 = true | _ => False end.
(** 4.6.3.2: at least 10 ms between a reset and the next access; a reset that only comes
    before another one (5.2.5.3.2) must be more than 1 us before it. *)
Definition left_alone (dev : N) (after : list event) : Prop :=
  10 * 1000 * 1000 <= idle after \/
  (1000 < idle after /\ exists v e rest, next_access after = ERead (Mmio dev 0) v :: e :: rest /\ resets dev e).

(** ** Proofs *)

(** Programs that do not write a register. *)
Fixpoint avoids {A} (l : loc) (p : prog A) : Prop :=
  match p with
  | Ret _ | Fatal => True
  | Read _ k => forall v, avoids l (k v)
  | Write l' _ k => l' <> l /\ avoids l k
  | Sleep _ k => avoids l k
  | Map _ _ _ k => avoids l k
  | Phys _ k => forall v, avoids l (k v)
  end.
Lemma avoids_bind : forall A B l (p : prog A) (f : A -> prog B), avoids l p -> (forall a, avoids l (f a)) -> avoids l (bind p f).
Proof. intros A B l p f. induction p; cbn [avoids bind]; intros Hp Hf; firstorder. Qed.
Lemma avoids_when : forall l b p, avoids l p -> avoids l (when b p).
Proof. intros l [|] p H; [exact H|exact I]. Qed.
Lemma avoids_for : forall l body c lo, (forall n, avoids l (body n)) -> avoids l (for_ lo c body).
Proof. intros l body c. induction c; intros lo H; cbn [for_]; [exact I|]. apply avoids_bind; auto. Qed.
Lemma avoids_wait : forall l us p, avoids l p -> avoids l (if_after_timeout us p).
Proof.
  intros l us p H. unfold if_after_timeout. cbn [avoids]. generalize 10%nat. intros n. induction n; cbn [poll]; [exact I|].
  apply avoids_bind; [exact H|]. intros [|]; cbn [negb]; [exact IHn|exact I].
Qed.
Ltac free_of := repeat match goal with
    | |- avoids _ (for_ _ _ _) => apply avoids_for | |- avoids _ (if_after_timeout _ _) => apply avoids_wait | |- avoids _ (when _ _) => apply avoids_when
    | |- avoids _ (bind _ _) => apply avoids_bind | |- forall _, _ => intro end;
  unfold reg_clear, reg_clear_field, reg_write_field, reg_set_field, reg_is_field_cleared, reg_read_field, not_, reg_write, reg_read,
    pcireg_set_field, pcireg_is_field_cleared, pcireg_read; cbn [bind avoids];
  repeat match goal with |- forall _, _ => intro | |- _ /\ _ => split | |- True => exact I end.
Lemma other_reg : forall dev a, a <> 0 -> Mmio dev a <> Mmio dev 0.
Proof. intros dev a H E. injection E as E. exact (H E). Qed.
Ltac others := try discriminate; try (apply other_reg;
  cbv delta [REG_EIMC REG_FCRTH REG_PFUTA REG_PFVLVF REG_MPSAR REG_PFVLVFB REG_MTA REG_FTQF REG_RXPBSIZE REG_TXPBSIZE REG_TXPBTHRESH REG_RXDCTL rxq] beta;
  repeat match goal with |- context[if ?b then _ else _] => destruct b end; lia).
Lemma general_avoids : forall dev, avoids (Mmio dev 0) (init_general dev).
Proof. intros dev. unfold init_general. free_of; others. all: match goal with |- avoids _ (if ?b then _ else _) => destruct b end; free_of. Qed.
Lemma receive_avoids : forall dev, avoids (Mmio dev 0) (init_receive dev).
Proof. intros dev. unfold init_receive. free_of; others. Qed.
Lemma transmit_avoids : forall dev, avoids (Mmio dev 0) (init_transmit dev).
Proof. intros dev. unfold init_transmit. free_of; others. Qed.
Lemma after_avoids : forall dev, avoids (Mmio dev 0) (after_reset dev).
Proof. intros dev. unfold after_reset. apply avoids_bind; [|intros _; apply avoids_bind; [|intros _]]; [apply general_avoids|apply receive_avoids|apply transmit_avoids]. Qed.
Lemma pci_avoids : forall dev, avoids (Mmio dev 0) (device_pci dev).
Proof. intros dev. unfold device_pci. free_of; others. Qed.
Lemma queue_avoids : forall dev n, avoids (Mmio dev 0) (disable_queue dev n).
Proof. intros dev n. unfold disable_queue. free_of; others. Qed.

(** Where resets are, in an execution. *)
Definition waits (dev : N) (tr : list event) : Prop := forall t1 e t2, tr = t1 ++ e :: t2 -> resets dev e -> left_alone dev t2.
Lemma avoids_runs : forall A dev (p : prog A) tr out, avoids (Mmio dev 0) p -> runs p tr out -> forall e, In e tr -> ~ resets dev e.
Proof.
  intros A dev p tr out H R. induction R; cbn [avoids] in H; intros e He; try (destruct He as [<-|He]); try contradiction; try (intros []; fail);
    try (apply IHR; [apply H|exact He]; fail); try (apply IHR; [exact H|exact He]; fail).
  cbn [resets]. destruct H as [H _]. destruct l as [d [|a]|d a]; try (intros []; fail). intros [-> _]. apply H. reflexivity.
Qed.
Lemma waits_app : forall dev t u, (forall e, In e t -> ~ resets dev e) -> waits dev u -> waits dev (t ++ u).
Proof.
  intros dev t u H W t1 e t2 E Re. destruct (app_eq_app _ _ _ _ E) as (z & [[E1 E2]|[E1 E2]]).
  - destruct z as [|x z]; [rewrite app_nil_l in E2; apply (W [] e t2); [symmetry; exact E2|exact Re]|].
    injection E2 as -> E2. exfalso. apply (H x); [|exact Re]. rewrite E1. apply in_or_app. right. left. reflexivity.
  - apply (W z e t2); [exact E2|exact Re].
Qed.
Lemma waits_cons : forall dev e u, (resets dev e -> left_alone dev u) -> waits dev u -> waits dev (e :: u).
Proof. intros dev e u H W [|x t1] e' t2 E Re; injection E as -> E; [subst u; apply H; exact Re|]. apply (W t1 e' t2 E Re). Qed.
Lemma waits_none : forall dev t, (forall e, In e t -> ~ resets dev e) -> waits dev t.
Proof. intros dev t H t1 e t2 -> Re. exfalso. apply (H e); [|exact Re]. apply in_or_app. right. left. reflexivity. Qed.
Lemma runs_when : forall b p tr o, runs (when b p) tr o -> (b = false /\ tr = [] /\ o = Some tt) \/ (b = true /\ runs p tr o).
Proof. intros [|] p tr o R; cbn [when] in R; [right; auto|]. apply runs_ret in R as [-> ->]. left. auto. Qed.

(** The executions of the flush (ixgbe.c 568-584) and what precedes it: at most one reset, at the end. *)
Definition flushed (dev : N) (t : list event) (o : option unit) : Prop :=
  exists t0 tl, t = t0 ++ tl /\ (forall e, In e t0 -> ~ resets dev e) /\
    (tl = [] \/ o = Some tt /\ exists v, tl = [ERead (Mmio dev 0) v; EWrite (Mmio dev 0) (N.lor v (BIT 26)); ESleep 2000]).
Lemma flushed_bind : forall A dev (p : prog A) f t o, avoids (Mmio dev 0) p -> runs (bind p f) t o ->
  (forall a u o, runs (f a) u o -> flushed dev u o) -> flushed dev t o.
Proof.
  intros A dev p f t o Av R H. apply runs_bind in R as [[R ->]|(a & u1 & u2 & R1 & R2 & ->)].
  - exists t, []. rewrite app_nil_r. split; [reflexivity|]. split; [apply (avoids_runs _ _ _ _ _ Av R)|left; reflexivity].
  - destruct (H _ _ _ R2) as (t0 & tl & -> & N0 & T). exists (u1 ++ t0), tl. split; [apply app_assoc|]. split; [|exact T].
    intros e He. apply in_app_or in He as [He|He]; [apply (avoids_runs _ _ _ _ _ Av R1 e He)|apply N0; exact He].
Qed.
Ltac no_reset := free_of; others.
Lemma flush_runs : forall dev t o,
  runs (let! late := if_after_timeout (1000 * 1000) (not_ (reg_is_field_cleared dev REG_STATUS (BIT 19))) in
    when late (
    let! clear := pcireg_is_field_cleared dev PCIREG_DEVICESTATUS (BIT 5) in
    when (negb clear) Fatal ;;
    reg_set_field dev REG_HLREG0 (BIT 15) ;;
    reg_clear_field dev REG_RXCTRL (BIT 0) ;;
    reg_set_field dev REG_GCREXT (BIT 30) ;;
    Sleep (20 * 1000) (
    reg_clear_field dev REG_HLREG0 (BIT 15) ;;
    reg_clear_field dev REG_GCREXT (BIT 30) ;;
    reg_set_field dev REG_CTRL (BIT 26) ;;
    Sleep (2 * 1000) (Ret tt)))) t o -> flushed dev t o.
Proof.
  intros dev t o R. eapply flushed_bind; [|exact R|]; [no_reset|]. clear t o R. intros late t o R. apply runs_when in R as [(-> & -> & ->)|[-> R]].
  { exists [], []. split; [reflexivity|]. split; [intros e []|left; reflexivity]. }
  eapply flushed_bind; [|exact R|]; [no_reset|]. clear t o R. intros clear t o R. 
  do 4 (eapply flushed_bind; [|exact R|]; [no_reset|]; clear t o R; intros [] t o R).
  apply runs_sleep in R as (t' & -> & R).
  assert (Fl : flushed dev t' o).
  { do 2 (eapply flushed_bind; [|exact R|]; [no_reset|]; clear R; clear t' o; intros [] t' o R).
    unfold reg_set_field, reg_read, reg_write in R. cbn [bind] in R. apply runs_read in R as (v & u & Hv & -> & R). apply runs_write in R as (u2 & -> & R).
    apply runs_sleep in R as (u3 & -> & R). apply runs_ret in R as [-> ->]. exists []. eexists. split; [reflexivity|]. split; [intros e []|]. right. split; [reflexivity|]. eexists. reflexivity. }
  destruct Fl as (t0 & tl & -> & N0 & T). exists (ESleep (20 * 1000) :: t0), tl. split; [reflexivity|]. split; [|exact T]. intros e [<-|He]; [intros []|apply N0; exact He].
Qed.

(** In every execution of the start-up in which the card does not answer that it is still
    being reset, whether it ends in an error or not. *)
Theorem C124_waits : forall dev tr out, runs (device_init dev) tr out ->
  (forall v, In (ERead (Mmio dev 0) v) tr -> N.testbit v 26 = false) ->
  forall t1 e t2, tr = t1 ++ e :: t2 -> resets dev e -> left_alone dev t2.
Proof.
  intros dev tr out R RV. change (waits dev tr). unfold device_init in R.
  assert (B : forall A B (p : prog A) (f : A -> prog B) t o, avoids (Mmio dev 0) p -> runs (bind p f) t o ->
    (forall a u, runs (f a) u o -> (forall v, In (ERead (Mmio dev 0) v) u -> In (ERead (Mmio dev 0) v) t) -> waits dev u) -> waits dev t).
  { intros A B p f t o Av Rt W. apply runs_bind in Rt as [[Rt _]|(a & u1 & u2 & R1 & R2 & ->)]; [apply waits_none; apply (avoids_runs _ _ _ _ _ Av Rt)|].
    apply waits_app; [apply (avoids_runs _ _ _ _ _ Av R1)|]. apply (W a u2 R2). intros v Hv. apply in_or_app. right. exact Hv. }
  apply (B _ _ _ _ _ _ (pci_avoids dev) R). intros [] t1 R1 I1. clear R.
  apply (B _ _ _ _ _ _ (avoids_for _ _ _ _ (queue_avoids dev)) R1). intros [] t2 R2 I2. clear R1.
  assert (F : forall u out, runs (after_reset dev) u out -> waits dev u) by (intros u o Ru; apply waits_none; apply (avoids_runs _ _ _ _ _ (after_avoids dev) Ru)).
  assert (G : forall u o, runs (reset dev ;; after_reset dev) u o -> waits dev u /\ exists v w r, u = ERead (Mmio dev 0) v :: EWrite (Mmio dev 0) (N.lor v (BIT 26)) :: ESleep w :: r).
  { intros u o Ru. unfold reset, reg_set_field, reg_read, reg_write in Ru. cbn [bind] in Ru. apply runs_read in Ru as (v & u1 & Hv & -> & Ru).
    apply runs_write in Ru as (u2 & -> & Ru). apply runs_sleep in Ru as (u3 & -> & Ru). apply runs_sleep in Ru as (u4 & -> & Ru). split; [|do 3 eexists; reflexivity].
    apply waits_cons; [intros []|]. apply waits_cons; [|apply waits_cons; [intros []|apply waits_cons; [intros []|apply (F _ _ Ru)]]].
    intros _. left. cbn [idle]. lia. }
  unfold master_disable, reg_set_field at 1, reg_read at 1, reg_write at 1 in R2. cbn [bind] in R2.
  apply runs_read in R2 as (v & u1 & Hv & -> & R2). apply runs_write in R2 as (u2 & -> & R2).
  apply waits_cons; [intros []|]. apply waits_cons.
  { intros [_ X]. exfalso. rewrite N.lor_spec, RV in X by (apply I1, I2; left; reflexivity). discriminate X. }
  assert (I3 : forall v, In (ERead (Mmio dev 0) v) u2 -> N.testbit v 26 = false) by (intros x Hx; apply RV, I1, I2; right; right; exact Hx).
  clear RV I1 I2 t1 tr.
  apply runs_bind in R2 as [[R2 ->]|([] & u3 & u4 & R2 & R3 & ->)].
  - destruct (flush_runs _ _ _ R2) as (t0 & tl & -> & N0 & [->|[E _]]); [|discriminate E]. rewrite app_nil_r. apply waits_none. exact N0.
  - destruct (G _ _ R3) as (W & x & w & r & ->). destruct (flush_runs _ _ _ R2) as (t0 & tl & -> & N0 & [->|[_ (y & ->)]]); rewrite <- app_assoc; apply waits_app; try exact N0; [exact W|].
    cbn [app]. apply waits_cons; [intros []|]. apply waits_cons; [|apply waits_cons; [intros []|exact W]].
    intros _. right. cbn [idle next_access]. split; [lia|]. do 3 eexists. split; [reflexivity|]. split; [reflexivity|].
    rewrite N.lor_spec. apply orb_true_r.
Qed.
Print Assumptions C124_waits.
(** Both happen: a card that is ready, and a card that is busy and needs two resets. *)
Definition reset_idles (dev : N) (tr : list event) : list N :=
  (fix go tr := match tr with
   | EWrite (Mmio d 0) v :: tr' => if (d =? dev) && N.testbit v 26 then idle tr' :: go tr' else go tr'
   | _ :: tr' => go tr' | [] => [] end) tr.
Example C124_waits_ex :
  reset_idles 0 (fst (exec ready_card [] (device_init 0))) = [11 * 1000 * 1000] /\
  reset_idles 0 (fst (exec busy_card [] (device_init 0))) = [2000; 11 * 1000 * 1000] /\
  forallb (fun e => match e with ERead (Mmio 0 0) v => negb (N.testbit v 26) | _ => true end) (fst (exec busy_card [] (device_init 0))) = true.
Proof. split; [vm_compute; reflexivity|]. split; vm_compute; reflexivity. Qed.
