(** * The driver's start-up against the data sheet *)

From Coq Require Import NArith List Bool Lia Arith String.
From Verif Require Import Expr Solver Regs RegTable RegFacts RegLookup RegActions Ixgbe IxgbeFacts IxgbeSpec.
Import ListNotations.
Open Scope N_scope.

(** ** Writes to one field *)

Lemma tables_ok : Forall reg_ok (registers ++ pci_regs).
Proof.
  apply Forall_forall. intros d Hd. apply reg_okb_ok.
  assert (H : forallb reg_okb (registers ++ pci_regs) = true) by (vm_compute; reflexivity).
  rewrite forallb_forall in H. auto.
Qed.
Lemma apart_fields : forall f g, disjoint f g -> f_start f <= f_end f -> f_start g <= f_end g -> f_end f < f_start g \/ f_end g < f_start f.
Proof.
  intros f g D Hf Hg. destruct (N.lt_ge_cases (f_end f) (f_start g)) as [|A]; [auto|]. destruct (N.lt_ge_cases (f_end g) (f_start f)) as [|B]; [auto|].
  exfalso. apply (D (N.max (f_start f) (f_start g))); unfold covers; lia.
Qed.
Lemma write_ok_field : forall vw dev index d f o v, reg_ok d -> r_len d = 32 -> In f (r_fields d) -> o < 2 ^ 32 -> v < 2 ^ (f_end f + 1 - f_start f) ->
  (bits o (f_start f) (f_end f) = v \/ (can_write f /\ exists a, In a actions /\ lets vw dev index d f v a)) ->
  write_ok vw dev index d (Some o) (field_write o (BITS (f_start f) (f_end f)) v).
Proof.
  intros vw dev index d f o v (_ & Fit & D & _) L Hf Ho Hv H. rewrite Forall_forall in Fit. destruct (Fit f Hf) as (S1 & S2 & _). rewrite L in *.
  assert (HB : f_start f <= f_end f <= 31) by lia. split; [rewrite L; apply field_write_lt; assumption|]. split.
  - intros g Hg. destruct (Fit g Hg) as (G1 & G2 & _). destruct (ForallOrdPairs_In D f g Hf Hg) as [->|[Q|Q]].
    + rewrite bits_write_same by assumption. destruct H as [H|H]; [right; left; exists o; split; [reflexivity|exact H]|right; right; exact H].
    + right. left. exists o. split; [reflexivity|]. symmetry. apply bits_write_other; try assumption. apply apart_fields; assumption.
    + right. left. exists o. split; [reflexivity|]. symmetry. apply bits_write_other; try assumption.
      destruct (apart_fields g f Q); try assumption; auto.
  - intros b Hb. right. exists o. split; [reflexivity|]. rewrite testbit_field_write by assumption.
    destruct (N.leb_spec (f_start f) b), (N.leb_spec b (f_end f)); cbn [andb]; try reflexivity.
    exfalso. apply (Hb f Hf). split; assumption.
Qed.
Lemma allowed_field : forall name fname i s e d f vw dev a o v, find_reg registers name = Some d -> find_field d fname = Some f -> r_len d = 32 ->
  f_start f = s -> f_end f = e -> instance d i a -> vw (Mmio dev a) = Some o -> o < 2 ^ 32 -> v < 2 ^ (e + 1 - s) ->
  (bits o s e = v \/ (can_write f /\ exists a, In a actions /\ lets vw dev i d f v a)) ->
  allowed vw (Mmio dev a) (field_write o (BITS s e) v).
Proof.
  intros name fname i s e d f vw dev a o v Hd Hf L <- <- Hi Hl Ho Hv H. apply find_reg_in in Hd as [Hd _]. apply find_field_in in Hf as [Hf _].
  exists d, i. split; [exact Hd|]. split; [exact Hi|]. rewrite Hl. apply write_ok_field; try assumption.
  eapply Forall_forall; [exact tables_ok|]. apply in_or_app. left. exact Hd.
Qed.
Lemma allowed_pci_field : forall name fname s e d f vw dev a o v, find_reg pci_regs name = Some d -> find_field d fname = Some f -> r_len d = 32 ->
  f_start f = s -> f_end f = e -> instance d 0 a -> vw (Pci dev a) = Some o -> o < 2 ^ 32 -> v < 2 ^ (e + 1 - s) ->
  (bits o s e = v \/ (can_write f /\ exists a, In a actions /\ lets vw dev 0 d f v a)) ->
  allowed vw (Pci dev a) (field_write o (BITS s e) v).
Proof.
  intros name fname s e d f vw dev a o v Hd Hf L <- <- Hi Hl Ho Hv H. apply find_reg_in in Hd as [Hd _]. apply find_field_in in Hf as [Hf _].
  exists d. split; [exact Hd|]. split; [exact Hi|]. rewrite Hl. apply write_ok_field; try assumption.
  eapply Forall_forall; [exact tables_ok|]. apply in_or_app. right. exact Hd.
Qed.
Lemma allowed_full : forall name d i vw dev a v, find_reg registers name = Some d -> instance d i a -> write_ok vw dev i d (vw (Mmio dev a)) v ->
  allowed vw (Mmio dev a) v.
Proof. intros name d i vw dev a v Hd Hi W. apply find_reg_in in Hd as [Hd _]. exists d, i. auto. Qed.
Lemma find_act : forall name a, find (fun a => String.eqb (a_name a) name) actions = Some a -> In a actions.
Proof. intros name a H. apply find_some in H as [H _]. exact H. Qed.

(** ** What has to hold of every access *)
Definition any0 (vw : view) (e : event) : Prop := True.
Definition ok1 (vw : view) (e : event) : Prop :=
  match e with
  | ERead l _ => reachable l
  | EWrite l v => reachable l /\ allowed vw l v /\ reset_order vw l v /\ arbiter_order vw l
  | _ => True
  end.

Lemma at_reg_inv : forall name d i a, find_reg registers name = Some d -> at_reg name i a -> instance d i a.
Proof. intros name d i a H (d' & H' & I). congruence. Qed.
Lemma at_CTRL : forall i a, at_reg "CTRL" i a -> a = 0.
Proof. intros i a H. eapply at_reg_inv in H; [|reflexivity]. unfold instance in H. cbn [r_addr placed] in H. lia. Qed.
Lemma at_TXPBSIZE : forall i a, at_reg "TXPBSIZE" i a -> 0xCC00 <= a < 0xCC20.
Proof. intros i a H. eapply at_reg_inv in H; [|reflexivity]. unfold instance in H. cbn [r_addr placed] in H. lia. Qed.
Lemma at_TXPBTHRESH : forall i a, at_reg "TXPBTHRESH" i a -> 0x4950 <= a < 0x4970.
Proof. intros i a H. eapply at_reg_inv in H; [|reflexivity]. unfold instance in H. cbn [r_addr placed] in H. lia. Qed.
Lemma at_DTXMXSZRQ : forall i a, at_reg "DTXMXSZRQ" i a -> a = 0x8100.
Proof. intros i a H. eapply at_reg_inv in H; [|reflexivity]. unfold instance in H. cbn [r_addr placed] in H. lia. Qed.
Definition not_arb (a : N) : Prop := ~ (0xCC00 <= a < 0xCC20) /\ ~ (0x4950 <= a < 0x4970) /\ a <> 0x8100.
Lemma arbiter_free : forall vw dev a, not_arb a -> arbiter_order vw (Mmio dev a).
Proof.
  intros vw dev a (H1 & H2 & H3) dev' a' i [= <- <-] [H|[H|H]]; [apply at_TXPBSIZE in H|apply at_TXPBTHRESH in H|apply at_DTXMXSZRQ in H]; contradiction.
Qed.
Lemma reset_free : forall vw dev a v, a <> 0 -> reset_order vw (Mmio dev a) v.
Proof. intros vw dev a v H dev' a' [= <- <-] Hc. apply at_CTRL in Hc. contradiction. Qed.
Lemma pci_free : forall vw dev a v, reset_order vw (Pci dev a) v /\ arbiter_order vw (Pci dev a).
Proof. intros. split; [intros dev' a' [=]|intros dev' a' i [=]]. Qed.

(** ** One operation *)
Section Ops.
Variables any ok : view -> event -> Prop.
Definition same_but (w vw : view) (l : loc) : Prop := forall l', l' <> l -> w l' = vw l'.
Lemma safe_field : forall dev reg s e v vw (Q : unit -> view -> Prop), s <= e <= 31 ->
  (forall o, o < 2 ^ 32 -> any vw (ERead (Mmio dev reg) o) -> ok vw (ERead (Mmio dev reg) o) /\
     ok (upd vw (Mmio dev reg) o) (EWrite (Mmio dev reg) (field_write o (BITS s e) v)) /\
     forall w, w (Mmio dev reg) = Some (field_write o (BITS s e) v) -> same_but w vw (Mmio dev reg) -> Q tt w) ->
  safe any ok (reg_write_field dev reg (BITS s e) v) vw Q.
Proof.
  intros dev reg s e v vw Q Hs H. unfold reg_write_field, reg_read, reg_write. cbn [bind safe]. intros o Ho Ha.
  destruct (H o Ho Ha) as (H1 & H2 & H3). split; [exact H1|]. split; [exact H2|]. apply H3; [apply upd_same|].
  intros l' Hl. rewrite !upd_other by congruence. reflexivity.
Qed.
Lemma safe_clear : forall dev reg n vw (Q : unit -> view -> Prop), n <= 31 ->
  safe any ok (reg_write_field dev reg (BITS n n) 0) vw Q -> safe any ok (reg_clear_field dev reg (BIT n)) vw Q.
Proof. intros dev reg n vw Q H S. unfold reg_clear_field. rewrite BIT_BITS by exact H. exact S. Qed.
Lemma safe_set : forall dev reg n vw (Q : unit -> view -> Prop), n <= 31 ->
  safe any ok (reg_write_field dev reg (BITS n n) 1) vw Q -> safe any ok (reg_set_field dev reg (BIT n)) vw Q.
Proof.
  intros dev reg n vw Q H S. unfold reg_set_field, reg_write_field, reg_read, reg_write in *. cbn [bind safe] in *.
  intros o Ho Ha. rewrite set_is_write by assumption. exact (S o Ho Ha).
Qed.
Lemma safe_write : forall dev reg v vw (Q : unit -> view -> Prop), ok vw (EWrite (Mmio dev reg) v) ->
  (forall w, w (Mmio dev reg) = Some v -> same_but w vw (Mmio dev reg) -> Q tt w) -> safe any ok (reg_write dev reg v) vw Q.
Proof.
  intros dev reg v vw Q H1 H2. unfold reg_write. cbn [safe]. split; [exact H1|]. apply H2; [apply upd_same|].
  intros l' Hl. rewrite !upd_other by congruence. reflexivity.
Qed.
End Ops.
Lemma safe_cleared : forall (any ok : view -> event -> Prop) dev reg s e (neg : bool) vw (Q : bool -> view -> Prop), s <= e <= 31 ->
  (forall v, v < 2 ^ 32 -> any vw (ERead (Mmio dev reg) v) -> ok vw (ERead (Mmio dev reg) v) /\
     forall w, w (Mmio dev reg) = Some v -> same_but w vw (Mmio dev reg) -> Q (if neg then negb (bits v s e =? 0) else bits v s e =? 0) w) ->
  safe any ok (if neg then not_ (reg_is_field_cleared dev reg (BITS s e)) else reg_is_field_cleared dev reg (BITS s e)) vw Q.
Proof.
  intros any ok dev reg s e neg vw Q Hs H. destruct neg; unfold not_, reg_is_field_cleared, reg_read_field, reg_read; cbn [bind safe];
  intros v Hv Ha; destruct (H v Hv Ha) as (H1 & H2); (split; [exact H1|]); rewrite field_read_bits by exact Hs;
  apply H2; try apply upd_same; intros l' Hl; apply upd_other; congruence.
Qed.
(** Waiting for a field to be clear ([neg]) or not. *)
Lemma safe_wait_field : forall (any ok : view -> event -> Prop) us dev reg s e (neg : bool) vw (Q : bool -> view -> Prop), s <= e <= 31 ->
  (forall w ns, ok w (ESleep ns)) -> (forall w v, ok w (ERead (Mmio dev reg) v)) ->
  (forall v w, v < 2 ^ 32 -> w (Mmio dev reg) = Some v -> same_but w vw (Mmio dev reg) -> Q (if neg then negb (bits v s e =? 0) else bits v s e =? 0) w) ->
  safe any ok (if_after_timeout us (if neg then not_ (reg_is_field_cleared dev reg (BITS s e)) else reg_is_field_cleared dev reg (BITS s e))) vw Q.
Proof.
  intros any ok us dev reg s e neg vw Q Hs H1 H2 H3.
  destruct neg.
  - change (not_ (reg_is_field_cleared dev reg (BITS s e))) with (Read (Mmio dev reg) (fun v => Ret (negb (field_read v (BITS s e) =? 0)))).
    apply safe_wait; [exact H1|exact H2|]. intros v w Hv Hw Hl. rewrite field_read_bits by exact Hs. apply H3; assumption.
  - change (reg_is_field_cleared dev reg (BITS s e)) with (Read (Mmio dev reg) (fun v => Ret (field_read v (BITS s e) =? 0))).
    apply safe_wait; [exact H1|exact H2|]. intros v w Hv Hw Hl. rewrite field_read_bits by exact Hs.
    exact (H3 v w Hv Hw Hl).
Qed.
(** ** The stages of the start-up *)
Ltac regs := unfold REG_CTRL, REG_CTRLEXT, REG_DCARXCTRL, REG_DCATXCTRL, REG_DMATXCTL, REG_DTXMXSZRQ, REG_EEC, REG_EIMC, REG_FCCFG, REG_FCRTH,
  REG_FCTRL, REG_FTQF, REG_FWSM, REG_GCREXT, REG_HLREG0, REG_MFLCN, REG_MPSAR, REG_MTA, REG_PFUTA, REG_PFVLVF, REG_PFVLVFB, REG_RAH, REG_RAL,
  REG_RDBAH, REG_RDBAL, REG_RDLEN, REG_RDRXCTL, REG_RDT, REG_RTTDCS, REG_RTTDQSEL, REG_RTTDT1C, REG_RXCTRL, REG_RXDCTL, REG_RXPBSIZE,
  REG_SECRXCTRL, REG_SECRXSTAT, REG_SRRCTL, REG_STATUS, REG_TDBAH, REG_TDBAL, REG_TDLEN, REG_TDT, REG_TDWBAH, REG_TDWBAL, REG_TXDCTL,
  REG_TXPBSIZE, REG_TXPBTHRESH, PCIREG_COMMAND, rxq in *.
(** Case analysis on which half of the receive queues is meant. *)
Ltac halves := regs; repeat match goal with
  | |- context [if ?n <=? 63 then _ else _] => destruct (N.leb_spec n 63)
  | H : context [if ?n <=? 63 then _ else _] |- _ => destruct (N.leb_spec n 63)
  | |- context [if ?n =? 0 then _ else _] => destruct (N.eqb_spec n 0)
  end.
Lemma mod4 : forall b m n, b mod 4 = 0 -> m mod 4 = 0 -> (b + m * n) mod 4 = 0.
Proof.
  intros b m n Hb Hm. apply N.mod_divide in Hb as [x ->]; [|discriminate]. apply N.mod_divide in Hm as [y ->]; [|discriminate].
  apply N.mod_divide; [discriminate|]. exists (x + y * n). lia.
Qed.
Ltac reach := halves; unfold reachable; (split; [first [reflexivity|apply mod4; reflexivity]|lia]).
Ltac inst := halves; unfold instance; cbn [r_addr placed]; lia.
Ltac free := halves; first [apply arbiter_free; unfold not_arb; lia|apply reset_free; lia].
Ltac fld name fname i := eapply (allowed_field name fname i); [reflexivity|reflexivity|reflexivity|reflexivity|reflexivity|inst|apply upd_same|assumption|reflexivity|].
Ltac one_value := split; [reflexivity|]; split; [reflexivity|]; first [split; [discriminate|]; eexists; split; reflexivity|split; reflexivity].
Ltac act name := right; split; [split; discriminate|]; eexists; split; [apply (find_act name); reflexivity|]; split; [one_value|try exact I].
Ltac wr := split; [reach|split; [|split; [try free|try free]]].
(** Clearing a field. *)
Ltac field_op := apply safe_clear; [lia|]; apply safe_field; [lia|];
  intros ?o ?Ho _; split; [cbn [ok1]; reach|split].
Ltac nxt := eapply safe_then; [|intros [] ?w ?Hw].

Lemma seen_reg : forall name fname i d f a vw dev o, find_reg registers name = Some d -> place 0 (r_addr d) i = Some a -> find_field d fname = Some f ->
  vw (Mmio dev a) = Some o -> seen vw dev i name fname = Some (bits o (f_start f) (f_end f)).
Proof. intros name fname i d f a vw dev o H1 H2 H3 H4. unfold seen. rewrite H1, H2, H3, H4. reflexivity. Qed.
Lemma bits_clear : forall v n, (bits v n n =? 0) = negb (N.testbit v n).
Proof. intros v n. rewrite bits_one. destruct (N.testbit v n); reflexivity. Qed.

(** Every receive queue up to [n] was last seen disabled. *)
Definition off (dev n : N) (vw : view) : Prop := forall q, q < n -> exists o, vw (Mmio dev (REG_RXDCTL q)) = Some o /\ N.testbit o 25 = false.
Lemma off_other : forall dev n vw w l, off dev n vw -> same_but w vw l -> (forall q, q < n -> l <> Mmio dev (REG_RXDCTL q)) -> off dev n w.
Proof. intros dev n vw w l H S D q Hq. destruct (H q Hq) as (o & E & T). exists o. split; [|exact T]. rewrite S; [exact E|]. intros E'. exact (D q Hq (eq_sym E')). Qed.
Lemma RXDCTL_at : forall q, q < 128 -> at_reg "RXDCTL" q (REG_RXDCTL q).
Proof. intros q Hq. eexists. split; [reflexivity|]. inst. Qed.
Lemma RXDCTL_inj : forall q q', q < 128 -> q' < 128 -> REG_RXDCTL q = REG_RXDCTL q' -> q = q'.
Proof. intros q q' H H' E. halves; lia. Qed.

Ltac st := unfold pcireg_read; cbn [bind safe].
Ltac kill := match goal with |- context [when ?b Fatal] => destruct b; cbn [when]; st; [exact I|] end.
Definition stage := @safe any0 ok1 unit.
Lemma pci_stage : forall dev vw, stage (device_pci dev) vw (fun _ _ => True).
Proof.
  intros dev vw. unfold stage, device_pci, pcireg_read, pcireg_is_field_cleared, pcireg_set_field. cbn [bind safe].
  intros pci_id Hid _. split; [reflexivity|]. st.
  kill. intros pm Hpm _. split; [reflexivity|]. st.
  kill.
  assert (P : forall fname n w o, o < 2 ^ 32 -> n <= 31 -> w (Pci dev PCIREG_COMMAND) = Some o ->
    (exists f, find_field (mkReg "COMMAND" [(4, 0, 0)] 32 RW
    [mkF "IO_Access_En" 0 0 (Some 0) RW; mkF "Mem_Access_En" 1 1 (Some 0) RW; mkF "BME" 2 2 (Some 0) RW; mkF "Parity_Err" 6 6 (Some 0) RW;
     mkF "SERR_En" 8 8 (Some 0) RW; mkF "Interrupt_Dis" 10 10 (Some 1) RW]) fname = Some f /\ f_start f = n /\ f_end f = n /\ can_write f /\
     exists a, In a actions /\ lets w dev 0 (mkReg "COMMAND" [(4, 0, 0)] 32 RW
    [mkF "IO_Access_En" 0 0 (Some 0) RW; mkF "Mem_Access_En" 1 1 (Some 0) RW; mkF "BME" 2 2 (Some 0) RW; mkF "Parity_Err" 6 6 (Some 0) RW;
     mkF "SERR_En" 8 8 (Some 0) RW; mkF "Interrupt_Dis" 10 10 (Some 1) RW]) f 1 a) ->
    ok1 w (EWrite (Pci dev PCIREG_COMMAND) (N.lor o (BIT n)))).
  { intros fname n w o Ho Hn Hw (f & F1 & F2 & F3 & F4 & F5). rewrite set_is_write by assumption.
    split; [reflexivity|]. split; [|apply pci_free].
    eapply (allowed_pci_field "COMMAND" fname); [reflexivity|exact F1|reflexivity|exact F2|exact F3|inst|exact Hw|exact Ho| |right; auto].
    replace (n + 1 - n) with 1 by lia. reflexivity. }
  intros o1 Ho1 _. split; [reflexivity|]. st. split.
  { apply (P "BME"%string 2); [exact Ho1|lia|apply upd_same|]. eexists. split; [reflexivity|]. split; [reflexivity|]. split; [reflexivity|]. st.
    split; [split; discriminate|]. eexists. split; [apply (find_act "Enable Bus Master"); reflexivity|]. split; [|exact I]. vm_compute. repeat split. }
  st. intros o2 Ho2 _. split; [reflexivity|]. st. split.
  { apply (P "Mem_Access_En"%string 1); [exact Ho2|lia|apply upd_same|]. eexists. split; [reflexivity|]. split; [reflexivity|]. split; [reflexivity|]. st.
    split; [split; discriminate|]. eexists. split; [apply (find_act "Enable Memory Reads"); reflexivity|]. split; [|exact I]. vm_compute. repeat split. }
  st. intros o3 Ho3 _. split; [reflexivity|]. st. split.
  { apply (P "Interrupt_Dis"%string 10); [exact Ho3|lia|apply upd_same|]. eexists. split; [reflexivity|]. split; [reflexivity|]. split; [reflexivity|]. st.
    split; [split; discriminate|]. eexists. split; [apply (find_act "Disable Interrupts"); reflexivity|]. split; [|exact I]. vm_compute. repeat split. }
  st. intros low Hlow _. split; [reflexivity|]. st.
  kill. intros high Hhigh _. split; [reflexivity|]. split; exact I.
Qed.

Lemma disable_stage : forall dev vw, stage (for_ 0 128 (disable_queue dev)) vw (fun _ w => off dev 128 w).
Proof.
  intros dev vw. apply (safe_for any0 ok1 (off dev) 128 0); [intros q Hq; lia|]. intros n w Hn Hw. unfold disable_queue.
  assert (Hn' : n < 128) by (revert Hn; cbn; lia). clear Hn.
  eapply safe_then with (R := fun _ w' => same_but w' w (Mmio dev (REG_RXDCTL n))).
  { field_op.
    - wr. fld "RXDCTL"%string "ENABLE"%string n. act "Disable Rx Queues"%string.
    - intros w' _ S. exact S. }
  intros [] w' S. eapply safe_then with (R := fun t w'' => same_but w'' w (Mmio dev (REG_RXDCTL n)) /\
    exists o, w'' (Mmio dev (REG_RXDCTL n)) = Some o /\ t = N.testbit o 25).
  { change (BIT 25) with (BITS 25 25). apply (safe_wait_field any0 ok1 _ dev _ 25 25 true); [lia|intros; exact I|intros; cbn [ok1]; reach|].
    intros v w'' Hv Hl S'. split; [intros l Hl'; rewrite S', S by exact Hl'; reflexivity|]. exists v. split; [exact Hl|].
    rewrite bits_clear, negb_involutive. reflexivity. }
  intros t w'' (S' & o & Ho & ->). apply safe_when; [intros _; exact I|]. intros Ht q Hq.
  destruct (N.eq_dec q n) as [->|Hne]; [exists o; auto|]. destruct (Hw q) as (o' & E & T); [lia|]. exists o'. split; [|exact T].
  rewrite S'; [exact E|]. intros [= E']. apply Hne. apply RXDCTL_inj; [lia|exact Hn'|exact E'].
Qed.

Definition wrote (vw : view) (dev reg s e v : N) (w : view) : Prop :=
  exists o, o < 2 ^ 32 /\ w (Mmio dev reg) = Some (field_write o (BITS s e) v) /\ same_but w vw (Mmio dev reg).
Lemma field_step : forall dev reg s e v vw, s <= e <= 31 -> reachable (Mmio dev reg) ->
  (forall o, o < 2 ^ 32 -> let vw' := upd vw (Mmio dev reg) o in let v' := field_write o (BITS s e) v in
    allowed vw' (Mmio dev reg) v' /\ reset_order vw' (Mmio dev reg) v' /\ arbiter_order vw' (Mmio dev reg)) ->
  stage (reg_write_field dev reg (BITS s e) v) vw (fun _ w => wrote vw dev reg s e v w).
Proof.
  intros dev reg s e v vw Hs R H. apply safe_field; [exact Hs|]. intros o Ho _. split; [exact R|]. split.
  - cbn zeta in H. destruct (H o Ho) as (H1 & H2 & H3). split; [exact R|auto].
  - intros w Hw S. exists o. auto.
Qed.
Lemma write_step : forall dev reg v vw, reachable (Mmio dev reg) -> allowed vw (Mmio dev reg) v -> reset_order vw (Mmio dev reg) v ->
  arbiter_order vw (Mmio dev reg) -> stage (reg_write dev reg v) vw (fun _ w => w (Mmio dev reg) = Some v /\ same_but w vw (Mmio dev reg)).
Proof. intros dev reg v vw R H1 H2 H3. apply safe_write; [split; auto|]. intros w Hw S. auto. Qed.
Ltac to_field := unfold stage; match goal with
  | |- safe _ _ (reg_set_field _ _ _) _ _ => apply safe_set; [lia|]
  | |- safe _ _ (reg_clear_field _ _ (BIT _)) _ _ => apply safe_clear; [lia|]
  | |- safe _ _ (reg_clear_field _ _ _) _ _ => unfold reg_clear_field
  | |- _ => idtac end.
(** A whole register is written: there is an action for each of its fields. *)
Ltac full name i := eapply (allowed_full name _ i); [reflexivity|inst|].
(** One operation on a field, then the rest. *)
Ltac op tac := eapply safe_then; [to_field; apply field_step; [lia|reach|]; intros ?o ?Ho; cbn zeta; split; [tac|split; [try free|try free]]
  |intros [] ?w (?o & ?Ho & ?Hw & ?S)].
Lemma neq_reg : forall d a b, a <> b -> Mmio d a <> Mmio d b.
Proof. congruence. Qed.
Ltac away := halves; first [discriminate|apply neq_reg; lia].
Ltac other := match goal with S : same_but ?w _ _ |- ?w _ = Some _ => rewrite S by away end.
Lemma seen_pci : forall name fname i d f a vw dev o, find_reg registers name = None -> find_reg pci_regs name = Some d -> place 0 (r_addr d) i = Some a ->
  find_field d fname = Some f -> vw (Pci dev a) = Some o -> seen vw dev i name fname = Some (bits o (f_start f) (f_end f)).
Proof. intros name fname i d f a vw dev o H0 H1 H2 H3 H4. unfold seen. rewrite H0, H1, H2, H3, H4. reflexivity. Qed.
(** What was seen of a field. *)
Ltac saw name fname tac :=
  let x := eval vm_compute in (find_reg registers name) in
  match x with Some ?d => let y := eval vm_compute in (find_field d fname) in
    match y with Some ?f => erewrite (seen_reg name fname _ d f); [|reflexivity|reflexivity|reflexivity|tac]; cbn [f_start f_end] end end.
Ltac saw_pci name fname tac :=
  let x := eval vm_compute in (find_reg pci_regs name) in
  match x with Some ?d => let y := eval vm_compute in (find_field d fname) in
    match y with Some ?f => erewrite (seen_pci name fname _ d f); [|reflexivity|reflexivity|reflexivity|reflexivity|tac]; cbn [f_start f_end] end end.
(** The last value of a register, past the operations on others. *)
Ltac past := repeat first [eassumption|rewrite upd_same; reflexivity|rewrite upd_other by away|match goal with S : same_but ?w _ _ |- ?w _ = _ => rewrite S by away end].
Lemma bit_written : forall o n (b : bool), n <= 31 -> o < 2 ^ 32 -> bits (field_write o (BITS n n) (if b then 1 else 0)) n n = if b then 1 else 0.
Proof. intros o n b Hn Ho. apply bits_write_same; [lia|exact Ho|]. replace (n + 1 - n) with 1 by lia. destruct b; reflexivity. Qed.

Lemma off_upd : forall dev n vw l v, off dev n vw -> (forall q, q < n -> l <> Mmio dev (REG_RXDCTL q)) -> off dev n (upd vw l v).
Proof. intros dev n vw l v H D q Hq. destruct (H q Hq) as (o & E & T). exists o. split; [|exact T]. rewrite upd_other; auto. Qed.
Lemma reset_when_off : forall dev vw v, off dev 128 vw -> reset_order vw (Mmio dev REG_CTRL) v.
Proof.
  intros dev vw v H dev' a' [= <- <-] _ _ q Hq. destruct (H q Hq) as (o & E & T). exists (REG_RXDCTL q), o.
  split; [apply RXDCTL_at; exact Hq|]. auto.
Qed.
Ltac apart := let q := fresh in let Hq := fresh in intros q Hq; away.
Ltac keep_off H := eapply off_other; [exact H|eassumption|apart].

Lemma bits_land : forall v n, n <= 31 -> (N.land v (BIT n) =? 0) = negb (N.testbit v n).
Proof.
  intros v n H. rewrite BIT_BITS by exact H. destruct (N.testbit v n) eqn:E; cbn [negb].
  - apply N.eqb_neq. intros Z. assert (T : N.testbit (N.land v (BITS n n)) n = true) by (rewrite N.land_spec, E, testbit_BITS, N.leb_refl by lia; reflexivity).
    rewrite Z, N.bits_0 in T. discriminate.
  - apply N.eqb_eq. apply N.bits_inj. intros b. rewrite N.bits_0, N.land_spec, testbit_BITS by lia.
    destruct (N.leb_spec n b), (N.leb_spec b n); cbn [andb]; try apply andb_false_r. replace b with n by lia. rewrite E. reflexivity.
Qed.

Lemma master_stage : forall dev vw, off dev 128 vw -> stage (master_disable dev) vw (fun _ w => off dev 128 w).
Proof.
  intros dev vw H. unfold stage, master_disable.
  op ltac:(fld "CTRL"%string "PCIe Master Disable"%string 0; act "Disable PCIe Master"%string).
  { destruct (H 0) as (q0 & E & T); [lia|]. cbn [a_pre cond_sem]. saw "RXDCTL"%string "ENABLE"%string past. rewrite bits_one, T. reflexivity. }
  { apply reset_when_off. apply off_upd; [exact H|apart]. }
  assert (H1 : off dev 128 w) by keep_off H. clear dependent vw.
  eapply safe_then with (R := fun t w' => off dev 128 w' /\ exists st, w' (Mmio dev REG_STATUS) = Some st /\ t = N.testbit st 19).
  { change (BIT 19) with (BITS 19 19). apply (safe_wait_field any0 ok1 _ dev _ 19 19 true); [lia|intros; exact I|intros; cbn [ok1]; reach|].
    intros v w'' Hv Hl S'. split; [keep_off H1|]. exists v. split; [exact Hl|]. rewrite bits_clear, negb_involutive. reflexivity. }
  clear dependent w. intros late w (H1 & st & Hst & ->). apply safe_when; [intros Late|intros _; exact H1].
  unfold pcireg_is_field_cleared. st. intros ds Hds _. split; [reflexivity|].
  rewrite bits_land by lia. destruct (N.testbit ds 5) eqn:TP; cbn [negb when]; st; [exact I|].
  set (w1 := upd w (Pci dev PCIREG_DEVICESTATUS) ds).
  assert (H2 : off dev 128 w1) by (apply off_upd; [exact H1|intros q Hq; discriminate]).
  assert (V1 : w1 (Mmio dev REG_STATUS) = Some st) by (unfold w1; rewrite upd_other by discriminate; exact Hst).
  assert (V2 : w1 (Pci dev PCIREG_DEVICESTATUS) = Some ds) by apply upd_same.
  clearbody w1. clear dependent w. rename w1 into w.
  op ltac:(fld "HLREG0"%string "LPBK"%string 0; act "Inhibit data transmission I"%string).
  { cbn [a_pre cond_sem]. saw "STATUS"%string "PCIe Master Enable Status"%string past. saw_pci "DEVICE_STATUS"%string "Transaction_Pending"%string past.
    rewrite !bits_one, Late, TP. reflexivity. }
  op ltac:(fld "RXCTRL"%string "RXEN"%string 0; act "Inhibit data transmission II"%string).
  { cbn [a_pre cond_sem]. saw "STATUS"%string "PCIe Master Enable Status"%string past. saw_pci "DEVICE_STATUS"%string "Transaction_Pending"%string past.
    rewrite !bits_one, Late, TP. reflexivity. }
  op ltac:(fld "GRC_EXT"%string "Buffers_Clear_Func"%string 0; act "Flush Internal Buffers"%string).
  { cbn [a_pre cond_sem]. saw "HLREG0"%string "LPBK"%string past. saw "RXCTRL"%string "RXEN"%string past.
    rewrite (bit_written _ 15 true), (bit_written _ 0 false) by (assumption || lia). reflexivity. }
  cbn [safe bind]. split; [exact I|].
  op ltac:(fld "HLREG0"%string "LPBK"%string 0; act "Clear HLREG0.LPBK"%string).
  op ltac:(fld "GRC_EXT"%string "Buffers_Clear_Func"%string 0; act "Clear GRC_EXT.Buffers_Clear_Func"%string).
  assert (H3 : off dev 128 w4).
  { eapply off_other; [|eassumption|apart]. eapply off_other; [|eassumption|apart]. eapply off_other; [|eassumption|apart].
    eapply off_other; [|eassumption|apart]. eapply off_other; [|eassumption|apart]. exact H2. }
  op ltac:(fld "CTRL"%string "RST"%string 0; act "Initiate Software Reset"%string).
  { apply reset_when_off. apply off_upd; [exact H3|apart]. }
  cbn [safe]. split; [exact I|]. keep_off H3.
Qed.
Lemma reset_stage : forall dev vw, off dev 128 vw -> stage (reset dev) vw (fun _ _ => True).
Proof.
  intros dev vw H. unfold stage, reset.
  op ltac:(fld "CTRL"%string "RST"%string 0; act "Initiate Software Reset"%string).
  { apply reset_when_off. apply off_upd; [exact H|apart]. }
  cbn [safe]. repeat split.
Qed.
