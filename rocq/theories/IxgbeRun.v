(** * The stages of the driver's start-up, and the agents *)

From Coq Require Import NArith List Bool Lia Arith String.
From Verif Require Import Expr Solver Regs RegTable RegFacts RegLookup RegActions Ixgbe IxgbeFacts IxgbeSpec IxgbeInit.
Import ListNotations.
Open Scope N_scope.

(** ** Whole registers *)
Lemma unused_bits : forall d f v b, In f (r_fields d) -> f_start f = 0 -> v < 2 ^ (f_end f + 1) -> reserved (r_fields d) b -> N.testbit v b = false.
Proof.
  intros d f v b Hf S L R. eapply high_bits; [exact L|]. destruct (N.lt_ge_cases b (f_end f + 1)) as [C|C]; [|exact C].
  exfalso. apply (R f Hf). split; [rewrite S; lia|lia].
Qed.
Lemma bits_small : forall v e, v < 2 ^ (e + 1) -> bits v 0 e = v.
Proof. intros v e H. unfold bits. rewrite N.pow_0_r, N.div_1_r, N.sub_0_r. apply N.mod_small. exact H. Qed.
Ltac each_field := let f := fresh "f" in let Hf := fresh "Hf" in intros f Hf; cbn [r_fields In] in Hf; repeat (destruct Hf as [<-|Hf]; [cbn [f_start f_end f_acc]|]); [..|contradiction].
Ltac do_act name := right; right; split; [split; discriminate|]; eexists; split; [apply (find_act name); reflexivity|]; split; [|exact I].
Ltac wop tac := eapply safe_then; [apply write_step; [reach|tac|try free|try free]|intros [] ?w (?Hw & ?S)].

Lemma zero_ok : forall vw dev i d old, r_len d = 32 ->
  (forall f, In f (r_fields d) -> can_write f /\ exists a, In a actions /\ lets vw dev i d f (bits 0 (f_start f) (f_end f)) a) -> write_ok vw dev i d old 0.
Proof.
  intros vw dev i d old L H. split; [rewrite L; reflexivity|]. split; [intros f Hf; right; right; apply H; exact Hf|].
  intros b _. left. apply N.bits_0.
Qed.
Lemma one_field_ok : forall vw dev i d f old v, r_fields d = [f] -> r_len d = 32 -> f_start f = 0 -> v < 2 ^ 32 -> v < 2 ^ (f_end f + 1) ->
  can_write f -> (exists a, In a actions /\ lets vw dev i d f (bits v 0 (f_end f)) a) -> write_ok vw dev i d old v.
Proof.
  intros vw dev i d f old v F L S V1 V2 C A. split; [rewrite L; exact V1|]. split.
  - intros g Hg. rewrite F in Hg. destruct Hg as [<-|[]]. rewrite S. right. right. auto.
  - intros b Hb. left. apply (unused_bits d f); try assumption. rewrite F. left. reflexivity.
Qed.
(** Writing the only field of a register, with a value its action takes. *)
Ltac single name i name_act tac := full name i; eapply one_field_ok; [reflexivity|reflexivity|reflexivity|try reflexivity; try apply u32_lt|try reflexivity; try apply u32_lt|split; discriminate|
  eexists; split; [apply (find_act name_act); reflexivity|]; split; [tac|try exact I]].
Ltac loop := eapply safe_then; [apply (safe_for any0 ok1 (fun _ _ => True)); [exact I|]; intros n ?w Hn _; cbn in Hn|intros [] ?w _].

Lemma wait_step : forall us dev reg n vw, n <= 31 -> reachable (Mmio dev reg) ->
  safe any0 ok1 (if_after_timeout us (reg_is_field_cleared dev reg (BIT n))) vw
    (fun t w => same_but w vw (Mmio dev reg) /\ exists v, w (Mmio dev reg) = Some v /\ t = negb (N.testbit v n)).
Proof.
  intros us dev reg n vw Hn R. rewrite BIT_BITS by exact Hn. apply (safe_wait_field any0 ok1 us dev reg n n false); [lia|intros; exact I|intros; exact R|].
  intros v w Hv Hl S'. split; [exact S'|]. exists v. split; [exact Hl|]. apply bits_clear.
Qed.
Lemma test_step : forall dev reg s e vw, s <= e <= 31 -> reachable (Mmio dev reg) ->
  safe any0 ok1 (reg_is_field_cleared dev reg (BITS s e)) vw
    (fun t w => same_but w vw (Mmio dev reg) /\ exists v, w (Mmio dev reg) = Some v /\ t = (bits v s e =? 0)).
Proof.
  intros dev reg s e vw Hs R. apply (safe_cleared any0 ok1 dev reg s e false); [exact Hs|]. intros v Hv _. split; [exact R|].
  intros w Hl S'. split; [exact S'|]. exists v. auto.
Qed.
Lemma test_step_bit : forall dev reg n vw, n <= 31 -> reachable (Mmio dev reg) ->
  safe any0 ok1 (reg_is_field_cleared dev reg (BIT n)) vw
    (fun t w => same_but w vw (Mmio dev reg) /\ exists v, w (Mmio dev reg) = Some v /\ t = negb (N.testbit v n)).
Proof.
  intros dev reg n vw Hs R. rewrite BIT_BITS by exact Hs. eapply safe_mono; [|apply test_step; [lia|exact R]].
  intros t w (S' & v & Hv & ->). split; [exact S'|]. exists v. split; [exact Hv|apply bits_clear].
Qed.
Ltac wait := eapply safe_then; [apply wait_step; [lia|reach]|intros ?late ?w (?S & ?st & ?Hst & ?Hl)].
Ltac test := eapply safe_then; [first [apply test_step_bit; [lia|reach]|apply test_step; [lia|reach]]|intros ?late ?w (?S & ?st & ?Hst & ?Hl)].
Lemma stop_step : forall (b : bool) vw, safe any0 ok1 (when b Fatal) vw (fun _ w => w = vw /\ b = false).
Proof. intros [|] vw; cbn [when safe]; auto. Qed.
Ltac stop := eapply safe_then; [apply stop_step|intros [] ?w (-> & ?Hb)].

Lemma general_stage : forall dev vw, stage (init_general dev) vw (fun _ _ => True).
Proof.
  intros dev vw. unfold stage, init_general.
  wop ltac:(single "EIMC_0"%string 0 "Program EIMC_0 after global reset"%string one_value).
  loop.
  { destruct (N.eqb_spec n 1) as [->|N1].
    - apply safe_write; [|intros; exact I]. split; [reach|]. split; [single "EIMC_1"%string 0 "Program EIMC_1 after global reset"%string one_value|]. split; free.
    - assert (n = 2) as -> by lia. apply safe_write; [|intros; exact I]. split; [reach|].
      split; [single "EIMC_2"%string 0 "Program EIMC_2 after global reset"%string one_value|]. split; free. }
  op ltac:(fld "FCRTH"%string "RTH"%string 0; act "Program FCRTH"%string).
  wait. stop. test.
  eapply safe_then with (R := fun _ _ => True).
  { destruct late0; [exact I|]. eapply (safe_cleared any0 ok1 dev REG_FWSM 19 24 true); [lia|]. intros v Hv _. split; [cbn [ok1]; reach|]. intros; exact I. }
  intros bad w4 _. stop. wait. apply safe_when; intros; exact I.
Qed.

Ltac wfree := split; [reach|]; split; [|split; free].
Lemma receive_stage : forall dev vw, stage (init_receive dev) vw (fun _ _ => True).
Proof.
  intros dev vw. unfold stage, init_receive, reg_clear.
  loop. { apply safe_write; [|intros; exact I]. wfree. single "PFUTA"%string n "Program PFUTA"%string one_value. }
  loop. { apply safe_write; [|intros; exact I]. wfree. full "PFVLVF"%string n. apply zero_ok; [reflexivity|]. each_field.
    - split; [split; discriminate|]. eexists. split; [apply (find_act "Program VLAN Pool Filter VLAN_Id"); reflexivity|]. split; [one_value|exact I].
    - split; [split; discriminate|]. eexists. split; [apply (find_act "Program VLAN Pool Filter VI_En."); reflexivity|]. split; [one_value|exact I]. }
  wop ltac:(single "MPSAR"%string 0 "Program  MAC Pool Select Array"%string one_value).
  loop. { apply safe_write; [|intros; exact I]. wfree. single "MPSAR"%string n "Program  MAC Pool Select Array"%string one_value. }
  loop. { apply safe_write; [|intros; exact I]. wfree. single "PFVLVFB"%string n "Program VLAN Pool Filter Bitmap."%string one_value. }
  loop. { apply safe_write; [|intros; exact I]. wfree. single "MTA"%string n "Program Multicast Table Array."%string one_value. }
  loop. { to_field. apply safe_field; [lia|]. intros o Ho _. split; [cbn [ok1]; reach|]. split; [|intros; exact I]. wfree.
    fld "FTQF"%string "Queue Enable"%string n. act "Program FTQF"%string. }
  op ltac:(fld "RDRXCTL"%string "CRCStrip"%string 0; act "Program RDRXCTL I"%string).
  op ltac:(fld "RDRXCTL"%string "RSCFRSTSIZE"%string 0; act "Program RDRXCTL II"%string).
  op ltac:(fld "RDRXCTL"%string "RSCACKC"%string 0; act "Program RDRXCTL III"%string).
  op ltac:(fld "RDRXCTL"%string "FCOE_WRFIX"%string 0; act "Program RDRXCTL IV"%string).
  loop. { apply safe_write; [|intros; exact I]. wfree. full "RXPBSIZE"%string n. apply zero_ok; [reflexivity|]. each_field.
    split; [split; discriminate|]. eexists. split; [apply (find_act "Program RXPBSIZE"); reflexivity|]. split; [one_value|exact I]. }
  op ltac:(fld "MFLCN"%string "RFCE"%string 0; act "Program MFLCN.RFCE"%string).
  op ltac:(fld "FCCFG"%string "TFCE"%string 0; act "Program FCCFG.TFCE"%string).
  apply (safe_for any0 ok1 (fun _ _ => True)); [exact I|]. intros n w' Hn _. cbn in Hn.
  wop ltac:(single "RTTDQSEL"%string 0 "Program RTTDQSEL.TXDQ_IDX"%string one_value).
  { eapply N.lt_trans; [apply Hn|reflexivity]. }
  { cbn [f_end]. apply Hn. }
  apply safe_write; [|intros; exact I]. wfree. single "RTTDT1C"%string 0 "Program RTTDT1C.CRQ"%string one_value.
Qed.

Lemma transmit_stage : forall dev vw, stage (init_transmit dev) vw (fun _ _ => True).
Proof.
  intros dev vw. unfold stage, init_transmit, reg_clear.
  op ltac:(fld "RTTDCS"%string "ARBDIS"%string 0; act "Set RTTDCS.ARBDIS"%string).
  assert (A : forall w', w' (Mmio dev REG_RTTDCS) = Some (field_write o (BITS 6 6) 1) -> forall a, arbiter_order w' (Mmio dev a)).
  { intros w' E a dev' a' i [= <- <-] _. exists REG_RTTDCS, (field_write o (BITS 6 6) 1). split; [eexists; split; [reflexivity|inst]|]. split; [exact E|].
    rewrite testbit_field_write by (assumption || lia || reflexivity). reflexivity. }
  eapply safe_then with (R := fun _ w' => w' (Mmio dev REG_RTTDCS) = Some (field_write o (BITS 6 6) 1)).
  { apply (safe_for any0 ok1 (fun _ w' => w' (Mmio dev REG_RTTDCS) = Some (field_write o (BITS 6 6) 1))); [exact Hw|]. intros n w' Hn E. cbn in Hn.
    apply safe_write; [|intros w'' _ S'; rewrite S' by away; exact E]. split; [reach|]. split; [|split; [free|apply A; exact E]].
    full "TXPBSIZE"%string n. apply zero_ok; [reflexivity|]. each_field.
    split; [split; discriminate|]. eexists. split; [apply (find_act "Program TXPBSIZE"); reflexivity|]. split; [one_value|exact I]. }
  intros [] w' E.
  op ltac:(fld "TXPBTHRESH"%string "THRESH"%string 0; act "Program TXPBTHRESH"%string); [apply A; rewrite upd_other by away; exact E|].
  op ltac:(fld "DTXMXSZRQ"%string "Max_bytes_num_req"%string 0; act "Program DTXMXSZRQ"%string); [apply A; rewrite upd_other by away; past|].
  to_field. apply safe_field; [lia|]. intros o2 Ho2 _. split; [cbn [ok1]; reach|]. split; [|intros; exact I]. wfree.
  fld "RTTDCS"%string "ARBDIS"%string 0. act "Clear RTTDCS.ARBDIS"%string.
Qed.

Lemma promiscuous_stage : forall dev vw, stage (set_promiscuous dev) vw (fun _ _ => True).
Proof.
  intros dev vw. unfold stage, set_promiscuous.
  eapply safe_then with (R := fun t w => exists v, w (Mmio dev REG_RXCTRL) = Some v /\ t = N.testbit v 0).
  { apply (safe_cleared any0 ok1 dev REG_RXCTRL 0 0 true); [lia|]. intros v Hv _. split; [cbn [ok1]; reach|].
    intros w Hw _. exists v. split; [exact Hw|]. rewrite bits_clear, negb_involutive. reflexivity. }
  intros was w (v & Hv & ->).
  eapply safe_then with (R := fun _ w' => exists v', w' (Mmio dev REG_RXCTRL) = Some v' /\ N.testbit v' 0 = false).
  { apply safe_when.
    - intros T. to_field. apply safe_field; [lia|]. intros o Ho _. split; [cbn [ok1]; reach|]. split.
      + wfree. destruct (N.testbit o 0) eqn:To.
        * fld "RXCTRL"%string "RXEN"%string 0. act "Disable Receive"%string. cbn [a_pre cond_sem]. saw "RXCTRL"%string "RXEN"%string past.
          rewrite bits_one, To. reflexivity.
        * fld "RXCTRL"%string "RXEN"%string 0. left. rewrite bits_one, To. reflexivity.
      + intros w' Hw' _. exists (field_write o (BITS 0 0) 0). split; [exact Hw'|]. rewrite testbit_field_write by (assumption || lia || reflexivity). reflexivity.
    - intros T. exists v. auto. }
  intros [] w' (v' & Hv' & T').
  op ltac:(fld "FCTRL"%string "UPE"%string 0; act "Set Unicast Filtering"%string).
  { cbn [a_pre cond_sem]. saw "RXCTRL"%string "RXEN"%string past. rewrite bits_one, T'. reflexivity. }
  op ltac:(fld "FCTRL"%string "MPE"%string 0; act "Set Multicast Filtering"%string).
  { cbn [a_pre cond_sem]. saw "RXCTRL"%string "RXEN"%string past. rewrite bits_one, T'. reflexivity. }
  apply safe_when; [|intros _; exact I]. intros T. to_field. apply safe_field; [lia|]. intros o1 Ho1 _. split; [cbn [ok1]; reach|]. split; [|intros; exact I].
  wfree. destruct (N.testbit o1 0) eqn:To.
  - fld "RXCTRL"%string "RXEN"%string 0. left. rewrite bits_one, To. reflexivity.
  - fld "RXCTRL"%string "RXEN"%string 0. act "Enable Receive"%string. cbn [a_pre cond_sem]. saw "RXCTRL"%string "RXEN"%string past.
    rewrite bits_one, To. reflexivity.
Qed.

Lemma device_stage : forall dev vw, stage (device_init dev) vw (fun _ _ => True).
Proof.
  intros dev vw. unfold stage, device_init, after_reset.
  eapply safe_then; [apply pci_stage|]. intros [] w0 _. eapply safe_then; [apply disable_stage|]. intros [] w1 H1.
  eapply safe_then; [apply master_stage; exact H1|]. intros [] w2 H2. eapply safe_then; [apply reset_stage; exact H2|]. intros [] w3 _.
  eapply safe_then; [apply general_stage|]. intros [] w4 _. eapply safe_then; [apply receive_stage|]. intros [] w5 _. apply transmit_stage.
Qed.

(** ** Agents *)
Lemma low_bits : forall v n b, v mod 2 ^ n = 0 -> b < n -> N.testbit v b = false.
Proof. intros v n b H Hb. rewrite <- (N.mod_pow2_bits_low v n b) by exact Hb. rewrite H. apply N.bits_0. Qed.
Lemma bits_low0 : forall v s e k, s <= e -> (forall b, b < k -> N.testbit v (s + b) = false) -> bits v s e mod 2 ^ k = 0.
Proof.
  intros v s e k Hs H. apply N.bits_inj. intros b. rewrite N.bits_0. destruct (N.lt_ge_cases b k) as [C|C].
  - rewrite N.mod_pow2_bits_low by exact C. rewrite testbit_bits, (N.add_comm b s), H by exact C. apply andb_false_r.
  - apply N.mod_pow2_bits_high. exact C.
Qed.
(** The two registers for the low half of an address: 7 bits that ignore writes, and the rest. *)
Lemma base_ok : forall vw dev i d name old v, r_fields d = [mkF "0" 0 6 (Some 0) IW; mkF name 7 31 None RW] -> r_len d = 32 -> v < 2 ^ 32 ->
  (exists a, In a actions /\ lets vw dev i d (mkF name 7 31 None RW) (bits v 7 31) a) -> write_ok vw dev i d old v.
Proof.
  intros vw dev i d name old v F L V A. split; [rewrite L; exact V|]. split.
  - intros f Hf. rewrite F in Hf. destruct Hf as [<-|[<-|[]]]; [left; reflexivity|]. right. right. split; [split; discriminate|exact A].
  - intros b Hr. left. destruct (N.lt_ge_cases b 32) as [C|C]; [exfalso|eapply high_bits; [exact V|exact C]]. rewrite F in Hr.
    destruct (N.lt_ge_cases b 7) as [C'|C'].
    + apply (Hr (mkF "0" 0 6 (Some 0) IW)); [left; reflexivity|]. unfold covers. cbn [f_start f_end]. lia.
    + apply (Hr (mkF name 7 31 None RW)); [right; left; reflexivity|]. unfold covers. cbn [f_start f_end]. lia.
Qed.
Ltac base name i name_act := full name i; eapply base_ok; [reflexivity|reflexivity|apply u32_lt|eexists; split; [apply (find_act name_act); reflexivity|]; split; [one_value|exact I]].
Lemma head_bit : forall h b, h mod 16 = 0 -> b < 4 -> N.testbit (u32 h) b = false.
Proof. intros h b H Hb. rewrite testbit_u32, (low_bits h 4 b H Hb). apply andb_false_r. Qed.
Lemma aligned_value : forall w x, 2 <= w -> x < 2 ^ w -> x mod 4 = 0 -> exists e, v_aligned4 (BVV w x) = Ok e /\ eb env0 e = true.
Proof.
  intros w x Hw Hx H. unfold v_aligned4, slice. cbn [width]. rewrite (proj2 (N.ltb_lt 1 w)) by lia. cbn [N.leb N.compare andb].
  eexists. split; [reflexivity|]. unfold eb. cbn [evalb evalv]. unfold wrap. rewrite (N.mod_small x) by exact Hx.
  change (2 ^ 0) with 1. rewrite N.div_1_r. change (2 ^ (1 + 1 - 0)) with 4. rewrite H. reflexivity.
Qed.
Lemma head_ok : forall vw dev q old h, h mod 16 = 0 -> q < 128 -> forall d, find_reg registers "TDWBAL" = Some d -> write_ok vw dev q d old (N.lor (u32 h) 1).
Proof.
  intros vw dev q old h H Hq d Hd. injection Hd as <-.
  assert (T : forall b, N.testbit (N.lor (u32 h) 1) b = (b =? 0) || N.testbit (u32 h) b).
  { intros b. rewrite N.lor_spec, orb_comm. f_equal. }
  assert (L : N.lor (u32 h) 1 < 2 ^ 32).
  { destruct (N.eq_dec (N.lor (u32 h) 1) 0) as [->|Hz]; [reflexivity|]. apply N.log2_lt_pow2; [lia|]. assert (B := N.bit_log2 _ Hz). rewrite T, testbit_u32 in B.
    destruct (N.eqb_spec (N.log2 (N.lor (u32 h) 1)) 0) as [->|]; [lia|]. cbn [orb] in B. apply andb_prop in B as [B _]. apply N.ltb_lt in B. exact B. }
  split; [exact L|]. split.
  - each_field.
    + do_act "Set Head Write-Back Enable"%string. rewrite bits_one, T. cbn [N.eqb orb]. one_value.
    + do_act "Program TDWBAL"%string. split; [reflexivity|]. split; [reflexivity|]. split; [discriminate|]. apply aligned_value; [discriminate|apply bits_lt|].
      apply (bits_low0 _ 2 31 2); [discriminate|]. intros b Hb. rewrite T, head_bit by (assumption || lia). destruct (N.eqb_spec (2 + b) 0); [lia|reflexivity].
  - intros b Hr. left. rewrite T. destruct (N.eqb_spec b 0) as [->|Hb0].
    + exfalso. apply (Hr (mkF "Head_WB_En" 0 0 (Some 0) RW)); [left; reflexivity|]. unfold covers. cbn [f_start f_end]. lia.
    + cbn [orb]. destruct (N.lt_ge_cases b 4) as [C|C]; [apply head_bit; assumption|].
      destruct (N.lt_ge_cases b 32) as [C'|C']; [exfalso|eapply high_bits; [apply u32_lt|exact C']].
      apply (Hr (mkF "HeadWB_Low" 2 31 (Some 0) RW)); [right; left; reflexivity|]. unfold covers. cbn [f_start f_end]. lia.
Qed.
Lemma output_stage : forall ag dev d i q vw, safe any0 ok1 (add_output ag dev d i q) vw (fun _ _ => True).
Proof.
  intros ag dev d i q vw. unfold add_output.
  stop. stop. apply N.leb_gt in Hb0. rename Hb0 into Hq.
  test. stop. cbn [safe]. intros buf Hbuf _. split; [exact I|]. cbn [safe]. intros ring Hring _. split; [exact I|].
  wop ltac:(single "TDBAH"%string q "Program TDBAH"%string one_value).
  wop ltac:(base "TDBAL"%string q "Program TDBAL"%string).
  wop ltac:(single "TDLEN"%string q "Program TDLEN"%string one_value).
  op ltac:(fld "TXDCTL"%string "PTHRESH"%string q; act "Program PTHRESH"%string).
  op ltac:(fld "TXDCTL"%string "HTHRESH"%string q; act "Program HTHRESH"%string).
  cbn [safe]. intros head Hhead _. split; [exact I|]. stop.
  assert (A : head mod 16 = 0) by (match goal with H : negb (head mod 16 =? 0) = false |- _ => apply negb_false_iff, N.eqb_eq in H; exact H end).
  wop ltac:(single "TDWBAH"%string q "Program TDWBAH"%string one_value).
  wop ltac:(full "TDWBAL"%string q; apply head_ok; [exact A|exact Hq|reflexivity]).
  op ltac:(fld "DCA_TXCTRL"%string "TXdescWBROen"%string q; act "Disable relaxed ordering of head pointer"%string).
  eapply safe_then with (R := fun _ _ => True).
  { apply safe_when; [|intros _; exact I]. intros _. to_field. apply safe_field; [lia|]. intros ov Hov _. split; [cbn [ok1]; reach|]. split; [|intros; exact I]. wfree.
    fld "DMATXCTL"%string "TE"%string 0. act "Enable transmit path"%string. }
  intros [] w8 _.
  op ltac:(fld "TXDCTL"%string "ENABLE"%string q; act "Enable transmit queue"%string).
  wait. stop. exact I.
Qed.
Lemma input_stage : forall ag dev d vw, safe any0 ok1 (set_input ag dev d) vw (fun _ _ => True).
Proof.
  intros ag dev d vw. unfold set_input.
  stop. stop. test. stop. cbn [safe]. intros ring Hring _. split; [exact I|].
  wop ltac:(single "RDBAH"%string 0 "Program RDBAH"%string one_value).
  wop ltac:(base "RDBAL"%string 0 "Program RDBAL"%string).
  wop ltac:(single "RDLEN"%string 0 "Program RDLEN"%string one_value).
  op ltac:(fld "SRRCTL"%string "BSIZEPACKET"%string 0; act "Program Receive Buffer Size for Packet Buffer."%string).
  op ltac:(fld "SRRCTL"%string "Drop_En"%string 0; act "Enable Drop"%string).
  op ltac:(fld "RXDCTL"%string "ENABLE"%string 0; act "Enable Receive Queue Enable"%string).
  wait. stop.
  wop ltac:(single "RDT"%string 0 "Bump Receive Tail Pointer"%string one_value).
  { cbn [a_pre cond_sem]. saw "RXDCTL"%string "ENABLE"%string past. rewrite bits_one. destruct (N.testbit st0 25); [reflexivity|cbn in Hl0; congruence]. }
  eapply safe_then with (R := fun _ _ => True).
  { apply safe_when; [|intros _; exact I]. intros _.
    op ltac:(fld "SECRXCTRL"%string "RX_DIS"%string 0; act "Halt the receive data path"%string).
    wait. stop.
    op ltac:(fld "RXCTRL"%string "RXEN"%string 0; act "Set RXCTRL.RXEN"%string).
    { cbn [a_pre cond_sem]. saw "SECRXSTAT"%string "SECRX_RDY"%string past. rewrite bits_one. destruct (N.testbit st1 0); [reflexivity|cbn in Hl1; congruence]. }
    op ltac:(fld "SECRXCTRL"%string "RX_DIS"%string 0; act "Enable the receive data path"%string).
    { cbn [a_pre cond_sem]. saw "RXCTRL"%string "RXEN"%string past. rewrite (bit_written _ 0 true) by (assumption || lia). reflexivity. }
    to_field. apply safe_field; [lia|]. intros ov Hov _. split; [cbn [ok1]; reach|]. split; [|intros; exact I]. wfree.
    fld "CTRL_EXT"%string "NS_DIS"%string 0. act "Set No Snoop Disable"%string. }
  intros [] w' _. op ltac:(fld "DCA_RXCTRL"%string "Special_Reserved"%string 0; act "Clear bit 12 of DCA_RXCTRL"%string). exact I.
Qed.
Lemma outputs_stage : forall count ag ds input outputs n vw, safe any0 ok1 (add_outputs ag ds input outputs n count) vw (fun _ _ => True).
Proof.
  induction count as [|c IH]; intros ag ds input outputs n vw; cbn [add_outputs]; [exact I|]. destruct (_ =? _); [apply IH|].
  eapply safe_then; [apply output_stage|]. intros r w _. apply IH.
Qed.
Lemma agent_stage : forall input ds tail vw, safe any0 ok1 (agent_init input ds tail) vw (fun _ _ => True).
Proof.
  intros input ds tail vw. unfold agent_init. stop. stop. stop.
  eapply safe_then; [apply outputs_stage|]. intros r w _. eapply safe_then; [apply input_stage|]. intros r' w' _. exact I.
Qed.
