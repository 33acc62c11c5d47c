(** Property theorems C68 to C72 and C90 to C93, C95: the device side. *)

From Coq Require Import NArith ZArith List Bool Lia Arith String.
From Verif Require Import Expr Solver Regs RegTable RegFacts RegActions RegStore RegLookup Pci.
Import ListNotations.
Open Scope N_scope.

(** ** C68 *)
(** In any sequence of port instructions: whatever reaches a device through the data port
    goes to the bus, device, function and register in the last value written to the address
    port, and a write to port 0x80 came in between. *)
Theorem C68_address_partial : forall is p es i p' e, Forall instr_ok is -> run pci_init is = Ok (p, es) -> step p i = Ok (p', Some e) ->
  exists data, last_address (rev is) = Some data /\ flushed_since (rev is) = true /\ forall r, decodes r (event_address e) (ev r data).
Proof. exact pci_addressed. Qed.
Print Assumptions C68_address_partial.
Theorem C68_rejected_partial : forall is p es, Forall instr_ok is -> run pci_init is = Ok (p, es) ->
  (flushed_since (rev is) = false -> (forall size, step p (In_ 0xCFC size) = Err) /\
     forall data size, step p (Out_ 0xCFC data size) = Err) /\
  (forall port size, port <> 0xCFC -> step p (In_ port size) = Err) /\
  (forall port data size, port <> 0xCFC -> port <> 0xCF8 -> port <> 0x80 -> step p (Out_ port data size) = Err) /\
  (forall data size, size <> 4 -> step p (Out_ 0xCF8 data size) = Err).
Proof. exact pci_rejects. Qed.
Print Assumptions C68_rejected_partial.
Definition ex_pci : list instr :=
  [Out_ 0x80 (BVV 32 0) 1; Out_ 0xCF8 (BVV 32 0x80011A10) 4; Out_ 0x80 (BVV 32 0) 1; Out_ 0xCFC (BVS 32 7) 4].
Example C68_example : Forall instr_ok ex_pci /\
  (exists p a, run pci_init ex_pci = Ok (p, [PWrite a (BvExtract 31 0 (BVS 32 7))]) /\ decodes env0 a 0x80011A10 /\
     exists p', step p (In_ 0xCFC 4) = Ok (p', Some (PRead a))) /\
  0x80011A10 / 2 ^ 16 mod 2 ^ 8 = 1 /\ 0x80011A10 / 2 ^ 11 mod 2 ^ 5 = 3 /\ 0x80011A10 / 2 ^ 8 mod 2 ^ 3 = 2 /\ 0x80011A10 mod 2 ^ 8 = 0x10.
Proof.
  split; [repeat constructor|]. split; [|repeat split].
  eexists. eexists. split; [vm_compute; reflexivity|]. split; [vm_compute; auto|]. eexists. vm_compute. reflexivity.
Qed.
(** An address without the enable bit is accepted, and a one-byte read of the data port is
    answered with the whole register. *)
Theorem C68_enable_refuted : exists p es a, run pci_init [Out_ 0xCF8 (BVV 32 0x00011A10) 4; Out_ 0x80 (BVV 32 0) 1; In_ 0xCFC 1] = Ok (p, es) /\
  es = [PRead a] /\ N.testbit 0x00011A10 31 = false /\ decodes env0 a 0x00011A10.
Proof. do 3 eexists. split; [vm_compute; reflexivity|]. split; [reflexivity|]. split; [reflexivity|]. vm_compute. auto. Qed.
Print Assumptions C68_enable_refuted.

(** ** C69 *)
Theorem C69_concrete : forall d, Forall (field_fits (r_len d)) (r_fields d) -> ForallOrdPairs disjoint (r_fields d) ->
  (forall f, In f (r_fields d) -> f_init f <> None) ->
  exists v, init_reg_con d = Some v /\ width v = r_len d /\
  forall r i, i < r_len d ->
  (forall f c, In f (r_fields d) -> covers f i -> f_init f = Some c -> bit r v i = N.testbit c (i - f_start f)) /\
  (reserved (r_fields d) i -> bit r v i = false).
Proof. exact init_con_spec. Qed.
Print Assumptions C69_concrete.
(** With fields whose initial value is not specified: right, except for the reserved bits
    just below such a field. *)
Theorem C69_symbolic_partial : forall d x, 0 < r_len d -> ascending 0 (r_len d) (r_fields d) ->
  exists v, init_reg_symb x d = Ok v /\ width v = r_len d /\
  forall r i, i < r_len d ->
  (forall f, In f (r_fields d) -> covers f i ->
     bit r v i = match f_init f with Some v => N.testbit v (i - f_start f) | None => N.testbit (ebv r x) i end) /\
  (reserved (r_fields d) i -> below_floating (r_fields d) i -> bit r v i = N.testbit (ebv r x) i) /\
  (reserved (r_fields d) i -> ~ below_floating (r_fields d) i -> bit r v i = false).
Proof. exact init_symb_spec. Qed.
Print Assumptions C69_symbolic_partial.
(** The descriptions of the device's own tables meet the hypotheses. *)
Theorem C69_tables : Forall reg_ok (registers ++ pci_regs).
Proof.
  apply Forall_forall. intros d Hd. apply reg_okb_ok.
  assert (H : forallb reg_okb (registers ++ pci_regs) = true) by (vm_compute; reflexivity). rewrite forallb_forall in H. auto.
Qed.
Print Assumptions C69_tables.
Definition reg_named (n : string) : reg := match find_reg registers n with Some d => d | None => mkReg "" [] 0 RW [] end.
Lemma reg_named_in : forall n d, find_reg registers n = Some d -> In (reg_named n) registers.
Proof. intros n d H. unfold reg_named. rewrite H. exact (proj1 (find_reg_in _ _ _ H)). Qed.
Example C69_example : init_reg_con (reg_named "STATUS") = Some (BVV 32 (2 ^ 19)) /\
  no_floating (reg_named "STATUS") = true /\ no_floating (reg_named "PFVLVF") = false /\ ascendingb 0 32 (r_fields (reg_named "PFVLVF")) = true.
Proof. vm_compute. auto. Qed.
(** Bit 20 of PFVLVF is reserved and can be one in the initial value. *)
Theorem C69_reserved_refuted : exists d x v r, In d registers /\ r_name d = "PFVLVF"%string /\ init_reg_con d = None /\
  init_reg_symb x d = Ok v /\ reserved (r_fields d) 20 /\ bit r v 20 = true.
Proof.
  exists (reg_named "PFVLVF"), 0.
  eexists. exists (mkEnv (fun _ => 2 ^ 20) (fun _ => false)). split; [eapply reg_named_in; vm_compute; reflexivity|].
  split; [vm_compute; reflexivity|]. split; [vm_compute; reflexivity|]. split; [vm_compute; reflexivity|]. split; [|vm_compute; reflexivity].
  intros f Hf. vm_compute in Hf. unfold covers.
  repeat (destruct Hf as [<-|Hf]; [cbn [f_start f_end]; lia|]). destruct Hf.
Qed.
Print Assumptions C69_reserved_refuted.

(** ** C70 *)
Theorem C70_one_field : forall m x d f index ui new, reg_ok d -> width_ok m d index -> In f (r_fields d) ->
  new < 2 ^ (f_end f + 1 - f_start f) ->
  exists m' x' old v, change_reg_field m x d f index ui new = Ok (m', x') /\
  holds_value m x d index ui old /\ dget m' (key_of d index) = Some v /\ width v = r_len d /\
  (forall r, field_value r v f = new) /\
  (forall r i, i < r_len d -> ~ covers f i -> bit r v i = bit r old i) /\
  (forall k, k <> key_of d index -> dget m' k = dget m k).
Proof.
  intros m x d f index ui new Hd Hw Hf Hn.
  destruct (change_spec m x d f index ui new Hd Hw Hf Hn) as (m' & x' & old & v & E & HV & W1 & W2 & G & B & O).
  destruct Hd as (_ & Fit & _). rewrite Forall_forall in Fit. destruct (Fit f Hf) as (S1 & S2 & _).
  exists m', x', old, v. split; [exact E|]. split; [exact HV|]. split; [exact G|]. split; [exact W2|].
  split; [intros r; exact (proj1 (changed_value r v old f new (r_len d) S1 S2 Hn (B r)))|]. split; [|exact O].
  intros r i Hi Hc. rewrite B by exact Hi. destruct ((f_start f <=? i) && (i <=? f_end f)) eqn:E'; [|reflexivity].
  apply andb_prop in E' as [A1 A2]. apply N.leb_le in A1, A2. exfalso. apply Hc. split; assumption.
Qed.
Print Assumptions C70_one_field.
Example C70_example : exists f, find_field (reg_named "SRRCTL") "BSIZEHEADER" = Some f /\ (f_start f, f_end f) = (8, 13) /\
  (exists m' x', change_reg_field [(("SRRCTL"%string, Some 5), BVV 32 0xFFFFFFFF)] 0 (reg_named "SRRCTL") f 5 true 4 = Ok (m', x') /\
     dget m' ("SRRCTL"%string, Some 5) = Some (BVV 32 0xFFFFC4FF)) /\
  exists m' x' v, change_reg_field [(("SRRCTL"%string, Some 5), BVS 32 0)] 1 (reg_named "SRRCTL") f 5 true 4 = Ok (m', x') /\
     dget m' ("SRRCTL"%string, Some 5) = Some v /\ ev (mkEnv (fun _ => 0xFFFFFFFF) (fun _ => false)) v = 0xFFFFC4FF.
Proof.
  eexists. split; [vm_compute; reflexivity|]. split; [reflexivity|]. split.
  - do 2 eexists. split; vm_compute; reflexivity.
  - do 3 eexists. split; [vm_compute; reflexivity|]. split; vm_compute; reflexivity.
Qed.

(** ** C71 *)
Theorem C71_tables : forall is_true, (forall c, is_true c = true -> forall r, eb r c = true) ->
  forall d prev new l l', In d (registers ++ pci_regs) ->
  find_fields_on_write is_true prev new d = Ok l -> check_access_write d l = Ok l' ->
  forall f, In f (r_fields d) -> f_acc f = NA \/ f_acc f = RO -> forall r, field_value r prev f = field_value r new f.
Proof.
  intros is_true Ht d prev new l l' Hd Hl Hc f Hf Ha r.
  assert (HI : forallb (fun d => iw_last (r_fields d)) (registers ++ pci_regs) = true) by (vm_compute; reflexivity).
  rewrite forallb_forall in HI.
  refine (access_spec is_true Ht d prev new l l' (HI d Hd) Hl Hc f Hf _ r). unfold not_writable. destruct Ha as [-> | ->]; reflexivity.
Qed.
Print Assumptions C71_tables.
(** claripy's test on constants, for examples. *)
Definition ex_is_true (c : bexp) : bool :=
  match c with BEq a b => negb (symbolic a) && negb (symbolic b) && eb env0 c | _ => false end.
Lemma ex_is_true_ok : forall c, ex_is_true c = true -> forall r, eb r c = true.
Proof.
  intros c H r. destruct c; try discriminate. unfold ex_is_true in H. apply andb_prop in H as [H H3]. apply andb_prop in H as [H1 H2].
  apply negb_true_iff in H1, H2. apply BEq_true in H3. apply BEq_true.
  assert (NS : forall e, symbolic e = false -> ev r e = ev env0 e).
  { intros e He. apply evalv_agree. unfold symbolic in He. destruct (vvars e) eqn:E1; [|discriminate]. destruct (vbools e) eqn:E2; [|discriminate].
    split; intros; contradiction. }
  rewrite (NS _ H1), (NS _ H2). exact H3.
Qed.
Example C71_example :
  (* LAN ID of STATUS is read-only: changing it is refused; LinkUp may change *)
  (do l <- find_fields_on_write ex_is_true (BVV 32 0) (BVV 32 4) (reg_named "STATUS") ; check_access_write (reg_named "STATUS") l) = Err /\
  (exists l, (do l <- find_fields_on_write ex_is_true (BVV 32 0) (BVV 32 128) (reg_named "STATUS") ; check_access_write (reg_named "STATUS") l) = Ok l /\ List.length l = 1%nat).
Proof. split; [vm_compute; reflexivity|]. eexists. split; vm_compute; reflexivity. Qed.
(** A write to a read-only register is accepted only if it may change a field that is not
    read-only; so a write that changes nothing, or only bits outside the fields, is refused. *)
Theorem C71_read_only_registers : forall is_true, (forall c, is_true c = true -> forall r, eb r c = true) ->
  forall d prev new l l', r_acc d = RO ->
  find_fields_on_write is_true prev new d = Ok l -> check_access_write d l = Ok l' ->
  exists f p n, In f (r_fields d) /\ f_acc f <> RO /\ f_acc f <> NA /\ In (f, p, n) l.
Proof.
  intros is_true Ht d prev new l l' Ha Hl Hc. unfold check_access_write in Hc. rewrite Ha in Hc.
  destruct l as [|[[f p] n] l]; [discriminate|]. exists f, p, n. unfold find_fields_on_write in Hl.
  destruct (find_fields_spec is_true Ht _ _ _ _ Hl) as (I1 & _).
  split; [destruct (I1 _ (or_introl eq_refl)) as (f' & Hf & E); injection E as <- _ _; exact Hf|]. cbn [check_fields] in Hc.
  split; [|split; [|left; reflexivity]]; intros E; rewrite E in Hc; discriminate.
Qed.
Print Assumptions C71_read_only_registers.
Example C71_read_only_example :
  r_acc (reg_named "STATUS") = RO /\
  (do l <- find_fields_on_write ex_is_true (BVV 32 1) (BVV 32 1) (reg_named "STATUS") ; check_access_write (reg_named "STATUS") l) = Err /\
  exists l, (do l <- find_fields_on_write ex_is_true (BVV 32 0) (BVV 32 128) (reg_named "STATUS") ; check_access_write (reg_named "STATUS") l) = Ok l.
Proof. split; [reflexivity|]. split; [vm_compute; reflexivity|]. eexists. vm_compute. reflexivity. Qed.
(** With another description: a read-only field after one that ignores writes is not
    protected. *)
Theorem C71_description_refuted : exists d prev new l l', reg_ok d /\
  find_fields_on_write ex_is_true prev new d = Ok l /\ check_access_write d l = Ok l' /\
  exists f, In f (r_fields d) /\ f_acc f = RO /\ field_value env0 prev f <> field_value env0 new f.
Proof.
  exists (mkReg "R" [(0, 0, 0)] 8 RW [mkF "ignored" 0 3 (Some 0) IW; mkF "status" 4 7 (Some 0) RO]), (BVV 8 0), (BVV 8 0xFF).
  do 2 eexists. split; [apply reg_okb_ok; vm_compute; reflexivity|]. split; [vm_compute; reflexivity|]. split; [vm_compute; reflexivity|].
  eexists. split; [right; left; reflexivity|]. split; [reflexivity|]. vm_compute. discriminate.
Qed.
Print Assumptions C71_description_refuted.

(** ** C72 *)
Theorem C72_lookup_partial : forall spec d j a, no_clash spec -> two_ranges spec -> In d spec -> instance d j a ->
  find_reg_from_addr spec a = Ok (r_name d, j).
Proof. exact lookup_instance. Qed.
Print Assumptions C72_lookup_partial.
Theorem C72_table_partial : forall d j a, In d registers -> instance d j a -> find_reg_from_addr registers a = Ok (r_name d, j).
Proof.
  intros d j a Hd Hi. assert (H : check_layout registers = true) by (vm_compute; reflexivity).
  destruct (check_layout_sound _ H) as [H1 H2]. apply lookup_instance; assumption.
Qed.
Print Assumptions C72_table_partial.
Theorem C72_pci : forall base name, get_pci_reg pci_regs base = Ok name ->
  exists d m l rs, In d pci_regs /\ r_addr d = (base, m, l) :: rs /\ m = 0 /\ r_name d = name.
Proof. exact (get_pci_spec pci_regs). Qed.
Print Assumptions C72_pci.
Example C72_example : In (reg_named "RDBAL") registers /\ instance (reg_named "RDBAL") 70 (0xD000 + 6 * 64) /\
  find_reg_from_addr registers (0xD000 + 6 * 64) = Ok ("RDBAL"%string, 70) /\ get_pci_reg pci_regs 4 = Ok "COMMAND"%string.
Proof.
  split; [eapply reg_named_in; vm_compute; reflexivity|]. split; [|split; vm_compute; reflexivity].
  unfold instance. assert (E : r_addr (reg_named "RDBAL") = [(0x1000, 64, 63); (0xD000, 64, 127)]) by (vm_compute; reflexivity).
  rewrite E. cbn [placed]. right. left. split; lia.
Qed.
(** Any other address that is accepted is taken for an instance that starts at or before it,
    less than one step of the register's ranges away: never for a later instance. *)
Theorem C72_near_partial : forall a name j, find_reg_from_addr registers a = Ok (name, j) ->
  exists d b, In d registers /\ r_name d = name /\ instance d j b /\ b <= a < b + pitch d.
Proof.
  intros a name j H. assert (L : check_layout registers = true) by (vm_compute; reflexivity).
  apply (lookup_near registers a name j (proj2 (check_layout_sound _ L))); [|exact H].
  assert (B : forallb (fun d => spaced d && (0 <? r_len d / 8)) registers = true) by (vm_compute; reflexivity).
  rewrite forallb_forall in B. apply Forall_forall. intros d Hd. specialize (B d Hd). apply andb_prop in B as [B1 B2]. apply N.ltb_lt in B2. auto.
Qed.
Print Assumptions C72_near_partial.
Example C72_near_example : find_reg_from_addr registers (0xD000 + 6 * 64 + 1) = Ok ("RDBAL"%string, 70) /\ pitch (reg_named "RDBAL") = 64.
Proof. split; vm_compute; reflexivity. Qed.
(** The second byte of RDBAH[0] is taken for RDBAL[0], and so is an address that belongs to
    no register. *)
Theorem C72_inside_refuted :
  instance (reg_named "RDBAH") 0 0x1004 /\ r_len (reg_named "RDBAH") = 32 /\
  find_reg_from_addr registers (0x1004 + 1) = Ok ("RDBAL"%string, 0) /\
  find_reg_from_addr registers 0x1024 = Ok ("RDBAL"%string, 0) /\
  (forall d j a, In d registers -> instance d j a -> ~ (a <= 0x1024 < a + r_len d / 8)).
Proof.
  split; [unfold instance; assert (E : r_addr (reg_named "RDBAH") = [(0x1004, 64, 63); (0xD004, 64, 127)]) by (vm_compute; reflexivity); rewrite E; cbn [placed]; left; split; lia|].
  split; [vm_compute; reflexivity|]. split; [vm_compute; reflexivity|]. split; [vm_compute; reflexivity|].
  intros d j a Hd Hi. unfold instance in Hi. unfold registers in Hd. cbn [In] in Hd.
  repeat (destruct Hd as [<-|Hd]; [cbn [r_addr r_len placed] in *; change (32 / 8) with 4; lia|]). destruct Hd.
Qed.
Print Assumptions C72_inside_refuted.
(** A register with three ranges: the instances of the third are not found. *)
Theorem C72_three_ranges_refuted : exists d, instance d 2 300 /\ no_clash [d] /\ find_reg_from_addr [d] 300 <> Ok (r_name d, 2).
Proof.
  exists (mkReg "R" [(100, 4, 0); (200, 4, 1); (300, 4, 2)] 32 RW []). split; [unfold instance; cbn [r_addr placed]; lia|]. split.
  - intros d1 d2 j1 j2 a [<-|[]] [<-|[]] H1 H2. split; [reflexivity|]. unfold instance in H1, H2. cbn [r_addr placed] in H1, H2. lia.
  - vm_compute. discriminate.
Qed.
Print Assumptions C72_three_ranges_refuted.

(** ** C90 *)
Lemma real_pre : forall a c, In a actions -> a_pre a = Some c -> one_bit registers pci_regs c = true.
Proof.
  assert (H : forallb (fun a => match a_pre a with Some c => one_bit registers pci_regs c | None => true end) actions = true) by (vm_compute; reflexivity).
  rewrite forallb_forall in H. intros a c Ha Hc. specialize (H a Ha). rewrite Hc in H. exact H.
Qed.
(** An accepted write: every field that does not ignore writes is unchanged, or one of the
    listed actions allows its new value, and that action's precondition holds of the
    registers, [dv1] being the registers before the write with the ones read for the first
    time filled in. *)
Theorem C90_justified : forall s, solver_ok s -> forall is_true, (forall c, is_true c = true -> forall r, eb r c = true) ->
  forall cs dv addr value dv', device_write s is_true registers pci_regs actions cs dv addr value = Ok dv' ->
  exists rg index d old dv1, find_reg_from_addr registers addr = Ok (rg, index) /\ find_reg registers rg = Some d /\
  holds_value (d_regs dv) (d_next dv) d index (d_init dv) old /\
  extends dv dv1 /\ dget (d_regs dv1) (key_of d index) = Some old /\
  (forall f, In f (r_fields d) -> f_acc f <> IW ->
     (forall r, field_value r old f = field_value r value f) \/
     exists a, In a actions /\ forall r, holds r cs ->
       justifies a d f r (BvExtract (f_end f) (f_start f) value) /\ pre_holds registers pci_regs dv1 index r a) /\
  (forall f, In f (r_fields d) -> not_writable f = true -> forall r, field_value r old f = field_value r value f).
Proof.
  intros s Hs is_true Ht cs dv addr value dv' H.
  destruct (device_write_spec s Hs is_true Ht registers pci_regs actions real_pre cs dv addr value dv' H)
    as (rg & index & d & old & dv1 & H1 & H2 & H3 & H4 & H5 & H6 & H7).
  exists rg, index, d, old, dv1. do 6 (split; [assumption|]). apply H7.
  assert (HI : forallb (fun d => iw_last (r_fields d)) (registers ++ pci_regs) = true) by (vm_compute; reflexivity).
  rewrite forallb_forall in HI. apply HI. apply in_or_app. left. exact (proj1 (find_reg_in _ _ _ H2)).
Qed.
Print Assumptions C90_justified.
Definition ex_dev : device :=
  mkDev [(("RXDCTL"%string, Some 3), BVV 32 (2 ^ 25)); (("RXDCTL"%string, Some 4), BVV 32 0)] [] 0 true 0 None [].
Definition ex_write (dv : device) (addr : N) (value : N) : res device :=
  device_write bf ex_is_true registers pci_regs actions [] dv addr (BVV 32 value).
Example C90_example : exists dv', ex_write ex_dev (0x1018 + 64 * 3) 255 = Ok dv' /\
  dget (d_regs dv') ("RDT"%string, Some 3) = Some (BVV 32 255) /\ d_log dv' = [("Bump Receive Tail Pointer"%string, 0)] /\
  ex_write ex_dev (0x1018 + 64 * 4) 255 = Err.
Proof. eexists. split; [vm_compute; reflexivity|]. vm_compute. auto. Qed.

(** ** C92 *)
(** The tail of a ring moves only if the ring of the same number is enabled. *)
Definition enabled_before (rg ctl : string) (s : solver) : Prop :=
  forall is_true, (forall c, is_true c = true -> forall r, eb r c = true) ->
  forall cs dv addr value dv' i, instance (reg_named rg) i addr ->
  device_write s is_true registers pci_regs actions cs dv addr value = Ok dv' ->
  (exists old, holds_value (d_regs dv) (d_next dv) (reg_named rg) i (d_init dv) old /\ forall r, ev r old mod 2 ^ 16 = ev r value mod 2 ^ 16) \/
  (forall v, dget (d_regs dv) (ctl, Some i) = Some v -> forall r, holds r cs -> bit r v 25 = true).
Lemma tail_rule : forall rg ctl, find_reg registers rg = Some (reg_named rg) -> r_name (reg_named rg) = rg ->
  In (mkF rg 0 15 (Some 0) RW) (r_fields (reg_named rg)) ->
  (forall a, In a actions -> match a_act a with AWrite n _ _ | ASet n _ | AClear n _ => n = rg end -> a_pre a = Some (CReg ctl "ENABLE")) ->
  find_reg registers ctl = Some (reg_named ctl) -> (forall i, key_of (reg_named ctl) i = (ctl, Some i)) ->
  find_field (reg_named ctl) "ENABLE" = Some (mkF "ENABLE" 25 25 (Some 0) RW) ->
  forall s, solver_ok s -> enabled_before rg ctl s.
Proof.
  intros rg ctl E E3 F ACT EX KX FX s Hs is_true Ht cs dv addr value dv' i Hi H.
  destruct (C90_justified s Hs is_true Ht cs dv addr value dv' H) as (rg' & index & d & old & dv1 & H1 & H2 & H3 & H4 & H5 & H6 & _).
  rewrite (C72_table_partial (reg_named rg) i addr (proj1 (find_reg_in _ _ _ E)) Hi), E3 in H1.
  assert (E1 : rg = rg') by congruence. assert (E2 : i = index) by congruence. subst i rg'.
  assert (E4 : d = reg_named rg) by congruence. subst d.
  destruct (H6 _ F) as [Q|Q]; [discriminate| |].
  - left. exists old. split; [exact H3|]. intros r. specialize (Q r). unfold field_value in Q. cbn [f_start f_end] in Q.
    change (2 ^ 0) with 1 in Q. rewrite !N.div_1_r in Q. exact Q.
  - right. destruct Q as (a & Ha & Q). intros v Hv r Hr. destruct (Q r Hr) as [J P].
    unfold justifies in J. rewrite E3 in J. specialize (ACT a Ha).
    assert (AP : a_pre a = Some (CReg ctl "ENABLE")) by (apply ACT; destruct (a_act a); apply J).
    unfold pre_holds in P. rewrite AP in P. cbn [cond_sem] in P. unfold look in P. rewrite EX, KX, (proj1 H4 _ _ Hv), FX in P.
    assert (P' : field_value r v (mkF "ENABLE" 25 25 (Some 0) RW) =? 1 = true) by congruence.
    unfold bit. rewrite N.testbit_eqb. exact P'.
Qed.
Lemma tail_actions : forall rg ctl,
  forallb (fun a => negb (String.eqb (match a_act a with AWrite n _ _ | ASet n _ | AClear n _ => n end) rg) ||
     match a_pre a with Some (CReg c e) => String.eqb c ctl && String.eqb e "ENABLE" | _ => false end) actions = true ->
  forall a, In a actions -> match a_act a with AWrite n _ _ | ASet n _ | AClear n _ => n = rg end -> a_pre a = Some (CReg ctl "ENABLE").
Proof.
  intros rg ctl H a Ha Q. rewrite forallb_forall in H. specialize (H a Ha). cbn beta in H.
  assert (E : match a_act a with AWrite n _ _ | ASet n _ | AClear n _ => n end = rg) by (destruct (a_act a); exact Q).
  rewrite E, String.eqb_refl in H. cbn [negb orb] in H. destruct (a_pre a) as [[c e| | |]|]; try discriminate.
  apply andb_prop in H as [H1 H2]. apply String.eqb_eq in H1, H2. subst. reflexivity.
Qed.
Theorem C92_receive_partial : forall s, solver_ok s -> enabled_before "RDT" "RXDCTL" s.
Proof.
  apply tail_rule; try (vm_compute; reflexivity); [vm_compute; auto|].
  apply tail_actions. vm_compute. reflexivity.
Qed.
Print Assumptions C92_receive_partial.
Theorem C92_transmit_partial : forall s, solver_ok s -> enabled_before "TDT" "TXDCTL" s.
Proof.
  apply tail_rule; try (vm_compute; reflexivity); [vm_compute; auto|].
  apply tail_actions. vm_compute. reflexivity.
Qed.
Print Assumptions C92_transmit_partial.
(** C90_example is the case for both outcomes.  Reception can be enabled while the receive
    path reports that it is not ready: the table lists this as "Set RXCTRL.RXEN" with the
    condition, and again as "Enable Receive" without it. *)
Theorem C92_receive_ready_refuted : exists dv dv', dget (d_regs dv) ("SECRXSTAT"%string, None) = Some (BVV 32 0) /\
  ex_write dv 0x3000 1 = Ok dv' /\ dget (d_regs dv') ("RXCTRL"%string, None) = Some (BVV 32 1) /\
  (exists a, In a actions /\ a_act a = ASet "RXCTRL" "RXEN" /\ a_pre a = Some (CReg "SECRXSTAT" "SECRX_RDY")).
Proof.
  exists (mkDev [(("SECRXSTAT"%string, None), BVV 32 0)] [] 0 true 0 None []). eexists.
  split; [reflexivity|]. split; [vm_compute; reflexivity|]. split; [vm_compute; reflexivity|].
  exists (mkAct "Set RXCTRL.RXEN" (Some (CReg "SECRXSTAT" "SECRX_RDY")) (ASet "RXCTRL" "RXEN") None).
  split; [|split; reflexivity]. apply nth_error_In with 63%nat. vm_compute. reflexivity.
Qed.
Print Assumptions C92_receive_ready_refuted.
(** Bus mastering can be disabled while receive queue 1 is enabled: only queue 0 is looked
    at. *)
Theorem C92_master_refuted : exists dv dv', dget (d_regs dv) ("RXDCTL"%string, Some 1) = Some (BVV 32 (2 ^ 25)) /\
  ex_write dv 0 4 = Ok dv' /\ d_log dv' = [("Disable PCIe Master"%string, 0)].
Proof.
  exists (mkDev [(("RXDCTL"%string, Some 1), BVV 32 (2 ^ 25))] [] 0 true 0 None []). eexists.
  split; [reflexivity|]. split; vm_compute; reflexivity.
Qed.
Print Assumptions C92_master_refuted.

(** ** C93 *)
Fixpoint uniqueb (l : list reg) : bool :=
  match l with [] => true | x :: l => forallb (fun y => negb (String.eqb (r_name x) (r_name y))) l && uniqueb l end.
Lemma unique_names : forall l, uniqueb l = true -> forall d d', In d l -> In d' l -> r_name d = r_name d' -> d = d'.
Proof.
  induction l as [|x l IH]; intros H d d' Hd Hd' E; [destruct Hd|]. cbn [uniqueb] in H. apply andb_prop in H as [H1 H2].
  rewrite forallb_forall in H1. assert (Q : forall y, In y l -> r_name x <> r_name y).
  { intros y Hy Q. specialize (H1 y Hy). cbn beta in H1. rewrite Q, String.eqb_refl in H1. discriminate. }
  destruct Hd as [<-|Hd], Hd' as [<-|Hd']; [reflexivity|exfalso; exact (Q _ Hd' E)|exfalso; symmetry in E; exact (Q _ Hd E)|exact (IH H2 d d' Hd Hd' E)].
Qed.
Fixpoint nodupb (l : list (string * string)) : bool :=
  match l with [] => true | x :: l => forallb (fun y => negb (String.eqb (fst x) (fst y) && String.eqb (snd x) (snd y))) l && nodupb l end.
Lemma nodupb_ok : forall l, nodupb l = true -> NoDup l.
Proof.
  induction l as [|x l IH]; intros H; [constructor|]. cbn [nodupb] in H. apply andb_prop in H as [H1 H2]. rewrite forallb_forall in H1.
  constructor; [|exact (IH H2)]. intro Q. specialize (H1 x Q). cbn beta in H1. rewrite !String.eqb_refl in H1. discriminate.
Qed.
Lemma posts_named : forall a e, In a actions -> a_post a = Some e ->
  (forall rg f v, In (rg, f, v) (settings e) -> named registers pci_regs rg f) /\ NoDup (map fst (settings e)).
Proof.
  intros a e Ha He.
  split.
  - assert (H : forallb (fun a => match a_post a with None => true | Some e => forallb (fun t => match find_reg registers (fst (fst t)) with
        | Some d => match find_field d (snd (fst t)) with Some _ => true | None => false end
        | None => match find_reg pci_regs (fst (fst t)) with Some d => match find_field d (snd (fst t)) with Some _ => true | None => false end | None => false end
        end) (settings e) end) actions = true) by (vm_compute; reflexivity).
    rewrite forallb_forall in H. specialize (H a Ha). rewrite He, forallb_forall in H. intros rg f v Hin. specialize (H _ Hin). cbn [fst snd] in H.
    unfold named. destruct (find_reg registers rg) as [d|]; [destruct (find_field d f) as [fd|] eqn:Ef; [|discriminate]; exists d, fd; auto|].
    destruct (find_reg pci_regs rg) as [d|]; [|discriminate]. destruct (find_field d f) as [fd|] eqn:Ef; [|discriminate]. exists d, fd. auto.
  - assert (H : forallb (fun a => match a_post a with None => true | Some e => nodupb (map fst (settings e)) end) actions = true) by (vm_compute; reflexivity).
    rewrite forallb_forall in H. specialize (H a Ha). rewrite He in H. apply nodupb_ok. exact H.
Qed.
(** Every postcondition of the table: the fields it lists get the listed values, everything
    else keeps its value. *)
Theorem C93_effects_partial : forall a e, In a actions -> a_post a = Some e ->
  forall dv index, widths_ok registers pci_regs dv ->
  exists dv', apply registers pci_regs dv index e = Ok dv' /\ widths_ok registers pci_regs dv' /\
  (forall rg f v r, In (rg, f, v) (settings e) -> look registers pci_regs dv' r index rg f = Some v) /\
  (forall rg f v r, ~ In (rg, f) (map fst (settings e)) -> look registers pci_regs dv r index rg f = Some v ->
     look registers pci_regs dv' r index rg f = Some v).
Proof.
  intros a e Ha He dv index Hw. destruct (posts_named a e Ha He) as [P1 P2].
  apply (apply_spec registers pci_regs C69_tables); [apply unique_names; vm_compute; reflexivity|apply unique_names; vm_compute; reflexivity|exact Hw|exact P1|exact P2].
Qed.
Print Assumptions C93_effects_partial.
(** Setting two bits of CTRL in one write matches two actions, but only the second's
    effects take place: STATUS still says that bus mastering is on. *)
Theorem C93_both_refuted : exists dv dv' v e, widths_ok registers pci_regs dv /\ ex_write dv 0 (2 ^ 2 + 2 ^ 26) = Ok dv' /\
  map fst (d_log dv') = ["Initiate Software Reset"%string; "Disable PCIe Master"%string] /\
  (exists a, In a actions /\ a_name a = "Disable PCIe Master"%string /\ a_post a = Some e /\ In ("STATUS"%string, "PCIe Master Enable Status"%string, 0) (settings e)) /\
  dget (d_regs dv') ("STATUS"%string, None) = Some v /\ forall r, bit r v 19 = true.
Proof.
  exists (mkDev [(("STATUS"%string, None), BVV 32 (2 ^ 19)); (("RXDCTL"%string, Some 0), BVV 32 0); (("EEC"%string, None), BVV 32 0); (("RDRXCTL"%string, None), BVV 32 0)] [] 0 true 0 None []). do 3 eexists.
  split.
  { split; intros d index Hd v Hv; [|discriminate Hv].
    assert (H : forallb (fun d => r_len d =? 32) registers = true) by (vm_compute; reflexivity).
    rewrite forallb_forall in H. specialize (H d Hd). apply N.eqb_eq in H. rewrite H.
    unfold dget in Hv. destruct (find _ _) as [en|] eqn:Ef; [|discriminate Hv]. apply find_some in Ef as [Ef _]. cbn [d_regs In] in Ef.
    assert (Ev : v = snd en) by congruence. rewrite Ev. destruct Ef as [<-|[<-|[<-|[<-|[]]]]]; reflexivity. }
  split; [vm_compute; reflexivity|]. split; [vm_compute; reflexivity|]. split.
  { exists (mkAct "Disable PCIe Master" (Some (CNot (CReg "RXDCTL" "ENABLE"))) (ASet "CTRL" "PCIe Master Disable")
      (Some (EAnd (EClear "STATUS" "PCIe Master Enable Status") (EClear "DEVICE_STATUS" "Transaction_Pending")))).
    split; [apply nth_error_In with 6%nat; vm_compute; reflexivity|]. split; [reflexivity|]. split; [reflexivity|]. left. reflexivity. }
  split; [vm_compute; reflexivity|]. intros r. vm_compute. reflexivity.
Qed.
Print Assumptions C93_both_refuted.

(** ** C95 *)
(** The devices a driver can produce, from one nothing was read from yet. *)
Inductive reached (s : solver) (is_true : bexp -> bool) (cs : list bexp) : device -> Prop :=
| reached_start : forall next init, reached s is_true cs (mkDev [] [] next init 0 None [])
| reached_read : forall dv addr v dv', reached s is_true cs dv -> device_read registers dv addr = Ok (v, dv') -> reached s is_true cs dv'
| reached_write : forall dv addr value dv', reached s is_true cs dv -> width value = 32 ->
    device_write s is_true registers pci_regs actions cs dv addr value = Ok dv' -> reached s is_true cs dv'.
Lemma regs_32 : forall n d, find_reg registers n = Some d -> r_len d = 32.
Proof.
  assert (H : forallb (fun d => r_len d =? 32) registers = true) by (vm_compute; reflexivity). rewrite forallb_forall in H.
  intros n d E. apply N.eqb_eq, H. apply (find_reg_in _ _ _ E).
Qed.
Lemma names_unique1 : forall d d', In d registers -> In d' registers -> r_name d = r_name d' -> d = d'.
Proof. apply unique_names. vm_compute. reflexivity. Qed.
Lemma names_unique2 : forall d d', In d pci_regs -> In d' pci_regs -> r_name d = r_name d' -> d = d'.
Proof. apply unique_names. vm_compute. reflexivity. Qed.
Lemma reached_ok : forall s is_true cs dv, reached s is_true cs dv -> widths_ok registers pci_regs dv /\ d_latest dv = None.
Proof.
  intros s is_true cs dv H. induction H as [next init|dv addr v dv' H [W L] R|dv addr value dv' H [W L] WV R].
  - split; [|reflexivity]. split; intros d i _ v Hv; discriminate Hv.
  - unfold device_read in R. apply bindr_ok in R as ([rg index] & _ & R). cbn [fst snd] in R.
    destruct (find_reg registers rg) as [d|] eqn:Ed; [|discriminate].
    apply bindr_ok in R as ([[v0 m] x] & H2 & R). cbv beta iota in R.
    assert (Q : dv' = mkDev m (d_pci dv) x (d_init dv) (d_counter dv) (d_latest dv) (d_log dv)) by congruence.
    destruct (fetch_keeps registers pci_regs C69_tables names_unique1 dv d index v0 m x (proj1 (find_reg_in _ _ _ Ed)) H2) as (_ & KW & _).
    rewrite Q. split; [exact (KW W)|exact L].
  - destruct (device_write_stores s is_true registers pci_regs actions C69_tables names_unique1 names_unique2 posts_named _ _ _ _ _ R W L)
      as (rg & index & d & new & _ & Ed & _ & LA & ST & _).
    split; [|exact LA]. apply ST. rewrite (regs_32 _ _ Ed). exact WV.
Qed.
(** After an accepted write, each field of the register has the written value, unless the
    effects that the table lists for the newest recorded action change it; those effects
    hold, and every other field and register keeps its value. *)
Theorem C95_write_takes_effect : forall s is_true cs dv addr value dv',
  reached s is_true cs dv ->
  device_write s is_true registers pci_regs actions cs dv addr value = Ok dv' -> width value = 32 ->
  exists rg index d new, find_reg_from_addr registers addr = Ok (rg, index) /\ find_reg registers rg = Some d /\
  d_log dv' = (new ++ d_log dv)%list /\
  (forall r v dv'' f fd, device_read registers dv' addr = Ok (v, dv'') -> find_field d f = Some fd ->
     ~ In (rg, f) (map fst (effects_of actions new)) -> field_value r v fd = field_value r value fd) /\
  (forall r f fd, find_field d f = Some fd -> ~ In (rg, f) (map fst (effects_of actions new)) ->
      look registers pci_regs dv' r index rg f = Some (field_value r value fd)) /\
  (forall r rg' f v, In (rg', f, v) (effects_of actions new) -> look registers pci_regs dv' r index rg' f = Some v) /\
  (forall r rg' index' f v,
     (rg' <> rg /\ index' = index /\ ~ In (rg', f) (map fst (effects_of actions new))) \/
     ((rg' <> rg \/ (is_reg_indexed d = true /\ index' <> index)) /\ ~ In rg' (touched (effects_of actions new))) ->
     look registers pci_regs dv r index' rg' f = Some v -> look registers pci_regs dv' r index' rg' f = Some v).
Proof.
  intros s is_true cs dv addr value dv' R H W. destruct (reached_ok _ _ _ _ R) as [WD LT].
  destruct (device_write_stores s is_true registers pci_regs actions C69_tables names_unique1 names_unique2 posts_named _ _ _ _ _ H WD LT)
    as (rg & index & d & new & H1 & H2 & H3 & _ & ST & OT).
  destruct ST as (_ & S1 & S2 & S3); [rewrite (regs_32 _ _ H2); exact W|].
  exists rg, index, d, new. split; [exact H1|]. split; [exact H2|]. split; [exact H3|]. split; [|split; [exact S1|split; [exact S2|]]].
  - intros r v dv'' f fd HR F NI. specialize (S1 r f fd F NI). unfold look in S1. rewrite H2 in S1.
    unfold device_read in HR. rewrite H1 in HR. cbn [bindr fst snd] in HR. rewrite H2 in HR. unfold fetch_reg in HR.
    destruct (dget (d_regs dv') (key_of d index)) as [o|]; [|discriminate]. cbn [bindr] in HR. rewrite F in S1.
    assert (o = v) by congruence. congruence.
  - intros r rg' index' f v [(A & -> & B)|[A B]] L; eauto.
Qed.
Print Assumptions C95_write_takes_effect.
(** What is known of the card says nothing about a register that was not looked at: whatever the value of what is known and whatever the
    first value of the register, both are possible at once.  [known] says that what is stored depends on no symbol that is still to be made. *)
Definition known (dv : device) : Prop := forall r r', (forall x, x < d_next dv -> ebv r x = ebv r' x) -> (forall x, ebool r x = ebool r' x) ->
  forall k e, dget (d_regs dv) k = Some e \/ dget (d_pci dv) k = Some e -> ev r e = ev r' e.
Definition from_symbol (x : N) (e : bv) : Prop := (forall y w, In (y, w) (vvars e) -> y = x) /\ vbools e = [].
Lemma from_slice : forall x e hi lo e', from_symbol x e -> slice e hi lo = Ok e' -> from_symbol x e'.
Proof. intros x e hi lo e' F H. unfold slice in H. destruct (_ && _); [|discriminate]. injection H as <-. exact F. Qed.
Lemma from_concat : forall x a b, from_symbol x a -> from_symbol x b -> from_symbol x (BvConcat a b).
Proof.
  intros x a b [A1 A2] [B1 B2]. split; cbn [vvars vbools]; [|rewrite A2, B2; reflexivity]. intros y w I. apply in_app_iff in I as [I|I]; eauto.
Qed.
Lemma from_const : forall x w v, from_symbol x (BVV w v).
Proof. intros. split; [intros ? ? []|reflexivity]. Qed.
Lemma from_constrain : forall x e st en v e', from_symbol x e -> constrain_field e st en v = Ok e' -> from_symbol x e'.
Proof.
  intros x e st en v e' F H. unfold constrain_field in H. destruct (en <? st); [discriminate|]. destruct (negb _); [discriminate|].
  destruct (st =? 0); (destruct (en =? width e - 1); [try (injection H as <-; apply from_const)|]);
  repeat match goal with
  | H : bindr (slice _ _ _) _ = Ok _ |- _ => let y := fresh "y" in let H1 := fresh in apply bindr_ok in H as (y & H1 & H); apply (from_slice x _ _ _ _ F) in H1
  end; try (injection H as <-); repeat apply from_concat; (assumption || apply from_const).
Qed.
Lemma from_init_loop : forall x fs e l e' l', from_symbol x e -> init_loop fs e l = Ok (e', l') -> from_symbol x e'.
Proof.
  induction fs as [|f fs IH]; intros e l e' l' F H; cbn [init_loop] in H; [injection H as <- <-; exact F|].
  destruct (f_init f) as [v|]; [|eapply IH; eassumption]. apply bindr_ok in H as (e1 & H1 & H). apply bindr_ok in H as (e2 & H2 & H).
  eapply IH; [|exact H]. eapply from_constrain; [|exact H2]. destruct (negb _); [eapply from_constrain; eassumption|injection H1 as <-; exact F].
Qed.
Theorem C95_first_read_free : forall dv addr v dv' rg index d, known dv -> device_read registers dv addr = Ok (v, dv') ->
  find_reg_from_addr registers addr = Ok (rg, index) -> find_reg registers rg = Some d -> dget (d_regs dv) (key_of d index) = None ->
  known dv' /\
  forall r r', exists r'', ev r'' v = ev r' v /\ forall k e, dget (d_regs dv) k = Some e \/ dget (d_pci dv) k = Some e -> ev r'' e = ev r e.
Proof.
  intros dv addr v dv' rg index d K H HA HD HN. unfold device_read in H. rewrite HA in H. cbn [bindr fst snd] in H. rewrite HD in H.
  unfold fetch_reg in H. rewrite HN in H. apply bindr_ok in H as ([[v0 m] x] & H1 & H). apply bindr_ok in H1 as (v1 & H1 & H2).
  assert (E : v1 = v0 /\ update_reg (d_regs dv) d index v1 = m /\ d_next dv + 1 = x) by (injection H2; auto). destruct E as (-> & <- & <-).
  assert (E : v0 = v /\ mkDev (update_reg (d_regs dv) d index v0) (d_pci dv) (d_next dv + 1) (d_init dv) (d_counter dv) (d_latest dv) (d_log dv) = dv') by (injection H; auto).
  destruct E as (-> & <-). clear H H2.
  assert (S0 : from_symbol (d_next dv) (BVS (r_len d) (d_next dv))) by (split; [intros y w [I|[]]; congruence|reflexivity]).
  assert (F : from_symbol (d_next dv) v).
  { destruct (d_init dv); [|injection H1 as <-; exact S0]. unfold init_reg_con in H1. destruct (init_con_loop _ _); [injection H1 as <-; apply from_const|].
    unfold init_reg_symb in H1. apply bindr_ok in H1 as ([e l] & H1 & H2). apply from_init_loop with (x := d_next dv) in H1; [|exact S0]. cbn [fst snd] in H2.
    destruct (negb _); [exact (from_constrain _ _ _ _ _ _ H1 H2)|injection H2 as <-; exact H1]. }
  assert (SAME : forall r r', ebv r (d_next dv) = ebv r' (d_next dv) -> ev r v = ev r' v).
  { intros r r' E. apply evalv_agree. destruct F as [F1 F2]. split; [intros y w I; rewrite (F1 y w I), E; reflexivity|]. rewrite F2. intros y []. }
  split.
  - intros r r' B1 B2 k e [I|I]; cbn [d_regs d_pci d_next] in *.
    + unfold update_reg in I. destruct (rkey_eqb (key_of d index) k) eqn:EK.
      * unfold dset, dget in I. cbn [find fst] in I. rewrite EK in I. injection I as <-. apply SAME, B1. lia.
      * apply (K r r') with (k := k); [intros y Y; apply B1; lia|exact B2|]. left. unfold dset, dget in I. cbn [find fst] in I. rewrite EK in I. exact I.
    + apply (K r r') with (k := k); [intros y Y; apply B1; lia|exact B2|]. right. exact I.
  - intros r r'. exists (mkEnv (fun y => if y =? d_next dv then ebv r' y else ebv r y) (ebool r)). split.
    + apply SAME. cbn [ebv]. rewrite N.eqb_refl. reflexivity.
    + intros k e I. apply K with (k := k); [|reflexivity|exact I]. intros y Y. cbn [ebv]. destruct (N.eqb_spec y (d_next dv)); [lia|reflexivity].
Qed.
Print Assumptions C95_first_read_free.
(** Reading two receive rings of a card whose registers may have any value. *)
Example C95_free_example : known (mkDev [] [] 0 false 0 None []) /\
  exists v dv v' dv', device_read registers (mkDev [] [] 0 false 0 None []) 0x1000 = Ok (v, dv) /\ device_read registers dv 0x1040 = Ok (v', dv') /\ v <> v'.
Proof. split; [intros r r' _ _ k e [H|H]; discriminate H|]. do 4 eexists. split; [vm_compute; reflexivity|]. split; [vm_compute; reflexivity|discriminate]. Qed.
(** A device whose first receive ring was given an address. *)
Definition ring_dev : device :=
  match device_write bf ex_is_true registers pci_regs actions [] (mkDev [] [] 0 true 0 None []) 0x1000 (BVV 32 0x1000) with
  | Ok dv => dv | _ => mkDev [] [] 0 true 0 None [] end.
Lemma ring_reached : reached bf ex_is_true [] ring_dev.
Proof.
  eapply reached_write with (addr := 0x1000) (value := BVV 32 0x1000); [apply reached_start with (next := 0) (init := true)|reflexivity|].
  vm_compute. reflexivity.
Qed.
(** One write that changes the register, and one with effects on another: disabling bus
    mastering clears a bit of STATUS, and STATUS keeps its other fields. *)
Example C95_example : reached bf ex_is_true [] ring_dev /\
  (exists v, device_read registers ring_dev 0x1000 = Ok (v, ring_dev) /\ ev env0 v = 0x1000) /\
  exists dv, ex_write ring_dev 0 4 = Ok dv /\ map fst (d_log dv) = ["Disable PCIe Master"%string; "Program RDBAL"%string] /\
    look registers pci_regs dv env0 0 "STATUS" "PCIe Master Enable Status" = Some 0.
Proof.
  split; [exact ring_reached|]. split; [eexists; split; vm_compute; reflexivity|].
  eexists. split; [vm_compute; reflexivity|]. split; vm_compute; reflexivity.
Qed.

(** ** C91 *)
(** The low seven bits of RDBAL[0] are ignored by the device; the written value replaces
    them all the same. *)
Theorem C91_ignored_refuted : exists dv dv' old f v, dget (d_regs dv) ("RDBAL"%string, Some 0) = Some old /\
  In f (r_fields (reg_named "RDBAL")) /\ f_acc f = IW /\
  ex_write dv 0x1000 0x7F = Ok dv' /\ dget (d_regs dv') ("RDBAL"%string, Some 0) = Some v /\
  field_value env0 old f = 0 /\ field_value env0 v f = 0x7F.
Proof.
  exists (mkDev [(("RDBAL"%string, Some 0), BVV 32 0)] [] 0 true 0 None []).
  do 2 eexists. exists (mkF "0" 0 6 (Some 0) IW). eexists. split; [vm_compute; reflexivity|].
  split; [vm_compute; auto|]. split; [reflexivity|]. split; [vm_compute; reflexivity|]. split; [vm_compute; reflexivity|]. vm_compute. auto.
Qed.
Print Assumptions C91_ignored_refuted.
(** No action of the table has an effect on a field that ignores writes. *)
Lemma effects_not_ignored : forall new rg f, In (rg, f) (map fst (effects_of actions new)) ->
  exists d fd, find_reg (registers ++ pci_regs) rg = Some d /\ find_field d f = Some fd /\ f_acc fd <> IW.
Proof.
  assert (H : forallb (fun a => match a_post a with None => true | Some e => forallb (fun t => match find_reg (registers ++ pci_regs) (fst (fst t)) with
        | Some d => match find_field d (snd (fst t)) with Some fd => negb (access_eqb (f_acc fd) IW) | None => false end
        | None => false end) (settings e) end) actions = true) by (vm_compute; reflexivity).
  rewrite forallb_forall in H. intros new rg f HI. unfold effects_of in HI. destruct new as [|[n i] new]; [destruct HI|].
  destruct (find _ actions) as [a|] eqn:Fa; [|destruct HI]. specialize (H a (proj1 (find_some _ _ Fa))). destruct (a_post a) as [e|]; [|destruct HI].
  rewrite forallb_forall in H. apply in_map_iff in HI as ([[rg' f'] v] & Q & HI). cbn [fst] in Q. specialize (H _ HI). cbn [fst snd] in H.
  assert (Q' : rg' = rg /\ f' = f) by (split; congruence). destruct Q' as [-> ->].
  destruct (find_reg (registers ++ pci_regs) rg) as [d|]; [|discriminate]. destruct (find_field d f) as [fd|] eqn:Ef; [|discriminate].
  exists d, fd. split; [reflexivity|]. split; [exact Ef|]. intros Q'. rewrite Q' in H. discriminate.
Qed.
(** A driver that writes these fields back as it found them keeps them. *)
Theorem C91_written_back_partial : forall s is_true cs dv addr value dv' rg index d r f fd old,
  reached s is_true cs dv ->
  device_write s is_true registers pci_regs actions cs dv addr value = Ok dv' -> width value = 32 ->
  find_reg_from_addr registers addr = Ok (rg, index) -> find_reg registers rg = Some d ->
  find_field d f = Some fd -> f_acc fd = IW ->
  look registers pci_regs dv r index rg f = Some old -> field_value r value fd = old ->
  look registers pci_regs dv' r index rg f = Some old.
Proof.
  intros s is_true cs dv addr value dv' rg index d r f fd old R H W H1 H2 F IWr L E.
  destruct (C95_write_takes_effect s is_true cs dv addr value dv' R H W) as (rg' & index' & d' & new & H1' & H2' & _ & _ & S & _ & _).
  assert (Q : rg' = rg /\ index' = index) by (split; congruence). destruct Q as [-> ->].
  assert (d' = d) by congruence. subst d'.
  rewrite (S r f fd F), E; [reflexivity|]. intros HI. apply effects_not_ignored in HI as (d' & fd' & Hd' & Hf' & Hn).
  assert (AP : forall a b, find_reg a rg = Some d -> find_reg (a ++ b)%list rg = Some d).
  { intros a b Q. unfold find_reg in *. induction a as [|y a IH]; [discriminate|]. cbn [find app] in *. destruct (String.eqb (r_name y) rg); auto. }
  rewrite (AP _ _ H2) in Hd'. assert (d' = d) by congruence. subst d'. congruence.
Qed.
Print Assumptions C91_written_back_partial.
Example C91_example : reached bf ex_is_true [] ring_dev /\
  exists dv', ex_write ring_dev 0x1000 0x80 = Ok dv' /\
  find_reg_from_addr registers 0x1000 = Ok ("RDBAL"%string, 0) /\
  look registers pci_regs ring_dev env0 0 "RDBAL" "0" = Some 0 /\ field_value env0 (BVV 32 0x80) (mkF "0" 0 6 (Some 0) IW) = 0 /\
  find_field (reg_named "RDBAL") "0" = Some (mkF "0" 0 6 (Some 0) IW).
Proof.
  split; [exact ring_reached|]. eexists. split; [vm_compute; reflexivity|]. split; [vm_compute; reflexivity|]. split; [vm_compute; reflexivity|].
  split; vm_compute; reflexivity.
Qed.

