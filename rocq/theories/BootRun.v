(** * Running boot.asm, for every processor, layout and initial state *)

From Coq Require Import NArith List Bool Lia Arith.
From Verif Require Import Boot BootFacts.
Import ListNotations.
Open Scope N_scope.

(** ** What is assumed *)
(** Registers have 32 bits; only leaf 7, of those used, looks at the subleaf. *)
Record cpu_ok (c : cpu) : Prop := mkCpuOk {
  co_eax : forall l s, a_eax (info c l s) < 2 ^ 32; co_ebx : forall l s, a_ebx (info c l s) < 2 ^ 32;
  co_ecx : forall l s, a_ecx (info c l s) < 2 ^ 32; co_edx : forall l s, a_edx (info c l s) < 2 ^ 32;
  co_sub : forall l s, In l [0; 1; 0x80000000; 0x80000001; 0x80000007] -> info c l s = info c l 0 }.
(** linker.ld 40-47 and the alignments in boot.asm; boot.asm 43-46: the image is in the lowest 4 GiB. *)
Record layout_ok (L : layout) : Prop := mkLayoutOk {
  lo_bss : bss L mod 16 = 0; lo_data : data L mod 4096 = 0;
  lo_bss_end : bss L + 2 ^ 20 < 2 ^ 32; lo_data_end : data L + 8192 <= 2 ^ 32; lo_rodata_end : rodata L + 26 <= 2 ^ 32;
  lo_bss_data : bss L + 2 ^ 20 <= data L \/ data L + 8192 <= bss L; lo_bss_rodata : bss L + 2 ^ 20 <= rodata L \/ rodata L + 26 <= bss L;
  lo_data_rodata : data L + 8192 <= rodata L \/ rodata L + 26 <= data L;
  lo_code : forall i, code_at L i < 2 ^ 32 }.
(** boot.asm 43-55, with registers of their sizes.  CR4.LA57 is not in the comment there. *)
Record grub (L : layout) (s : state) : Prop := mkGrub {
  gr_pe : N.testbit (cr0 s) 0 = true; gr_pg : N.testbit (cr0 s) 31 = false; gr_cr0 : cr0 s < 2 ^ 32; gr_cr4 : cr4 s < 2 ^ 32;
  gr_efer : efer s < 2 ^ 64; gr_lma : N.testbit (efer s) 10 = false; gr_xcr0 : xcr0 s < 2 ^ 64; gr_d : N.testbit (cs s) 54 = true; gr_l : N.testbit (cs s) 53 = false;
  gr_flags : eflags s < 2 ^ 32; gr_vm : N.testbit (eflags s) 17 = false; gr_if : N.testbit (eflags s) 9 = false;
  gr_bytes : forall x, mem s x < 256;
  gr_quads : forall a n v k, In (a, n, v) (data_quads L ++ rodata_quads L) -> k < n -> peek (mem s) (a + 8 * k) 8 = v;
  gr_word : peek (mem s) (fst (rodata_word L)) 2 = snd (rodata_word L) }.

(** ** Steps *)
#[global] Arguments N.lor : simpl never.
#[global] Arguments N.land : simpl never.
#[global] Arguments N.ldiff : simpl never.
#[global] Arguments N.lxor : simpl never.
#[global] Arguments N.testbit : simpl never.
#[global] Arguments N.modulo : simpl never.
#[global] Arguments N.div : simpl never.
#[global] Arguments N.pow : simpl never.
#[global] Arguments N.add : simpl never.
#[global] Arguments N.sub : simpl never.
#[global] Arguments N.mul : simpl never.
#[global] Arguments N.eqb : simpl never.
#[global] Arguments N.ltb : simpl never.
#[global] Arguments N.leb : simpl never.
#[global] Arguments peek : simpl never.
#[global] Arguments poke : simpl never.
#[global] Arguments w32 : simpl never.

Lemma run_next : forall n c L i s bits ins s', nth_error (boot L) i = Some (bits, ins) -> fetched s (code_at L i) = true -> width s = bits ->
  step c s ins = Next s' -> run (S n) c L i s = run n c L (S i) s'.
Proof. intros n c L i s bits ins s' E F W S. cbn [run]. rewrite E, F, W, N.eqb_refl, S. reflexivity. Qed.
Lemma run_halt : forall n c L s, layout_ok L -> flat s -> width s = 32 -> run (S (S n)) c L 62 s = OHalts s.
Proof.
  intros n c L s LO F W. erewrite run_next; [|reflexivity|apply flat_fetched; [exact F|apply (lo_code L LO)]|exact W|reflexivity].
  cbn [run]. rewrite flat_fetched by (try exact F; apply (lo_code L LO)). change (nth_error (boot L) 63) with (Some (32, IHlt)). cbn [negb]. rewrite W. reflexivity.
Qed.
Lemma run_jcc : forall n c L i s k, layout_ok L -> flat s -> width s = 32 -> nth_error (boot L) i = Some (32, IJcc k Unsupported) ->
  run (S (S (S n))) c L i s = if holds s k then OHalts s else run (S (S n)) c L (S i) s.
Proof.
  intros n c L i s k LO F W E. destruct (holds s k) eqn:H.
  - cbn [run]. rewrite E, flat_fetched by (try exact F; apply (lo_code L LO)). cbn [negb]. rewrite W, N.eqb_refl. cbn [negb step]. rewrite H.
    change (find_label Unsupported (boot L) 0) with (Some 62%nat). cbv iota. exact (run_halt n c L s LO F W).
  - eapply run_next; [exact E|apply flat_fetched; [exact F|apply (lo_code L LO)]|exact W|]. cbn [step]. rewrite H. reflexivity.
Qed.

(** Everything that is not a general register, the flags or memory. *)
Definition same_control (s s' : state) : Prop :=
  cr0 s' = cr0 s /\ cr3 s' = cr3 s /\ cr4 s' = cr4 s /\ efer s' = efer s /\ xcr0 s' = xcr0 s /\ cs s' = cs s /\ ss s' = ss s /\ ds s' = ds s /\ es s' = es s /\ fs s' = fs s /\ gs s' = gs s /\ gdtr s' = gdtr s /\ idtr s' = idtr s.
Lemma same_width : forall s s', same_control s s' -> width s' = width s.
Proof. intros s s' (C0 & C3 & C4 & E & _ & C & _). unfold width, long. rewrite E, C. reflexivity. Qed.
Lemma same_paging : forall s s', same_control s s' -> paging s' = paging s.
Proof. intros s s' (C0 & _). unfold paging. rewrite C0. reflexivity. Qed.

(** *** The flags *)
Lemma flags_value : forall c s cf zf j, eflags (flags c s cf zf j) =
  N.lor (N.ldiff (eflags s) 0x8D5) (N.lor (N.land (junk c (eflags s) j) 0x894) ((if cf then 1 else 0) + (if zf then 64 else 0))).
Proof. reflexivity. Qed.
Lemma flags_bit : forall c s cf zf j, zero (flags c s cf zf j) = zf /\ carry (flags c s cf zf j) = cf /\ N.testbit (eflags (flags c s cf zf j)) 9 = N.testbit (eflags s) 9.
Proof.
  intros c s cf zf j. unfold zero, carry. rewrite flags_value. rewrite !N.lor_spec, !N.land_spec, !N.ldiff_spec.
  change (N.testbit 0x8D5 6) with true. change (N.testbit 0x8D5 0) with true. change (N.testbit 0x8D5 9) with false. change (N.testbit 0x894 6) with false. change (N.testbit 0x894 0) with false. change (N.testbit 0x894 9) with false.
  cbn [negb]. rewrite !andb_false_r, andb_true_r. cbn [orb]. destruct cf, zf; cbn [N.add]; (split; [reflexivity|split; [reflexivity|]]); destruct (N.testbit (eflags s) 9); reflexivity.
Qed.
Lemma flags_lt : forall c s cf zf j, eflags s < 2 ^ 32 -> eflags (flags c s cf zf j) < 2 ^ 32.
Proof.
  intros c s cf zf j H. rewrite flags_value. repeat apply lor_lt; [apply ldiff_lt; exact H|apply land_lt_r; reflexivity|destruct cf, zf; reflexivity].
Qed.
Lemma holds_flags : forall c s cf zf j k, holds (flags c s cf zf j) k = match k with Z => zf | NZ => negb zf | BE => cf || zf | B => cf | NC => negb cf end.
Proof. intros c s cf zf j k. destruct (flags_bit c s cf zf j) as (Hz & Hc & _). unfold holds. rewrite Hz, Hc. reflexivity. Qed.

(** *** 89-153: whether there is CPUID *)
Lemma sub_bits : forall a b n, N.land a b = a -> N.testbit a n = true -> N.testbit b n = true.
Proof. intros a b n E T. rewrite <- E, N.land_spec in T. apply andb_true_iff in T as [_ T]. exact T. Qed.
Lemma dis_bits : forall a b n, N.land a b = 0 -> N.testbit a n = true -> N.testbit b n = false.
Proof. intros a b n E T. assert (X : N.testbit (N.land a b) n = false) by (rewrite E; apply N.bits_0). rewrite N.land_spec, T in X. exact X. Qed.
Lemma id_flag : forall c f (cf zf : bool),
  let f1 := fun j => N.lor (N.ldiff f 0x8D5) (N.lor (N.land j 0x894) ((if cf then 1 else 0) + (if zf then 64 else 0))) in
  forall j, (pushf (popf c (f1 j) (N.lxor (pushf f) (2 ^ 21))) =? pushf f) = negb (has_cpuid c) /\
  N.testbit (popf c (f1 j) (N.lxor (pushf f) (2 ^ 21))) 9 = N.testbit f 9.
Proof.
  intros c f cf zf f1 j. split.
  - unfold pushf, popf, popf_mask. destruct (has_cpuid c); cbn [negb].
    + apply N.eqb_neq. intros E. apply (f_equal (fun x => N.testbit x 21)) in E. rewrite !N.ldiff_spec, N.lor_spec, N.land_spec, N.lxor_spec, N.ldiff_spec, N.pow2_bits_true in E.
      rewrite N.ldiff_spec, N.lor_spec in E. change (N.testbit 0x30000 21) with false in E. change (N.testbit 0x247FD5 21) with true in E.
      cbn [negb orb andb] in E. rewrite !andb_true_r, !andb_false_r, orb_false_r in E. destruct (N.testbit f 21); discriminate E.
    + apply N.eqb_eq. apply N.bits_inj. intros n. unfold f1. rewrite !N.ldiff_spec, !N.lor_spec, !N.land_spec, !N.lxor_spec, !N.ldiff_spec, !N.lor_spec, N.ldiff_spec, N.land_spec.
      set (M8 := 0x8D5). set (W := 0x47FD5). set (P3 := 0x30000). set (P1 := 0x10000). set (M4 := 0x894). set (K := (if cf then 1 else 0) + (if zf then 64 else 0)).
      assert (H1 : N.land M8 W = M8) by reflexivity. assert (H2 : N.land P1 P3 = P1) by reflexivity. assert (H3 : N.land W P3 = 0) by reflexivity. assert (H4 : N.land M4 M8 = M4) by reflexivity.
      assert (H5 : N.land K M8 = K) by (destruct cf, zf; reflexivity). assert (H6 : N.land W (2 ^ 21) = 0) by reflexivity. clearbody M8 W P3 P1 M4 K.
      pose proof (sub_bits _ _ n H1) as S1. pose proof (sub_bits _ _ n H2) as S2. pose proof (dis_bits _ _ n H3) as S3. pose proof (sub_bits _ _ n H4) as S4. pose proof (sub_bits _ _ n H5) as S5. pose proof (dis_bits _ _ n H6) as S6.
      destruct (N.testbit M8 n), (N.testbit W n), (N.testbit P3 n), (N.testbit P1 n), (N.testbit M4 n), (N.testbit K n), (N.testbit (2 ^ 21) n), (N.testbit f n), (N.testbit j n); cbn; try reflexivity; exfalso;
        first [discriminate (S1 eq_refl)|discriminate (S2 eq_refl)|discriminate (S3 eq_refl)|discriminate (S4 eq_refl)|discriminate (S5 eq_refl)|discriminate (S6 eq_refl)].
  - unfold popf, popf_mask, pushf. destruct (has_cpuid c); rewrite N.lor_spec, N.land_spec, N.lxor_spec, !N.ldiff_spec, N.pow2_bits_false by discriminate; rewrite N.lor_spec;
      [change (N.testbit 0x247FD5 9) with true|change (N.testbit 0x47FD5 9) with true]; change (N.testbit 0x30000 9) with false; cbn [orb negb andb]; rewrite ?andb_true_r, ?andb_false_r, ?orb_false_r, ?xorb_false_r; reflexivity.
Qed.
Lemma width_32 : forall s, N.testbit (efer s) 10 = false -> N.testbit (cs s) 54 = true -> width s = 32.
Proof. intros s E D. unfold width, long. rewrite E, D. reflexivity. Qed.
Lemma stack_bottom_eq : forall L, stack_bottom L = bss L + 2 ^ 20.
Proof. reflexivity. Qed.
Lemma pushf_lt : forall f, f < 2 ^ 32 -> pushf f < 2 ^ 32.
Proof. intros. apply ldiff_lt. assumption. Qed.
Lemma popf_lt : forall c old v, old < 2 ^ 32 -> popf c old v < 2 ^ 32.
Proof. intros. apply lor_lt; [apply land_lt_r; unfold popf_mask; destruct (has_cpuid c); reflexivity|apply ldiff_lt; assumption]. Qed.

Lemma phase_cpuid : forall c L s n, layout_ok L -> grub L s ->
  exists s', run (11 + S (S (S n))) c L 0 s = (if has_cpuid c then run (S (S n)) c L 12 s' else OHalts s') /\
  (has_cpuid c = true -> same_control s s' /\ N.testbit (eflags s') 9 = false /\
   (forall x, x < stack_bottom L - 4 \/ stack_bottom L <= x -> mem s' x = mem s x) /\ forall x, mem s' x < 256).
Proof.
  intros c L s n LO G. destruct s as [a b k d p f c0 c3 c4 e x q s1 s2 s3 s4 s5 g i m]. destruct G; cbn [cr0 cr4 efer xcr0 cs eflags mem] in *.
  assert (Hs : 4 <= stack_bottom L /\ stack_bottom L < 2 ^ 32) by (rewrite stack_bottom_eq; destruct LO; lia). destruct Hs as [Hs1 Hs2].
  assert (HW : forall a b k d p f m, width (mkS a b k d p f c0 c3 c4 e x q s1 s2 s3 s4 s5 g i m) = 32) by (intros; apply width_32; assumption).
  assert (HF : forall a b k d p f m, flat (mkS a b k d p f c0 c3 c4 e x q s1 s2 s3 s4 s5 g i m)) by (intros; apply flat_off; assumption).
  assert (Fe : forall a b k d p f m j, fetched (mkS a b k d p f c0 c3 c4 e x q s1 s2 s3 s4 s5 g i m) (code_at L j) = true) by (intros; apply flat_fetched; [apply HF|apply (lo_code L LO)]).
  change (11 + S (S (S n)))%nat with (S (S (S (S (S (S (S (S (S (S (S (S (S (S n)))))))))))))).
  Ltac nx Fe HW := erewrite run_next; [|reflexivity|apply Fe|apply HW|].
  Ltac ev := cbn [step get set set_mem set_eflags operand_value rax rbx rcx rdx rsp eflags mem]; reflexivity.
  nx Fe HW; [|ev].
  nx Fe HW; [|cbn [step get set operand_value]; rewrite w32_small by exact Hs2; reflexivity].
  set (sb := stack_bottom L) in *.
  assert (PU : forall a b k d f m v, push (mkS a b k d sb f c0 c3 c4 e x q s1 s2 s3 s4 s5 g i m) v 4 = Some (mkS a b k d (sb - 4) f c0 c3 c4 e x q s1 s2 s3 s4 s5 g i (poke m (sb - 4) v 4))).
  { intros. rewrite flat_push by (try apply HF; cbn [rsp]; lia). reflexivity. }
  assert (PO : forall a b k d f m, load (mkS a b k d (sb - 4) f c0 c3 c4 e x q s1 s2 s3 s4 s5 g i m) (sb - 4) 4 = Some (peek m (sb - 4) 4)) by (intros; apply flat_load; [apply HF|lia]).
  assert (BK : sb - 4 + 4 = sb) by lia. pose proof (pushf_lt f gr_flags0) as L1.
  nx Fe HW; [|cbn [step eflags]; rewrite PU; reflexivity].
  nx Fe HW; [|cbn [step rsp]; rewrite PO, peek_poke by exact L1; cbn [set]; rewrite BK; reflexivity].
  nx Fe HW; [|cbn [step get set operand_value rax]; rewrite w32_small by exact L1; reflexivity].
  nx Fe HW; [|cbn [step get operand_value rax]; rewrite w32_small by exact L1; change (w32 (2 ^ 21)) with (2 ^ 21); unfold run_alu; cbn [alu_value set]; unfold flags, set_eflags; cbn [rax rbx rcx rdx rsp eflags cr0 cr3 cr4 efer xcr0 cs ss ds es fs gs gdtr idtr mem]; reflexivity].
  set (img := N.lxor (pushf f) (2 ^ 21)). assert (L2 : img < 2 ^ 32) by (apply lxor_lt; [exact L1|reflexivity]).
  set (f1 := N.lor (N.ldiff f 0x8D5) _). assert (L3 : f1 < 2 ^ 32).
  { unfold f1. repeat apply lor_lt; [apply ldiff_lt; assumption|apply land_lt_r; reflexivity|destruct (img =? 0); reflexivity]. }
  nx Fe HW; [|cbn [step get rax]; rewrite PU; reflexivity].
  nx Fe HW; [|cbn [step rsp eflags]; rewrite PO, peek_poke by exact L2; cbn [set]; rewrite BK; unfold set_eflags; cbn [rax rbx rcx rdx rsp eflags cr0 cr3 cr4 efer xcr0 cs ss ds es fs gs gdtr idtr mem]; reflexivity].
  pose proof (popf_lt c f1 img L3) as L4. pose proof (pushf_lt _ L4) as L5.
  nx Fe HW; [|cbn [step eflags]; rewrite PU; reflexivity].
  nx Fe HW; [|cbn [step rsp]; rewrite PO, peek_poke by exact L5; cbn [set]; rewrite BK; reflexivity].
  nx Fe HW; [|cbn [step get operand_value rax rbx]; rewrite !w32_small by assumption; unfold run_alu; cbn [alu_value]; reflexivity].
  destruct (id_flag c f false (img =? 0) (junk c f img)) as [Hid H9]. fold img in Hid, H9. fold f1 in Hid, H9. 
  match goal with |- context [run _ c L 11 ?S] => set (s' := S) end.
  rewrite run_jcc with (k := Z); [|exact LO|apply HF|apply HW|reflexivity]. assert (HZ : holds s' Z = negb (has_cpuid c)) by (unfold s'; rewrite holds_flags; exact Hid).
  rewrite HZ. exists s'. split; [destruct (has_cpuid c); reflexivity|].
  intros _. split; [repeat split|]. split; [|split].
  - unfold s'. etransitivity; [apply flags_bit|]. cbn [eflags]. rewrite H9. assumption.
  - intros y Hy. unfold s'. cbn [mem flags set_eflags]. rewrite !poke_out by lia. reflexivity.
  - intros y. unfold s'. cbn [mem flags set_eflags]. repeat apply poke_byte_lt. assumption.
Qed.

(** *** 172-286: the features *)
Definition ecx_bits : list N := [0; 1; 9; 13; 19; 20; 23; 25; 26; 28; 29; 30].
Definition edx_bits : list N := [0; 4; 5; 6; 8; 23; 24; 25; 26].
Definition passes (c : cpu) : bool :=
  (2 <? max_basic c) && (0x80000007 <=? max_extended c) && N.testbit (a_edx (info c 0x80000001 0)) 29 && N.testbit (a_edx (info c 0x80000001 0)) 26 &&
  forallb (N.testbit (a_ecx (info c 1 0))) ecx_bits && forallb (N.testbit (a_edx (info c 1 0))) edx_bits &&
  N.testbit (a_ebx (cpuid c 7 0)) 0 && N.testbit (a_edx (info c 0x80000007 0)) 8.
Lemma land_mask : forall x l, x < 2 ^ 32 -> bits_of l < 2 ^ 32 -> (w32 (N.land x (bits_of l)) =? w32 (bits_of l)) = forallb (N.testbit x) l.
Proof.
  intros x l H Hl. rewrite !w32_small by (try exact Hl; apply land_lt; exact H). destruct (forallb (N.testbit x) l) eqn:E.
  - apply N.eqb_eq. apply mask_bits. exact E.
  - apply N.eqb_neq. intros F. apply mask_bits in F. congruence.
Qed.
Lemma cpuid_exists : forall c l s, cpu_ok c -> leaf_exists c l = true -> In l [0; 1; 0x80000000; 0x80000001; 0x80000007] -> cpuid c l s = info c l 0.
Proof. intros c l s [_ _ _ _ Sub] E I. unfold cpuid. rewrite E. apply Sub. exact I. Qed.

Lemma phase_features : forall c L s n, cpu_ok c -> layout_ok L -> has_cpuid c = true ->
  paging s = false -> N.testbit (efer s) 10 = false -> N.testbit (cs s) 54 = true ->
  exists s', run (32 + S (S (S n))) c L 12 s = (if passes c then run (S (S n)) c L 45 s' else OHalts s') /\
  same_control s s' /\ N.testbit (eflags s') 9 = N.testbit (eflags s) 9 /\ mem s' = mem s.
Proof.
  intros c L s n CO LO HC HP HE HD. destruct s as [a b k d p f c0 c3 c4 e x q s1 s2 s3 s4 s5 g i m]. cbn [efer cs paging] in *. unfold paging in HP. cbn [cr0] in HP.
  assert (HW : forall a b k d p f m, width (mkS a b k d p f c0 c3 c4 e x q s1 s2 s3 s4 s5 g i m) = 32) by (intros; apply width_32; assumption).
  assert (HF : forall a b k d p f m, flat (mkS a b k d p f c0 c3 c4 e x q s1 s2 s3 s4 s5 g i m)) by (intros; apply flat_off; assumption).
  assert (Fe : forall a b k d p f m j, fetched (mkS a b k d p f c0 c3 c4 e x q s1 s2 s3 s4 s5 g i m) (code_at L j) = true) by (intros; apply flat_fetched; [apply HF|apply (lo_code L LO)]).
  pose proof (co_eax c CO) as BA. pose proof (co_ebx c CO) as BB. pose proof (co_ecx c CO) as BC. pose proof (co_edx c CO) as BD.
  assert (FL : forall a b k d p f m cf zf j, exists f', flags c (mkS a b k d p f c0 c3 c4 e x q s1 s2 s3 s4 s5 g i m) cf zf j = mkS a b k d p f' c0 c3 c4 e x q s1 s2 s3 s4 s5 g i m /\ N.testbit f' 9 = N.testbit f 9 /\
     zero (mkS a b k d p f' c0 c3 c4 e x q s1 s2 s3 s4 s5 g i m) = zf /\ carry (mkS a b k d p f' c0 c3 c4 e x q s1 s2 s3 s4 s5 g i m) = cf).
  { intros. eexists. split; [reflexivity|]. destruct (flags_bit c (mkS a0 b0 k0 d0 p0 f0 c0 c3 c4 e x q s1 s2 s3 s4 s5 g i m0) cf zf j) as (Hz & Hc & H9). split; [exact H9|]. split; assumption. }
  change (32 + S (S (S n)))%nat with (S (S (S (S (S (S (S (S (S (S (S (S (S (S (S (S (S (S (S (S (S (S (S (S (S (S (S (S (S (S (S (S (S (S (S n))))))))))))))))))))))))))))))))))).
  Ltac alu_step Fe HW FL := nx Fe HW; [|cbn [step get operand_value rax rbx rcx rdx]; unfold run_alu; cbn [alu_value set]; reflexivity];
    match goal with |- context [flags ?c ?s ?cf ?zf ?j] =>
      let f' := fresh "f" in let E := fresh "E" in let E9 := fresh "E9" in let Ez := fresh "Ez" in let Ec := fresh "Ec" in
      destruct (FL (rax s) (rbx s) (rcx s) (rdx s) (rsp s) (eflags s) (mem s) cf zf j) as (f' & E & E9 & Ez & Ec); cbn [rax rbx rcx rdx rsp eflags mem] in E, E9, Ez, Ec; rewrite E; clear E end.
  Ltac halts := eexists; split; [reflexivity|]; split; [repeat split|]; split; [cbn [eflags]; congruence|reflexivity].
  Ltac jcc LO HF HW K := rewrite run_jcc with (k := K); [|exact LO|apply HF|apply HW|reflexivity].
  (* 172 *)
  alu_step Fe HW FL. rewrite N.lxor_nilpotent in *.
  nx Fe HW; [|cbn [step]; rewrite HC; cbn [negb rax rcx set]; reflexivity]. change (w32 0) with 0.
  rewrite cpuid_exists by (first [exact CO|reflexivity|cbn; tauto]). rewrite !w32_small by auto.
  alu_step Fe HW FL. rewrite w32_small in * by auto. change (w32 2) with 2 in *. fold (max_basic c) in *.
  jcc LO HF HW BE. cbn [holds]. rewrite Ez0, Ec0. unfold passes at 1. destruct (N.ltb_spec 2 (max_basic c)) as [M2|M2].
  2:{ replace ((max_basic c <? 2) || (max_basic c =? 2)) with true; [cbn [andb]; halts|]. symmetry. apply orb_true_iff. destruct (N.eq_dec (max_basic c) 2) as [->|]; [right; reflexivity|left; apply N.ltb_lt; lia]. }
  replace ((max_basic c <? 2) || (max_basic c =? 2)) with false by (symmetry; apply orb_false_iff; split; [apply N.ltb_ge; lia|apply N.eqb_neq; lia]). cbn [andb].
  (* 190 *)
  nx Fe HW; [|ev]. change (w32 0x80000000) with 0x80000000.
  nx Fe HW; [|cbn [step]; rewrite HC; cbn [negb rax rcx set]; reflexivity]. change (w32 0x80000000) with 0x80000000.
  rewrite cpuid_exists by (first [exact CO|reflexivity|cbn; tauto]). rewrite !w32_small by auto.
  alu_step Fe HW FL. rewrite w32_small in * by auto. change (w32 0x80000007) with 0x80000007 in *. fold (max_extended c) in *.
  jcc LO HF HW B. cbn [holds]. rewrite Ec1. rewrite (N.leb_antisym (max_extended c)). destruct (N.ltb_spec (max_extended c) 0x80000007) as [X7|X7]; cbn [negb andb]; [halts|].
  (* 205 *)
  assert (LX : forall l, 0x80000000 <= l -> l <= 0x80000007 -> leaf_exists c l = true).
  { intros l H1 H2. unfold leaf_exists. destruct (N.ltb_spec l 0x80000000); [lia|]. apply orb_true_iff. right. apply N.leb_le. lia. }
  nx Fe HW; [|ev]. change (w32 0x80000001) with 0x80000001.
  nx Fe HW; [|cbn [step]; rewrite HC; cbn [negb rax rcx set]; reflexivity]. change (w32 0x80000001) with 0x80000001.
  rewrite cpuid_exists by (first [exact CO|apply LX; lia|cbn; tauto]). rewrite !w32_small by auto.
  nx Fe HW; [|cbn [step get rdx]; reflexivity]. edestruct FL as (fa & E & E9a & _ & Eca). rewrite E; clear E.
  jcc LO HF HW NC. cbn [holds]. rewrite Eca. destruct (N.testbit (a_edx (info c 0x80000001 0)) 29); cbn [negb andb]; [|halts].
  nx Fe HW; [|cbn [step get rdx]; reflexivity]. edestruct FL as (fb & E & E9b & _ & Ecb). rewrite E; clear E.
  jcc LO HF HW NC. cbn [holds]. rewrite Ecb. destruct (N.testbit (a_edx (info c 0x80000001 0)) 26); cbn [negb andb]; [|halts].
  (* 225 *)
  nx Fe HW; [|ev]. change (w32 1) with 1.
  nx Fe HW; [|cbn [step]; rewrite HC; cbn [negb rax rcx set]; reflexivity]. change (w32 1) with 1.
  assert (L1 : leaf_exists c 1 = true) by (unfold leaf_exists; change (1 <? 0x80000000) with true; cbn [orb]; apply N.leb_le; lia).
  rewrite cpuid_exists by (first [exact CO|exact L1|cbn; tauto]). rewrite !w32_small by auto.
  (* 253 *)
  assert (BM : bits_of ecx_bits < 2 ^ 32) by reflexivity. assert (DM : bits_of edx_bits < 2 ^ 32) by reflexivity.
  nx Fe HW; [|ev]. match goal with |- context [w32 ?m] => change (w32 m) with (bits_of ecx_bits) end.
  alu_step Fe HW FL. rewrite (w32_small (a_ecx _)), (w32_small (bits_of ecx_bits)) in * by auto.
  alu_step Fe HW FL. rewrite land_mask in * by auto.
  jcc LO HF HW NZ. cbn [holds]. match goal with Ez : zero ?s = forallb _ ecx_bits |- context [zero ?s] => rewrite Ez end.
  destruct (forallb (N.testbit (a_ecx (info c 1 0))) ecx_bits); cbn [negb andb]; [|halts].
  nx Fe HW; [|ev]. match goal with |- context [w32 ?m] => change (w32 m) with (bits_of edx_bits) end.
  alu_step Fe HW FL. rewrite (w32_small (a_edx _)), (w32_small (bits_of edx_bits)) in * by auto.
  alu_step Fe HW FL. rewrite land_mask in * by auto.
  jcc LO HF HW NZ. cbn [holds]. match goal with Ez : zero ?s = forallb _ edx_bits |- context [zero ?s] => rewrite Ez end.
  destruct (forallb (N.testbit (a_edx (info c 1 0))) edx_bits); cbn [negb andb]; [|halts].
  (* 275 *)
  nx Fe HW; [|ev]. change (w32 7) with 7.
  alu_step Fe HW FL. rewrite N.lxor_nilpotent in *.
  nx Fe HW; [|cbn [step]; rewrite HC; cbn [negb rax rcx set]; reflexivity]. change (w32 7) with 7. change (w32 0) with 0.
  assert (B7 : a_ebx (cpuid c 7 0) < 2 ^ 32) by (unfold cpuid; destruct (leaf_exists c 7); auto).
  nx Fe HW; [|cbn [step get rbx]; reflexivity]. edestruct FL as (fc & E & E9c & _ & Ecc). rewrite E; clear E. rewrite (w32_small (a_ebx _)) in * by exact B7.
  jcc LO HF HW NC. cbn [holds]. rewrite Ecc. destruct (N.testbit (a_ebx (cpuid c 7 0)) 0); cbn [negb andb]; [|halts].
  (* 283 *)
  nx Fe HW; [|ev]. change (w32 0x80000007) with 0x80000007.
  nx Fe HW; [|cbn [step]; rewrite HC; cbn [negb rax rcx set]; reflexivity]. change (w32 0x80000007) with 0x80000007.
  rewrite cpuid_exists by (first [exact CO|apply LX; lia|cbn; tauto]). rewrite !(w32_small (a_edx _)) by auto.
  nx Fe HW; [|cbn [step get rdx]; reflexivity]. edestruct FL as (fd & E & E9d & _ & Ecd). rewrite E; clear E.
  jcc LO HF HW NC. cbn [holds]. rewrite Ecd. destruct (N.testbit (a_edx (info c 0x80000007 0)) 8); cbn [negb]; halts.
Qed.

(** *** 304-407: tables, paging, the code segment *)
Definition CODE : N := N.lor (2 ^ 47) (N.lor (2 ^ 44) (N.lor (2 ^ 43) (2 ^ 53))).
Record image (L : layout) (m : N -> N) : Prop := mkImage {
  im_bytes : forall x, m x < 256;
  im_quads : forall a n v k, In (a, n, v) (data_quads L ++ rodata_quads L) -> k < n -> peek m (a + 8 * k) 8 = v;
  im_word : peek m (fst (rodata_word L)) 2 = snd (rodata_word L) }.
Lemma pml4_eq : forall L, pml4 L = data L.
Proof. intros L. unfold pml4. change (align_up 0 4096) with 0. apply N.add_0_r. Qed.
Lemma pdpt_eq : forall L, pdpt L = data L + 4096.
Proof. reflexivity. Qed.
Lemma image_ext : forall L m m', layout_ok L -> image L m -> (forall x, m' x < 256) -> (forall x, x < stack_bottom L - 4 \/ stack_bottom L <= x -> m' x = m x) -> image L m'.
Proof.
  intros L m m' LO [IB IQ IW] HB HM. rewrite stack_bottom_eq in HM. constructor; [exact HB| |].
  - intros a n v k H Hk. rewrite <- (IQ a n v k H Hk). apply peek_ext. intros x Hx. apply HM.
    unfold data_quads, rodata_quads, gdt64, gdt64_descriptor in H. rewrite pml4_eq, !pdpt_eq in H. cbn [app In] in H. destruct LO.
    decompose [or] H; try contradiction; match goal with E : (_, _, _) = (a, n, v) |- _ => apply (f_equal (fun t => (fst (fst t), snd (fst t)))) in E; cbn [fst snd] in E; assert (Ha := f_equal fst E); assert (Hn := f_equal snd E); cbn [fst snd] in Ha, Hn end; lia.
  - rewrite <- IW. apply peek_ext. intros x Hx. apply HM. unfold rodata_word, gdt64_descriptor in Hx. cbn [fst] in Hx. destruct LO. lia.
Qed.
Record image_facts (L : layout) (m : N -> N) : Prop := mkFacts {
  if_top : peek m (pml4 L + 4) 4 = 0; if_page : forall k, k < 4 -> peek m (pdpt L + 8 * k) 8 = k * 2 ^ 30 + 131;
  if_code : peek m (rodata L + 8) 8 = CODE; if_base : peek m (rodata L + 18) 4 = rodata L; if_limit : peek m (rodata L + 16) 2 = 15 }.
Lemma image_values : forall L m, layout_ok L -> image L m -> image_facts L m.
Proof.
  intros L m LO [IB IQ IW]. constructor.
  - specialize (IQ (pml4 L) 512 0 0 ltac:(cbn; auto) ltac:(lia)). change (8 * 0) with 0 in IQ. rewrite N.add_0_r in IQ. change 8%nat with (4 + 4)%nat in IQ. rewrite peek_split in IQ. change (N.of_nat 4) with 4 in IQ. lia.
  - intros k Hk. assert (K : k = 0 \/ k = 1 \/ k = 2 \/ k = 3) by lia.
    assert (Q : forall o v, In (o, 1, v) (data_quads L) -> peek m o 8 = v) by (intros o v Hin; rewrite <- (N.add_0_r o); apply (IQ o 1 v 0); [apply in_or_app; left; exact Hin|lia]).
    destruct K as [->|[->|[->| ->]]]; cbn [N.mul]; rewrite ?N.add_0_r; apply Q; unfold data_quads; cbn [In]; auto 7.
  - specialize (IQ (gdt64 L + 8) 1 CODE 0 ltac:(apply in_or_app; right; cbn; auto) ltac:(lia)). change (8 * 0) with 0 in IQ. rewrite N.add_0_r in IQ. exact IQ.
  - specialize (IQ (gdt64_descriptor L + 2) 1 (gdt64 L) 0 ltac:(apply in_or_app; right; cbn; auto) ltac:(lia)). change (8 * 0) with 0 in IQ. rewrite N.add_0_r in IQ.
    unfold gdt64_descriptor, gdt64 in IQ. replace (rodata L + 16 + 2) with (rodata L + 18) in IQ by lia. change 8%nat with (4 + 4)%nat in IQ. rewrite peek_split in IQ.
    pose proof (peek_lt 4 m (rodata L + 18) IB) as B. change (256 ^ N.of_nat 4) with (2 ^ 32) in *. destruct LO. remember (peek m (rodata L + 18) 4) as u. remember (peek m (rodata L + 18 + N.of_nat 4) 4) as w. lia.
  - exact IW.
Qed.
Lemma tables_after : forall L m, layout_ok L -> image L m -> tables (poke m (pml4 L) (N.lor (pdpt L) 3) 4) L.
Proof.
  intros L m LO IM. destruct (image_values L m LO IM) as [T P _ _ _]. assert (V : N.lor (pdpt L) 3 < 2 ^ 32) by (apply lor_lt; [rewrite pdpt_eq; destruct LO; lia|reflexivity]). constructor.
  - change 8%nat with (4 + 4)%nat. rewrite peek_split, peek_poke by exact V. change (N.of_nat 4) with 4. rewrite peek_other, T by (change (N.of_nat 4) with 4; lia). lia.
  - intros k Hk. rewrite peek_other by (rewrite pdpt_eq, pml4_eq; lia). apply P. exact Hk.
Qed.
Lemma two_halves : forall a b k, b < 2 ^ 32 -> k < 32 -> N.testbit (a * 2 ^ 32 + b) k = N.testbit b k.
Proof.
  intros a b k H Hk. rewrite <- (w32_bit (a * 2 ^ 32 + b) k Hk). f_equal. unfold w32. rewrite N.add_comm, N.mod_add by discriminate. apply N.mod_small. exact H.
Qed.
(** With CR4.LA57, the table of the top level is used as one of level 5, and that below as one of level 4, which cannot have pages. *)
Lemma not_fetched : forall s L v, tables (mem s) L -> pml4 L mod 4096 = 0 -> pdpt L mod 4096 = 0 -> pml4 L < 2 ^ 32 -> pdpt L < 2 ^ 32 ->
  paging s = true -> long s = true -> N.testbit (cr4 s) 12 = true -> cr3 s = pml4 L -> v < 2 ^ 32 -> fetched s v = false.
Proof.
  intros s L v [T P] A4 A3 L4 L3 HP HL H5 H3 Hv. unfold fetched, translate. rewrite HP, HL, H5, H3. cbn [negb].
  destruct (canonical true v); [|reflexivity]. destruct (index_low v Hv) as (I4 & _ & _).
  assert (I5 : index v 5 = 0) by (unfold index; change (2 ^ (12 + 9 * (5 - 1))) with (2 ^ 48); rewrite N.div_small by lia; reflexivity).
  destruct (align_addr _ A4 L4) as (E4 & _ & _). destruct (align_addr _ A3 L3) as (_ & E3 & B3). rewrite E4.
  change 5%nat with (S (S 3%nat)). cbn [walk]. rewrite I5. change (8 * 0) with 0. rewrite N.add_0_r, T.
  assert (Hi : N.testbit (pdpt L) 63 = false) by (apply (high_bits _ 32 L3); lia).
  rewrite !N.lor_spec, Hi, !B3 by lia. change (N.testbit 3 0) with true. change (N.testbit 3 1) with true. change (N.testbit 3 7) with false. change (N.testbit 3 63) with false.
  cbn [orb negb andb]. rewrite !andb_false_r. cbn [negb andb]. change (5 =? 1) with false. cbv iota. rewrite E3. change (5 - 1) with 4. rewrite I4, P by lia.
  destruct (page_entry 0 ltac:(lia)) as (b0 & b1 & b7 & b63 & _ & _). cbv zeta in *. rewrite b0, b1, b7, b63. rewrite !andb_false_r. reflexivity.
Qed.
Definition table_mem (L : layout) (m : N -> N) : N -> N := poke m (pml4 L) (N.lor (pdpt L) 3) 4.

Lemma phase_paging : forall c L s n, layout_ok L -> image L (mem s) -> supports c Pae = true -> supports c Msr = true -> supports c LongMode = true ->
  N.testbit (cr0 s) 0 = true -> N.testbit (cr0 s) 31 = false -> cr0 s < 2 ^ 32 -> cr4 s < 2 ^ 32 ->
  efer s < 2 ^ 64 -> N.testbit (efer s) 10 = false -> N.testbit (cs s) 54 = true -> N.testbit (cs s) 53 = false ->
  exists s', run (17 + S (S n)) c L 45 s = (if N.testbit (cr4 s) 12 then OFaults s' else run (S (S n)) c L 65 s') /\
  (N.testbit (cr4 s) 12 = false -> cr0 s' = N.lor (cr0 s) (2 ^ 31) /\ cr3 s' = pml4 L /\ cr4 s' = N.lor (cr4 s) (2 ^ 5) /\ N.testbit (efer s') 10 = true /\ N.testbit (efer s') 8 = true /\ xcr0 s' = xcr0 s /\ cs s' = CODE /\
  gdtr s' = (rodata L, 15) /\ idtr s' = idtr s /\ mem s' = table_mem L (mem s) /\ N.testbit (eflags s') 9 = N.testbit (eflags s) 9).
Proof.
  intros c L s n LO IM S1 S2 S3 HPE HPG H0 H4 HE HLMA HD HL. destruct s as [a b k d p f c0 c3 c4 e x q s1 s2 s3 s4 s5 g i m]. cbn [efer cs cr0 cr4 mem xcr0 idtr eflags] in *.
  assert (GW : forall c3 c4 e a b k d p f m, N.testbit e 10 = false -> width (mkS a b k d p f c0 c3 c4 e x q s1 s2 s3 s4 s5 g i m) = 32) by (intros; apply width_32; assumption).
  assert (GF : forall c3 c4 e a b k d p f m, flat (mkS a b k d p f c0 c3 c4 e x q s1 s2 s3 s4 s5 g i m)) by (intros; apply flat_off; assumption).
  assert (Fe : forall c3 c4 e a b k d p f m j, fetched (mkS a b k d p f c0 c3 c4 e x q s1 s2 s3 s4 s5 g i m) (code_at L j) = true) by (intros; apply flat_fetched; [apply GF|apply (lo_code L LO)]).
  assert (FL : forall c3 c4 e a b k d p f m cf zf j, exists f', flags c (mkS a b k d p f c0 c3 c4 e x q s1 s2 s3 s4 s5 g i m) cf zf j = mkS a b k d p f' c0 c3 c4 e x q s1 s2 s3 s4 s5 g i m /\ N.testbit f' 9 = N.testbit f 9).
  { intros. eexists. split; [reflexivity|]. match goal with |- context [flags c ?X cf zf j] => idtac | |- _ => idtac end. epose proof (flags_bit c _ cf zf j) as (_ & _ & H9). exact H9. }
  change (17 + S (S n))%nat with (S (S (S (S (S (S (S (S (S (S (S (S (S (S (S (S (S (S (S n))))))))))))))))))).
  Ltac ny Fe GW := erewrite run_next; [|reflexivity|apply Fe|apply GW; assumption|].
  Ltac al Fe GW FL fx E := ny Fe GW; [|cbn [step get operand_value rax rbx rcx rdx]; unfold run_alu; cbn [alu_value set]; reflexivity];
    let H := fresh in edestruct FL as (fx & H & E); rewrite H; clear H.
  (* 304 *)
  ny Fe GW; [|cbn [step cr4]; rewrite GW by assumption; change (32 =? 64) with false; cbv iota; cbn [set]; rewrite w32_small by exact H4; reflexivity].
  al Fe GW FL fa E1. rewrite (w32_small c4) by exact H4. change (w32 (2 ^ 5)) with (2 ^ 5). set (c4' := N.lor c4 (2 ^ 5)). assert (H4' : c4' < 2 ^ 32) by (apply lor_lt; [exact H4|reflexivity]).
  ny Fe GW; [|cbn [step get rax]; rewrite GW by assumption; change (32 =? 64) with false; cbv iota; rewrite (w32_small c4') by exact H4'; unfold write_cr; cbn [cr4];
    assert (BC : bad_cr4 c c4 c4' = false); [|rewrite BC; unfold long; cbn [efer]; rewrite HLMA; cbn [orb andb]; unfold set_control; cbn [rax rbx rcx rdx rsp eflags cr0 cr3 cr4 efer xcr0 cs ss ds es fs gs gdtr idtr mem]; reflexivity]].
  2:{ unfold bad_cr4. cbn [existsb]. rewrite S1. unfold c4'. rewrite (lor_bit_other c4 5 9), (lor_bit_other c4 5 10), (lor_bit_other c4 5 18) by discriminate. cbn [negb]. rewrite andb_false_r, !andb_negb_r. reflexivity. }
  (* 350 *)
  assert (B3 : pdpt L < 2 ^ 32) by (rewrite pdpt_eq; destruct LO; lia). assert (B4 : pml4 L + 4 <= 2 ^ 32) by (rewrite pml4_eq; destruct LO; lia).
  ny Fe GW; [|cbn [step operand_value set]; rewrite w32_small by exact B3; reflexivity].
  al Fe GW FL fb E2. rewrite (w32_small (pdpt L)) by exact B3. change (w32 3) with 3. assert (B3' : N.lor (pdpt L) 3 < 2 ^ 32) by (apply lor_lt; [exact B3|reflexivity]).
  ny Fe GW; [|cbn [step get rax mem]; rewrite (w32_small (N.lor _ _)) by exact B3'; rewrite flat_store by (first [apply GF|exact B4]); unfold set_mem; cbn [rax rbx rcx rdx rsp eflags cr0 cr3 cr4 efer xcr0 cs ss ds es fs gs gdtr idtr mem]; reflexivity].
  fold (table_mem L m).
  ny Fe GW; [|cbn [step operand_value set]; rewrite (w32_small (pml4 L)) by lia; reflexivity].
  ny Fe GW; [|cbn [step get rax]; rewrite GW by assumption; change (32 =? 64) with false; cbv iota; rewrite (w32_small (pml4 L)) by lia; unfold write_cr, set_control; cbn [rax rbx rcx rdx rsp eflags cr0 cr3 cr4 efer xcr0 cs ss ds es fs gs gdtr idtr mem]; reflexivity].
  (* 372 *)
  ny Fe GW; [|ev]. change (w32 0xC0000080) with 0xC0000080.
  ny Fe GW; [|cbn [step rcx]; rewrite S2; change (w32 0xC0000080 =? 0xC0000080) with true; cbn [andb efer set]; reflexivity].
  al Fe GW FL fc E3. rewrite w32_idem. change (w32 (2 ^ 8)) with (2 ^ 8). set (lo := N.lor (w32 e) (2 ^ 8)). assert (HLo : lo < 2 ^ 32) by (apply lor_lt; [apply w32_lt|reflexivity]).
  assert (Hhi : e / 2 ^ 32 < 2 ^ 32) by (apply N.div_lt_upper_bound; [discriminate|exact HE]).
  set (v := e / 2 ^ 32 * 2 ^ 32 + lo). set (e1 := N.lor (N.ldiff v (2 ^ 10)) (N.land e (2 ^ 10))).
  ny Fe GW; [|cbn [step rcx rdx rax]; change (w32 0xC0000080 =? 0xC0000080) with true; cbv iota; rewrite (w32_small (e / 2 ^ 32)), (w32_small lo) by assumption; fold v; unfold write_efer; rewrite S2, S3; unfold paging; cbn [cr0 negb efer]; rewrite HPG, andb_false_r; cbn [orb andb];
    unfold set_control; cbn [rax rbx rcx rdx rsp eflags cr0 cr3 cr4 efer xcr0 cs ss ds es fs gs gdtr idtr mem]; fold e1; reflexivity].
  assert (E10 : N.testbit e1 10 = false) by (unfold e1; rewrite N.lor_spec, N.ldiff_spec, N.land_spec, HLMA, N.pow2_bits_true; cbn [negb andb]; rewrite andb_false_r; reflexivity).
  assert (E8 : N.testbit e1 8 = true).
  { unfold e1. rewrite N.lor_spec, N.ldiff_spec, N.land_spec, N.pow2_bits_false by discriminate. unfold v. rewrite two_halves by (first [exact HLo|lia]). unfold lo. rewrite lor_bit_self. reflexivity. }
  (* 384 *)
  ny Fe GW; [|cbn [step cr0]; rewrite GW by assumption; change (32 =? 64) with false; cbv iota; cbn [set]; rewrite (w32_small c0) by exact H0; reflexivity].
  al Fe GW FL fd E4. rewrite (w32_small c0) by exact H0. change (w32 (2 ^ 31)) with (2 ^ 31). set (c0' := N.lor c0 (2 ^ 31)). assert (H0' : c0' < 2 ^ 32) by (apply lor_lt; [exact H0|reflexivity]).
  assert (P31 : N.testbit c0' 31 = true) by apply lor_bit_self. assert (P0 : N.testbit c0' 0 = true) by (unfold c0'; rewrite lor_bit_other by discriminate; exact HPE). assert (P5 : N.testbit c4' 5 = true) by apply lor_bit_self.
  ny Fe GW; [|cbn [step get rax]; rewrite GW by assumption; change (32 =? 64) with false; cbv iota; rewrite (w32_small c0') by exact H0'; unfold write_cr, paging; cbn [cr0 cr4 cs efer];
    rewrite P31, P0, HPG, E8, HL, P5; cbn [negb andb orb];
    unfold set_control; cbn [rax rbx rcx rdx rsp eflags cr0 cr3 cr4 efer xcr0 cs ss ds es fs gs gdtr idtr mem]; reflexivity].
  set (e2 := N.lor e1 (2 ^ 10)). assert (E10' : N.testbit e2 10 = true) by apply lor_bit_self. assert (E8' : N.testbit e2 8 = true) by (unfold e2; rewrite lor_bit_other by discriminate; exact E8).
  (* 399 *)
  assert (A4 : pml4 L mod 4096 = 0) by (rewrite pml4_eq; apply lo_data; exact LO).
  assert (A3 : pdpt L mod 4096 = 0) by (rewrite pdpt_eq, <- N.add_mod_idemp_l, lo_data by (first [exact LO|discriminate]); reflexivity).
  assert (C12 : N.testbit c4' 12 = N.testbit c4 12) by (unfold c4'; rewrite lor_bit_other by discriminate; reflexivity).
  destruct (N.testbit c4 12) eqn:HLA.
  { eexists. split; [|discriminate]. cbn [run]. change (nth_error (boot L) 60) with (Some (32, ILgdt (gdt64_descriptor L))).
    rewrite (not_fetched _ L); [reflexivity|apply tables_after; assumption|assumption|assumption|lia|assumption|exact P31|exact E10'|exact C12|reflexivity|apply (lo_code L LO)]. }
  assert (FF : forall a b k d p f q s1 s2 s3 s4 s5 g, flat (mkS a b k d p f c0' (pml4 L) c4' e2 x q s1 s2 s3 s4 s5 g i (table_mem L m))).
  { intros. apply (flat_on _ L); try assumption; [apply tables_after; assumption|lia|reflexivity]. }
  assert (Fe2 : forall a b k d p f q s1 s2 s3 s4 s5 g j, fetched (mkS a b k d p f c0' (pml4 L) c4' e2 x q s1 s2 s3 s4 s5 g i (table_mem L m)) (code_at L j) = true) by (intros; apply flat_fetched; [apply FF|apply (lo_code L LO)]).
  assert (GW2 : forall a b k d p f g m, width (mkS a b k d p f c0' (pml4 L) c4' e2 x q s1 s2 s3 s4 s5 g i m) = 32) by (intros; unfold width, long; cbn [efer cs]; rewrite E10', HL, HD; reflexivity).
  destruct (image_values L m LO IM) as [_ _ VC VB VL].
  assert (RO : forall o n, o + N.of_nat n <= 26 -> peek (table_mem L m) (rodata L + o) n = peek m (rodata L + o) n) by (intros; apply peek_other; rewrite pml4_eq; destruct LO; lia).
  pose proof (lo_rodata_end L LO) as RE.
  erewrite run_next; [|reflexivity|apply Fe2|apply GW2|].
  2:{ cbn [step]. unfold gdt64_descriptor. rewrite !flat_load by (first [apply FF|cbn [N.of_nat]; lia]). cbn [mem]. rewrite RO by (cbn [N.of_nat]; lia). rewrite VL.
      replace (rodata L + 16 + 2) with (rodata L + 18) by lia. rewrite RO, VB by (cbn [N.of_nat]; lia). unfold set_gdtr. cbn [rax rbx rcx rdx rsp eflags cr0 cr3 cr4 efer xcr0 cs ss ds es fs gs gdtr idtr mem]. reflexivity. }
  (* 407 *)
  cbn [run]. rewrite Fe2. change (nth_error (boot L) 61) with (Some (32, IFarJmp gdt64_code_segment Long64)). cbn [negb]. rewrite GW2. change (32 =? 32) with true. cbn [negb step]. cbn [gdtr fst snd].
  change ((gdt64_code_segment =? 0) || (15 <? gdt64_code_segment + 7)) with false. cbv iota. unfold gdt64_code_segment.
  rewrite flat_load by (first [apply FF|cbn [N.of_nat]; lia]). cbn [mem]. rewrite RO, VC by (cbn [N.of_nat]; lia).
  replace (good_code _ CODE) with true.
  2:{ unfold good_code. change (N.testbit CODE 47) with true. change (N.testbit CODE 44) with true. change (N.testbit CODE 43) with true. change (N.testbit CODE 45) with false. change (N.testbit CODE 46) with false. change (N.testbit CODE 54) with false. rewrite andb_false_r. reflexivity. }
  change (find_label Long64 (boot L) 0) with (Some 65%nat). cbv iota. eexists. split; [reflexivity|].
  cbn [set_cs rax rbx rcx rdx rsp eflags cr0 cr3 cr4 efer xcr0 cs ss ds es fs gs gdtr idtr mem]. intros _. repeat split; try assumption; try reflexivity. congruence.
Qed.

(** *** 421-469: segments, SSE, AVX, the call *)
Lemma ax_zero : forall a, (N.ldiff a 0xFFFF mod 2 ^ 16 =? 0) = true.
Proof. intros a. change 0xFFFF with (N.ones 16). rewrite N.ldiff_ones_r, N.shiftl_mul_pow2, N.mod_mul by discriminate. reflexivity. Qed.
Definition final_cr4 (v : N) : N := N.lor (N.lor v (2 ^ 9 + 2 ^ 10)) (2 ^ 18).
Definition final_cr0 (v : N) : N := N.lor (N.land v (2 ^ 64 - 1 - 2 ^ 2)) (2 ^ 1).
Definition final_xcr0 (v : N) : N := v / 2 ^ 32 * 2 ^ 32 + N.lor (w32 v) 7.

Lemma phase_long : forall c L s n, layout_ok L -> tables (mem s) L -> supports c Fxsr = true -> supports c Sse = true -> supports c Xsave = true -> supports c Avx = true ->
  N.testbit (cr0 s) 0 = true -> N.testbit (cr0 s) 31 = true -> cr3 s = pml4 L -> N.testbit (cr4 s) 5 = true -> N.testbit (cr4 s) 12 = false ->
  N.testbit (efer s) 10 = true -> N.testbit (efer s) 8 = true -> xcr0 s < 2 ^ 64 -> cs s = CODE ->
  exists s', run (22 + S n) c L 65 s = OStarts s' /\
  cr0 s' = final_cr0 (cr0 s) /\ cr3 s' = cr3 s /\ cr4 s' = final_cr4 (cr4 s) /\ efer s' = efer s /\ xcr0 s' = final_xcr0 (xcr0 s) /\ cs s' = CODE /\
  ss s' = 0 /\ ds s' = 0 /\ es s' = 0 /\ fs s' = 0 /\ gs s' = 0 /\ gdtr s' = gdtr s /\ idtr s' = idtr s /\ mem s' = mem s /\ rsp s' = stack_bottom L /\ N.testbit (eflags s') 9 = N.testbit (eflags s) 9.
Proof.
  intros c L s n LO TB S1 S2 S3 S4 HPE HPG H3 H5 HLA HLMA HLME HX HC. destruct s as [a b k d p f c0 c3 c4 e x q s1 s2 s3 s4 s5 g i m]. cbn [efer cs cr0 cr3 cr4 mem xcr0 gdtr idtr eflags] in *. subst c3 q.
  assert (A4 : pml4 L mod 4096 = 0) by (rewrite pml4_eq; apply lo_data; exact LO).
  assert (A3 : pdpt L mod 4096 = 0) by (rewrite pdpt_eq, <- N.add_mod_idemp_l, lo_data by (first [exact LO|discriminate]); reflexivity).
  assert (B3 : pdpt L < 2 ^ 32) by (rewrite pdpt_eq; destruct LO; lia). assert (B4 : pml4 L < 2 ^ 32) by (rewrite pml4_eq; destruct LO; lia).
  assert (GW : forall a b k d p f c0 c4 x s1 s2 s3 s4 s5, width (mkS a b k d p f c0 (pml4 L) c4 e x CODE s1 s2 s3 s4 s5 g i m) = 64) by (intros; unfold width, long; cbn [efer cs]; rewrite HLMA; reflexivity).
  assert (GF : forall a b k d p f c0 c4 x s1 s2 s3 s4 s5, N.testbit c4 12 = false -> flat (mkS a b k d p f c0 (pml4 L) c4 e x CODE s1 s2 s3 s4 s5 g i m)) by (intros; apply (flat_on _ L); try assumption; reflexivity).
  assert (Fe : forall a b k d p f c0 c4 x s1 s2 s3 s4 s5 j, N.testbit c4 12 = false -> fetched (mkS a b k d p f c0 (pml4 L) c4 e x CODE s1 s2 s3 s4 s5 g i m) (code_at L j) = true) by (intros; apply flat_fetched; [apply GF; assumption|apply (lo_code L LO)]).
  assert (FL : forall a b k d p f c0 c4 x s1 s2 s3 s4 s5 cf zf j, exists f', flags c (mkS a b k d p f c0 (pml4 L) c4 e x CODE s1 s2 s3 s4 s5 g i m) cf zf j = mkS a b k d p f' c0 (pml4 L) c4 e x CODE s1 s2 s3 s4 s5 g i m /\ N.testbit f' 9 = N.testbit f 9).
  { intros. eexists. split; [reflexivity|]. epose proof (flags_bit c _ cf zf j) as (_ & _ & H9). exact H9. }
  change (22 + S n)%nat with (S (S (S (S (S (S (S (S (S (S (S (S (S (S (S (S (S (S (S (S (S (S (S n))))))))))))))))))))))).
  Ltac nz Fe GW := erewrite run_next; [|reflexivity|apply Fe; assumption|apply GW|].
  Ltac am Fe GW FL fx E := nz Fe GW; [|cbn [step get operand_value rax rbx rcx rdx]; unfold run_alu; cbn [alu_value set]; reflexivity];
    let H := fresh in edestruct FL as (fx & H & E); rewrite H; clear H.
  nz Fe GW; [|reflexivity].
  nz Fe GW; [|cbn [step rax set]; reflexivity]. edestruct FL as (fa & H & E1). rewrite H. clear H.
  nz Fe GW; [|cbn [step rax set_seg]; rewrite ax_zero, GW; reflexivity].
  do 4 (nz Fe GW; [|cbn [step rax set_seg]; rewrite ax_zero; reflexivity]).
  (* 439 *)
  nz Fe GW; [|cbn [step cr4]; rewrite GW; change (64 =? 64) with true; cbv zeta iota; cbn [set]; reflexivity].
  am Fe GW FL fb E2. set (c41 := N.lor c4 (2 ^ 9 + 2 ^ 10)).
  assert (K : forall j, N.testbit c41 j = N.testbit c4 j || (j =? 9) || (j =? 10)).
  { intros j. unfold c41. change (2 ^ 9 + 2 ^ 10) with (N.lor (2 ^ 9) (2 ^ 10)). rewrite !N.lor_spec, !N.pow2_bits_eqb, orb_assoc, (N.eqb_sym 9), (N.eqb_sym 10). reflexivity. }
  assert (K5 : N.testbit c41 5 = true) by (rewrite K, H5; reflexivity). assert (K12 : N.testbit c41 12 = false) by (rewrite K, HLA; reflexivity). assert (K18 : N.testbit c41 18 = N.testbit c4 18) by (rewrite K; change (18 =? 9) with false; change (18 =? 10) with false; rewrite !orb_false_r; reflexivity).
  nz Fe GW; [|cbn [step get rax]; rewrite GW; change (64 =? 64) with true; cbv iota; unfold write_cr; cbn [cr4];
    assert (BC : bad_cr4 c c4 c41 = false); [unfold bad_cr4; cbn [existsb]; rewrite S1, S2, K5, H5, K18; cbn [negb]; rewrite !andb_false_r, andb_negb_r; reflexivity|];
    rewrite BC, K5, andb_false_r; cbn [orb]; unfold set_control; cbn [rax rbx rcx rdx rsp eflags cr0 cr3 cr4 efer xcr0 cs ss ds es fs gs gdtr idtr mem]; reflexivity].
  (* 444 *)
  nz Fe GW; [|cbn [step cr0]; rewrite GW; change (64 =? 64) with true; cbv zeta iota; cbn [set]; reflexivity].
  am Fe GW FL fc E3. am Fe GW FL fd E4. fold (final_cr0 c0).
  assert (Z31 : N.testbit (final_cr0 c0) 31 = true) by (unfold final_cr0; rewrite N.lor_spec, N.land_spec, HPG; reflexivity).
  assert (Z0 : N.testbit (final_cr0 c0) 0 = true) by (unfold final_cr0; rewrite N.lor_spec, N.land_spec, HPE; reflexivity).
  nz Fe GW; [|cbn [step get rax]; rewrite GW; change (64 =? 64) with true; cbv iota; unfold write_cr, paging; cbn [cr0 cr4 cs efer]; rewrite Z31, Z0, HPG; cbn [negb andb];
    unfold set_control; cbn [rax rbx rcx rdx rsp eflags cr0 cr3 cr4 efer xcr0 cs ss ds es fs gs gdtr idtr mem]; reflexivity].
  (* 450 *)
  nz Fe GW; [|cbn [step cr4]; rewrite GW; change (64 =? 64) with true; cbv zeta iota; cbn [set]; reflexivity].
  am Fe GW FL fe E5. set (c42 := N.lor c41 (2 ^ 18)).
  assert (J : forall j, j <> 18 -> N.testbit c42 j = N.testbit c41 j) by (intros; apply lor_bit_other; assumption).
  assert (J5 : N.testbit c42 5 = true) by (rewrite J by discriminate; exact K5). assert (J12 : N.testbit c42 12 = false) by (rewrite J by discriminate; exact K12). assert (J18 : N.testbit c42 18 = true) by apply lor_bit_self.
  nz Fe GW; [|cbn [step get rax]; rewrite GW; change (64 =? 64) with true; cbv iota; unfold write_cr; cbn [cr4];
    assert (BC : bad_cr4 c c41 c42 = false); [unfold bad_cr4; cbn [existsb]; rewrite S1, S2, S3, J5, K5; cbn [negb]; rewrite !andb_false_r; reflexivity|];
    rewrite BC, J5, andb_false_r; cbn [orb]; unfold set_control; cbn [rax rbx rcx rdx rsp eflags cr0 cr3 cr4 efer xcr0 cs ss ds es fs gs gdtr idtr mem]; reflexivity].
  (* 455 *)
  am Fe GW FL fg E6. rewrite N.lxor_nilpotent.
  nz Fe GW; [|cbn [step rcx cr4]; rewrite J18; change (w32 0 =? 0) with true; cbn [andb xcr0 set]; reflexivity].
  am Fe GW FL fh E7. rewrite w32_idem. change (w32 7) with 7.
  assert (HLo : N.lor (w32 x) 7 < 2 ^ 32) by (apply lor_lt; [apply w32_lt|reflexivity]).
  assert (Hhi : x / 2 ^ 32 < 2 ^ 32) by (apply N.div_lt_upper_bound; [discriminate|exact HX]).
  assert (X : forall j, j < 3 -> N.testbit (final_xcr0 x) j = true).
  { intros j Hj. unfold final_xcr0. rewrite two_halves by (first [exact HLo|lia]). rewrite N.lor_spec. assert (V : j = 0 \/ j = 1 \/ j = 2) by lia. destruct V as [->|[->| ->]]; apply orb_true_r. }
  nz Fe GW; [|cbn [step rcx rdx rax]; change (w32 0 =? 0) with true; cbv iota; rewrite (w32_small (x / 2 ^ 32)), (w32_small (N.lor _ _)) by assumption; fold (final_xcr0 x);
    unfold write_xcr0; cbn [cr4]; rewrite J18, S4, !X by reflexivity; cbn [negb andb orb]; unfold set_control; cbn [rax rbx rcx rdx rsp eflags cr0 cr3 cr4 efer xcr0 cs ss ds es fs gs gdtr idtr mem]; reflexivity].
  assert (SB : stack_bottom L < 2 ^ 32) by (rewrite stack_bottom_eq; destruct LO; lia). assert (SL : 8 <= stack_bottom L) by (rewrite stack_bottom_eq; lia).
  nz Fe GW; [|cbn [step operand_value set]; rewrite (w32_small (stack_bottom L)) by exact SB; reflexivity].
  cbn [run]. rewrite Fe by exact J12. change (nth_error (boot L) 87) with (Some (64, ICall)). cbn [negb]. rewrite GW. change (64 =? 64) with true. cbn [negb step].
  unfold push. cbn [rsp mem]. rewrite flat_store by (first [apply GF; exact J12|change (N.of_nat 8) with 8; lia]).
  eexists. split; [reflexivity|]. cbn [rax rbx rcx rdx rsp eflags cr0 cr3 cr4 efer xcr0 cs ss ds es fs gs gdtr idtr mem]. repeat split. congruence.
Qed.

(** *** All of it *)
Definition stop (o : outcome) : Prop := exists s, o = OHalts s.
Record start_state (L : layout) (s s' : state) : Prop := mkStart {
  st_cr0 : cr0 s' = final_cr0 (N.lor (cr0 s) (2 ^ 31)); st_cr3 : cr3 s' = pml4 L; st_cr4 : cr4 s' = final_cr4 (N.lor (cr4 s) (2 ^ 5));
  st_lma : N.testbit (efer s') 10 = true; st_xcr0 : xcr0 s' = final_xcr0 (xcr0 s); st_cs : cs s' = CODE;
  st_ss : ss s' = 0; st_ds : ds s' = 0; st_es : es s' = 0; st_fs : fs s' = 0; st_gs : gs s' = 0; st_gdtr : gdtr s' = (rodata L, 15); st_idtr : idtr s' = idtr s;
  st_rsp : rsp s' = stack_bottom L; st_if : N.testbit (eflags s') 9 = false; st_tables : tables (mem s') L; st_flat : flat s';
  st_mem : forall x, (x < stack_bottom L - 4 \/ stack_bottom L <= x) -> (x < pml4 L \/ pml4 L + 4 <= x) -> mem s' x = mem s x }.
Definition forall_features (p : feature -> bool) : bool :=
  forallb p [LongMode; Mmx; Sse; Sse2; Sse3; Ssse3; Sse41; Sse42; Popcnt; Avx; Aes; Pclmul; Rdrand; F16c; Cmpxchg16b; Cmpxchg8b; Fpu; Fxsr; Pae; Page1G; Tsc; InvariantTsc; Msr; Xsave].
Lemma passes_supports : forall c, has_cpuid c = true -> passes c = ((2 <? max_basic c) && (0x80000007 <=? max_extended c) && forall_features (supports c) && N.testbit (a_ebx (cpuid c 7 0)) 0).
Proof.
  intros c H. unfold passes, forall_features, forallb, supports, where_is, ecx_bits, edx_bits, leaf_exists. rewrite H.
  change (1 <? 0x80000000) with true. change (0x80000001 <? 0x80000000) with false. change (0x80000007 <? 0x80000000) with false. change (1 =? 0) with false. change (0x80000001 =? 0x80000000) with false. change (0x80000007 =? 0x80000000) with false. cbn [orb andb]. cbv iota.
  destruct (N.ltb_spec 2 (max_basic c)); [|reflexivity]. destruct (N.leb_spec 0x80000007 (max_extended c)); [|reflexivity].
  rewrite (proj2 (N.leb_le 1 (max_basic c))), (proj2 (N.leb_le 0x80000001 (max_extended c))) by lia. cbn [andb].
  repeat match goal with |- context [N.testbit ?a ?b] => let v := fresh in generalize (N.testbit a b); intros v end.
  repeat match goal with |- context [andb ?b _] => is_var b; destruct b; cbn [andb] end; reflexivity.
Qed.
Theorem boot_outcome : forall c L s n, cpu_ok c -> layout_ok L -> grub L s -> (90 <= n)%nat ->
  exists s', run n c L 0 s = (if has_cpuid c && passes c then if N.testbit (cr4 s) 12 then OFaults s' else OStarts s' else OHalts s') /\
  (has_cpuid c && passes c = true -> N.testbit (cr4 s) 12 = false -> start_state L s s').
Proof.
  intros c L s n CO LO G Hn. assert (D : exists k, n = (11 + S (S (S (30 + S (S (S (15 + S (S (20 + S k)))))))))%nat) by (exists (n - 85)%nat; lia). destruct D as (k & ->).
  destruct (phase_cpuid c L s (30 + S (S (S (15 + S (S (20 + S k)))))) LO G) as (s1 & R1 & F1). rewrite R1. destruct (has_cpuid c) eqn:HC; cbn [andb]; [|exists s1; split; [reflexivity|discriminate]].
  destruct (F1 eq_refl) as (C1 & I1 & M1 & B1). clear F1 R1. pose proof C1 as (c10 & c13 & c14 & c1e & c1x & c1c & _ & _ & _ & _ & _ & _ & c1i).
  change (S (S (30 + S (S (S (15 + S (S (20 + S k))))))))%nat with (32 + S (S (S (15 + S (S (20 + S k))))))%nat.
  destruct (phase_features c L s1 (15 + S (S (20 + S k))) CO LO HC) as (s2 & R2 & C2 & I2 & M2); [unfold paging; rewrite c10; apply G|rewrite c1e; apply G|rewrite c1c; apply G|].
  rewrite R2. destruct (passes c) eqn:PC; [|exists s2; split; [reflexivity|discriminate]]. clear R2. pose proof C2 as (c20 & c23 & c24 & c2e & c2x & c2c & _ & _ & _ & _ & _ & _ & c2i).
  rewrite passes_supports in PC by exact HC. apply andb_prop in PC as [PC _]. apply andb_prop in PC as [_ PC]. unfold forall_features in PC. rewrite forallb_forall in PC.
  assert (IM : image L (mem s2)).
  { rewrite M2. apply (image_ext L (mem s)); try assumption. destruct G. constructor; assumption. }
  change (S (S (15 + S (S (20 + S k)))))%nat with (17 + S (S (20 + S k)))%nat.
  destruct (phase_paging c L s2 (20 + S k) LO IM) as (s3 & R3 & F3); rewrite ?c20, ?c10, ?c24, ?c14, ?c2e, ?c1e, ?c2c, ?c1c; try apply G; try (apply PC; cbn [In]; tauto).
  rewrite c24, c14 in *. rewrite R3. destruct (N.testbit (cr4 s) 12) eqn:LA; [exists s3; split; [reflexivity|discriminate]|].
  destruct (F3 eq_refl) as (d0 & d3 & d4 & d10 & d8 & dx & dc & dg & di & dm & d9). clear F3 R3.
  change (S (S (20 + S k)))%nat with (22 + S k)%nat.
  destruct (phase_long c L s3 k LO) as (s4 & R4 & e0 & e3 & e4 & ee & ex & ec & f1 & f2 & f3 & f4 & f5 & eg & ei & em & ep & e9); try (apply PC; cbn [In]; tauto); try assumption.
  - rewrite dm. apply tables_after; assumption.
  - rewrite d0, c20, c10, lor_bit_other by discriminate. apply G.
  - rewrite d0. apply lor_bit_self.
  - rewrite d4. apply lor_bit_self.
  - rewrite d4, lor_bit_other by discriminate. exact LA.
  - rewrite dx, c2x, c1x. apply G.
  - exists s4. split; [exact R4|]. intros _ _.
    assert (T4 : tables (mem s4) L) by (rewrite em, dm; apply tables_after; assumption).
    constructor; try congruence; try (rewrite ?e0, ?e3, ?e4, ?ee, ?ex; congruence).
    + apply (flat_on _ L); try assumption.
      * rewrite pml4_eq; apply lo_data; exact LO.
      * rewrite pdpt_eq, <- N.add_mod_idemp_l, lo_data by (first [exact LO|discriminate]); reflexivity.
      * rewrite pml4_eq; destruct LO; lia.
      * rewrite pdpt_eq; destruct LO; lia.
      * unfold long. rewrite ee. exact d10.
      * rewrite e4, d4. unfold final_cr4. change (2 ^ 9 + 2 ^ 10) with (N.lor (2 ^ 9) (2 ^ 10)). rewrite !N.lor_spec, LA. reflexivity.
      * congruence.
    + intros x Hx Hy. rewrite em, dm. unfold table_mem. rewrite poke_out by (change (N.of_nat 4) with 4; lia). rewrite M2. apply M1. exact Hx.
Qed.
