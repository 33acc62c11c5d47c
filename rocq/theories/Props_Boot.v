(** * The bare-metal start-up code (boot.asm): C137 - C139

    boot.asm opens with a claim: the processor halts, or resets, or [_start] is called in a state
    that the comment describes, provided that the boot loader did what the Multiboot2 specification
    says ([grub]) and that the image is where the linker put it ([layout_ok]).  Here this is a
    statement about the instructions of the file, for every processor, layout and initial state. *)

From Coq Require Import NArith List Bool Lia Arith.
From Verif Require Import Boot BootFacts BootRun.
Import ListNotations.
Open Scope N_scope.

(** [boots c L s o]: from [s], the code ends with [o]. *)
Definition boots (c : cpu) (L : layout) (s : state) (o : outcome) : Prop := exists n, run n c L 0 s = o /\ o <> OMore.

Lemma run_more : forall n c L i s, run n c L i s <> OMore -> forall m, (n <= m)%nat -> run m c L i s = run n c L i s.
Proof.
  induction n as [|n IH]; intros c L i s H m Hm; [exfalso; apply H; reflexivity|]. destruct m as [|m]; [lia|]. cbn [run] in *.
  destruct (nth_error (boot L) i) as [[b x]|]; [|reflexivity]. destruct (negb (fetched s (code_at L i))); [reflexivity|]. destruct (negb (width s =? b)); [reflexivity|].
  destruct (step c s x) as [t|l t|t|t|t]; try reflexivity; [apply IH; [exact H|lia]|]. destruct (find_label l (boot L) 0); [apply IH; [exact H|lia]|reflexivity].
Qed.
Lemma boots_is : forall c L s o n, boots c L s o -> (forall k, (n <= k)%nat -> run k c L 0 s = run n c L 0 s) -> run n c L 0 s = o.
Proof.
  intros c L s o n (m & R & H) K. destruct (Nat.le_ge_cases m n) as [Q|Q].
  - rewrite (run_more m c L 0 s) by (first [rewrite R; exact H|exact Q]). exact R.
  - rewrite <- (K m Q). exact R.
Qed.
(** Ninety steps are enough, and then the outcome is that of [boot_outcome]. *)
Lemma boots_final : forall c L s o, cpu_ok c -> layout_ok L -> grub L s -> boots c L s o ->
  exists s', o = (if has_cpuid c && passes c then if N.testbit (cr4 s) 12 then OFaults s' else OStarts s' else OHalts s') /\
  (has_cpuid c && passes c = true -> N.testbit (cr4 s) 12 = false -> start_state L s s').
Proof.
  intros c L s o CO LO G B. destruct (boot_outcome c L s 90 CO LO G (le_n _)) as (s' & R & F). exists s'. split; [|exact F]. rewrite <- R. symmetry.
  apply boots_is; [exact B|]. intros k Hk. apply run_more; [|exact Hk]. rewrite R. destruct (has_cpuid c && passes c); [destruct (N.testbit (cr4 s) 12)|]; discriminate.
Qed.
Lemma boots_starts : forall c L s s', cpu_ok c -> layout_ok L -> grub L s -> boots c L s (OStarts s') -> has_cpuid c = true /\ passes c = true /\ N.testbit (cr4 s) 12 = false /\ start_state L s s'.
Proof.
  intros c L s s' CO LO G B. destruct (boots_final c L s _ CO LO G B) as (t & E & F). destruct (has_cpuid c && passes c) eqn:P; [|discriminate]. destruct (N.testbit (cr4 s) 12); [discriminate|].
  injection E as <-. apply andb_prop in P as P'. destruct P'. auto.
Qed.

(** ** A machine *)
Definition ex_layout : layout := mkL 0x200000 0x400000 0x500000 (fun i => 0x100000 + N.min (4 * N.of_nat i) 0x1000).
Definition ex_cpu (basic : N) : cpu :=
  mkCpu true (fun l _ => mkAnswer (if l =? 0 then basic else if l =? 0x80000000 then 0x80000008 else 0) (2 ^ 32 - 1) (2 ^ 32 - 1) (2 ^ 32 - 1)) (fun f v => f + v).
(** What is in memory: an address, a number of bytes, a value.  The last is a gate of an interrupt table, for the exception with number 13. *)
Definition ex_contents : list (N * N * N) :=
  [(0x401000, 8, 131); (0x401008, 8, 2 ^ 30 + 131); (0x401010, 8, 2 * 2 ^ 30 + 131); (0x401018, 8, 3 * 2 ^ 30 + 131);
   (0x500008, 8, CODE); (0x500010, 2, 15); (0x500012, 8, 0x500000); (0x600000 + 16 * 13, 8, 2 ^ 47 + 14 * 2 ^ 40 + 8 * 2 ^ 16)].
Definition ex_mem (x : N) : N :=
  match find (fun '(a, n, _) => (a <=? x) && (x <? a + n)) ex_contents with Some (a, _, v) => (v / 256 ^ (x - a)) mod 256 | None => 0 end.
(** CR0 has PE and what is given. *)
Definition ex_state (more_cr0 the_cr4 idt_limit : N) : state :=
  mkS 0x36d76289 0x10000 7 8 0x7ff00 2 (1 + more_cr0) 0 the_cr4 0 1 (2 ^ 54 + 2 ^ 47 + 2 ^ 44 + 2 ^ 43 + 2 ^ 41) 24 24 24 24 24 (0x9000, 39) (0x600000, idt_limit) ex_mem.

Lemma ex_cpu_ok : forall b, b < 2 ^ 32 -> cpu_ok (ex_cpu b).
Proof.
  intros b H. constructor; intros; try reflexivity. cbn. destruct (l =? 0); [exact H|]. destruct (l =? 0x80000000); reflexivity.
Qed.
Lemma ex_layout_ok : layout_ok ex_layout.
Proof.
  constructor; cbn [bss data rodata code_at ex_layout]; [reflexivity|reflexivity|reflexivity|discriminate|discriminate|left; discriminate|left; discriminate|left; discriminate|].
  intros i. assert (N.min (4 * N.of_nat i) 0x1000 <= 0x1000) by apply N.le_min_r. generalize dependent (N.min (4 * N.of_nat i) 0x1000). intros. lia.
Qed.
Lemma peek_zero : forall n m a, (forall x, a <= x < a + N.of_nat n -> m x = 0) -> peek m a n = 0.
Proof. induction n as [|n IH]; intros m a H; [reflexivity|]. change (peek m a (S n)) with (m a + 256 * peek m (a + 1) n). rewrite H by lia. rewrite IH; [reflexivity|]. intros x Hx. apply H. lia. Qed.
Lemma ex_mem_zero : forall x, (x < 0x401000 \/ 0x401020 <= x < 0x500008) -> ex_mem x = 0.
Proof.
  intros x H. unfold ex_mem, ex_contents. cbn [find].
  repeat match goal with |- context [(?a <=? x) && (x <? ?b)] => replace ((a <=? x) && (x <? b)) with false by (symmetry; apply andb_false_iff; rewrite N.leb_gt, N.ltb_ge; lia) end. reflexivity.
Qed.
Lemma ex_mem_byte : forall x, ex_mem x < 256.
Proof. intros x. unfold ex_mem. destruct (find _ ex_contents) as [[[a n] v]|]; [apply N.mod_lt; discriminate|reflexivity]. Qed.
Lemma ex_grub : forall c0 c4 i, c0 = 0 \/ c0 = 2 ^ 3 -> c4 = 0 \/ c4 = 2 ^ 12 -> grub ex_layout (ex_state c0 c4 i).
Proof.
  intros c0 c4 i H0 H4. constructor; cbn [cr0 cr4 efer xcr0 cs eflags mem ex_state].
  1-3: destruct H0 as [->| ->]; vm_compute; reflexivity.
  1: destruct H4 as [->| ->]; vm_compute; reflexivity.
  1-8: vm_compute; reflexivity.
  1: exact ex_mem_byte.
  2: vm_compute; reflexivity.
  - intros a n v k H Hk.
    assert (One : forall a v, (a, 1, v) = (a, n, v) -> peek ex_mem a 8 = v -> peek ex_mem (a + 8 * k) 8 = v) by (intros a' v' E V; assert (En : n = 1) by congruence; replace (a' + 8 * k) with a' by lia; exact V).
    unfold data_quads, rodata_quads in H. cbn [app In] in H. decompose [or] H; try contradiction; clear H;
    match goal with E : (_, _, _) = (a, n, v) |- _ => assert (Ha := f_equal (fun t => fst (fst t)) E); assert (Hn := f_equal (fun t => snd (fst t)) E); assert (Hv := f_equal snd E); cbn [fst snd] in Ha, Hn, Hv; clear E; subst a n v end.
    all: try (assert (k = 0) by lia; subst k; vm_compute; reflexivity).
    all: apply peek_zero; intros x Hx; apply ex_mem_zero; unfold pml4, pdpt in Hx; change (data ex_layout) with 0x400000 in Hx; change (align_up 0 4096) with 0 in Hx; change (align_up (0 + 512 * 8) 4096) with 4096 in Hx; change (N.of_nat 8) with 8 in Hx; lia.
Qed.

(** ** C137: how the code ends, and on which processors it starts the program *)

(** The features the comment lists (boot.asm 8-33). *)
Definition required : list feature :=
  [LongMode; Mmx; Sse; Sse2; Sse3; Ssse3; Sse41; Sse42; Popcnt; Avx; Aes; Pclmul; Fsgsbase; Rdrand; F16c; Cmpxchg16b; Fpu; Fxsr; Pae; Page1G; Tsc; InvariantTsc; Msr].

(** One and only one of: the processor halts; it resets; the program starts. *)
Theorem C137_one_outcome : forall c L s, cpu_ok c -> layout_ok L -> grub L s ->
  exists o, boots c L s o /\ (forall o', boots c L s o' -> o' = o) /\ exists s', o = OHalts s' \/ o = OFaults s' \/ o = OStarts s'.
Proof.
  intros c L s CO LO G. destruct (boot_outcome c L s 90 CO LO G (le_n _)) as (s' & R & F). exists (run 90 c L 0 s).
  assert (NM : run 90 c L 0 s <> OMore) by (rewrite R; destruct (has_cpuid c && passes c); [destruct (N.testbit (cr4 s) 12)|]; discriminate).
  split; [exists 90%nat; split; [reflexivity|exact NM]|]. split.
  - intros o' B. symmetry. apply boots_is; [exact B|]. intros k Hk. apply run_more; assumption.
  - exists s'. rewrite R. destruct (has_cpuid c && passes c); [destruct (N.testbit (cr4 s) 12)|]; auto.
Qed.
Print Assumptions C137_one_outcome.

(** It resets only if the boot loader left five-level paging on. *)
Theorem C137_no_reset : forall c L s s', cpu_ok c -> layout_ok L -> grub L s -> boots c L s (OFaults s') -> N.testbit (cr4 s) 12 = true.
Proof.
  intros c L s s' CO LO G B. destruct (boots_final c L s _ CO LO G B) as (t & E & _). destruct (has_cpuid c && passes c); [|discriminate]. destruct (N.testbit (cr4 s) 12); [reflexivity|discriminate].
Qed.
Print Assumptions C137_no_reset.

(** A processor with everything in the list, and the two features the code also needs, is not refused. *)
Theorem C137_starts : forall c L s, cpu_ok c -> layout_ok L -> grub L s -> N.testbit (cr4 s) 12 = false ->
  (forall f, In f required -> supports c f = true) -> supports c Cmpxchg8b = true -> supports c Xsave = true -> exists s', boots c L s (OStarts s').
Proof.
  intros c L s CO LO G H5 HS HX HY. assert (HC : has_cpuid c = true).
  { specialize (HS LongMode (or_introl eq_refl)). unfold supports in HS. cbn [where_is] in HS. destruct (has_cpuid c); [reflexivity|discriminate]. }
  assert (E7 : leaf_exists c 7 = true /\ N.testbit (a_ebx (info c 7 0)) 0 = true).
  { specialize (HS Fsgsbase ltac:(cbn; tauto)). unfold supports in HS. cbn [where_is] in HS. rewrite HC in HS. cbn [andb] in HS. apply andb_prop in HS. exact HS. }
  assert (EI : leaf_exists c 0x80000007 = true).
  { specialize (HS InvariantTsc ltac:(cbn; tauto)). unfold supports in HS. cbn [where_is] in HS. rewrite HC in HS. cbn [andb] in HS. apply andb_prop in HS. apply HS. }
  assert (P : passes c = true).
  { rewrite passes_supports by exact HC. unfold cpuid. destruct E7 as [E7 E0]. rewrite E7, E0. unfold leaf_exists in E7, EI. change (7 <? 0x80000000) with true in E7. change (7 =? 0) with false in E7. change (0x80000007 <? 0x80000000) with false in EI. change (0x80000007 =? 0x80000000) with false in EI. cbn [orb] in E7, EI. apply N.leb_le in E7.
    rewrite EI, (proj2 (N.ltb_lt 2 (max_basic c))) by lia. cbn [andb]. rewrite andb_true_r. unfold forall_features. rewrite forallb_forall. intros f Hf. cbn [In] in Hf. decompose [or] Hf; try contradiction; subst f; first [assumption|apply HS; cbn [In required]; tauto]. }
  destruct (boot_outcome c L s 90 CO LO G (le_n _)) as (s' & R & _). rewrite HC, P, H5 in R. cbn [andb] in R. exists s', 90%nat. split; [exact R|discriminate].
Qed.
Print Assumptions C137_starts.

(** If the program starts, the processor has everything in the list; except that FSGSBASE is only
    known if the processor has the CPUID leaf with the answer. *)
Theorem C137_features_partial : forall c L s s', cpu_ok c -> layout_ok L -> grub L s -> boots c L s (OStarts s') ->
  has_cpuid c = true /\ forall f, In f required -> f <> Fsgsbase \/ 7 <= max_basic c -> supports c f = true.
Proof.
  intros c L s s' CO LO G B. destruct (boots_starts c L s s' CO LO G B) as (HC & P & _ & _). split; [exact HC|]. intros f Hf HF.
  rewrite passes_supports in P by exact HC. apply andb_prop in P as [P P7]. apply andb_prop in P as [_ P]. unfold forall_features in P. rewrite forallb_forall in P.
  destruct HF as [HF|HF].
  - destruct f; first [apply P; cbn [In]; tauto|elim HF; reflexivity].
  - destruct f; try (apply P; cbn [In]; tauto). unfold supports. cbn [where_is]. rewrite HC. unfold cpuid in P7.
    assert (E : leaf_exists c 7 = true) by (unfold leaf_exists; change (7 <? 0x80000000) with true; change (7 =? 0) with false; apply N.leb_le; exact HF). rewrite E in *. exact P7.
Qed.
Print Assumptions C137_features_partial.
Lemma ex_starts : forall b c0 i, b < 2 ^ 32 -> 2 < b -> c0 = 0 \/ c0 = 2 ^ 3 -> exists s', boots (ex_cpu b) ex_layout (ex_state c0 0 i) (OStarts s').
Proof.
  intros b c0 i Hb H2 H0. destruct (boot_outcome (ex_cpu b) ex_layout (ex_state c0 0 i) 90 (ex_cpu_ok b Hb) ex_layout_ok (ex_grub c0 0 i H0 (or_introl eq_refl)) (le_n _)) as (s' & R & _).
  assert (P : has_cpuid (ex_cpu b) && passes (ex_cpu b) = true).
  { change (has_cpuid (ex_cpu b)) with true. cbn [andb]. unfold passes. change (max_basic (ex_cpu b)) with b. rewrite (proj2 (N.ltb_lt 2 b) H2). unfold cpuid. destruct (leaf_exists (ex_cpu b) 7); reflexivity. }
  rewrite P in R. exists s', 90%nat. split; [exact R|discriminate].
Qed.
(** C137 is false: the code asks for more than two leaves, and then for leaf 7.  A processor whose last leaf is the third answers with
    what is in the third. *)
Theorem C137_features_refuted : exists c L s s', cpu_ok c /\ layout_ok L /\ grub L s /\ boots c L s (OStarts s') /\ In Fsgsbase required /\ supports c Fsgsbase = false.
Proof.
  destruct (ex_starts 3 0 0) as (s' & B); [reflexivity|reflexivity|auto|]. exists (ex_cpu 3), ex_layout, (ex_state 0 0 0), s'.
  split; [apply ex_cpu_ok; reflexivity|]. split; [exact ex_layout_ok|]. split; [apply ex_grub; auto|]. split; [exact B|]. split; [cbn; tauto|vm_compute; reflexivity].
Qed.
Print Assumptions C137_features_refuted.
(** The machine of the examples meets the premises: it halts without CPUID's leaves, resets with five-level paging, starts otherwise. *)
Example C137_ex_start : (forall f, In f required -> supports (ex_cpu 22) f = true) /\ exists s', boots (ex_cpu 22) ex_layout (ex_state 0 0 0) (OStarts s').
Proof. split; [|apply ex_starts; [reflexivity|reflexivity|auto]]. intros f H. cbn [In required] in H. decompose [or] H; try contradiction; subst f; vm_compute; reflexivity. Qed.
Example C137_ex_reset : exists s', boots (ex_cpu 22) ex_layout (ex_state 0 (2 ^ 12) 0) (OFaults s').
Proof.
  destruct (boot_outcome (ex_cpu 22) ex_layout (ex_state 0 (2 ^ 12) 0) 90 (ex_cpu_ok 22 eq_refl) ex_layout_ok (ex_grub 0 (2 ^ 12) 0 (or_introl eq_refl) (or_intror eq_refl)) (le_n _)) as (s' & R & _).
  assert (P : has_cpuid (ex_cpu 22) && passes (ex_cpu 22) = true) by (vm_compute; reflexivity). rewrite P in R. change (N.testbit (cr4 (ex_state 0 (2 ^ 12) 0)) 12) with true in R. exists s', 90%nat. split; [exact R|discriminate].
Qed.
Example C137_ex_halt : exists s', boots (ex_cpu 2) ex_layout (ex_state 0 0 0) (OHalts s').
Proof.
  destruct (boot_outcome (ex_cpu 2) ex_layout (ex_state 0 0 0) 90 (ex_cpu_ok 2 eq_refl) ex_layout_ok (ex_grub 0 0 0 (or_introl eq_refl) (or_introl eq_refl)) (le_n _)) as (s' & R & _).
  assert (P : has_cpuid (ex_cpu 2) && passes (ex_cpu 2) = false) by (vm_compute; reflexivity). rewrite P in R. exists s', 90%nat. split; [exact R|discriminate].
Qed.

(** ** C138: the state in which the program starts *)

(** What the comment says (34-40), without the words about reading code and about the interrupt table. *)
Record promised (L : layout) (s : state) : Prop := mkPromised {
  pr_64 : long s = true /\ N.testbit (cs s) 53 = true /\ N.testbit (cs s) 54 = false;
  pr_code : N.testbit (cs s) 47 = true /\ N.testbit (cs s) 44 = true /\ N.testbit (cs s) 43 = true;
  pr_level : N.testbit (cs s) 45 = false /\ N.testbit (cs s) 46 = false;
  pr_null : ss s = 0 /\ ds s = 0 /\ es s = 0 /\ fs s = 0 /\ gs s = 0;
  pr_paging : paging s = true;
  pr_identity : forall v, v < 2 ^ 32 -> translate s v = Some (mkMap v true true);
  pr_stack : rsp s = bss L + 2 ^ 20 /\ rsp s mod 16 = 0;
  pr_interrupts : N.testbit (eflags s) 9 = false }.
Theorem C138_state_partial : forall c L s s', cpu_ok c -> layout_ok L -> grub L s -> boots c L s (OStarts s') -> promised L s'.
Proof.
  intros c L s s' CO LO G B. destruct (boots_starts c L s s' CO LO G B) as (_ & _ & _ & F). destruct F. constructor; rewrite ?st_cs; auto 6.
  - unfold paging. rewrite st_cr0. unfold final_cr0. rewrite N.lor_spec, N.land_spec, lor_bit_self. reflexivity.
  - split; [rewrite st_rsp; apply stack_bottom_eq|]. rewrite st_rsp, stack_bottom_eq, N.add_mod, (lo_bss L LO) by discriminate. reflexivity.
Qed.
Print Assumptions C138_state_partial.
(** Nothing else in memory changes: only the entry of the top page table, and the word in which the flags were looked at. *)
Theorem C138_memory : forall c L s s' x, cpu_ok c -> layout_ok L -> grub L s -> boots c L s (OStarts s') ->
  ~ (data L <= x < data L + 4) -> ~ (bss L + 2 ^ 20 - 4 <= x < bss L + 2 ^ 20) -> mem s' x = mem s x.
Proof.
  intros c L s s' x CO LO G B H1 H2. destruct (boots_starts c L s s' CO LO G B) as (_ & _ & _ & F). apply (st_mem _ _ _ F); rewrite ?stack_bottom_eq, ?pml4_eq; lia.
Qed.
Print Assumptions C138_memory.
(** The descriptor's "read" bit (41) is not set: the code segment is execute-only. *)
Theorem C138_read_refuted : exists c L s s', cpu_ok c /\ layout_ok L /\ grub L s /\ boots c L s (OStarts s') /\ N.testbit (cs s') 41 = false.
Proof.
  destruct (ex_starts 22 0 0) as (s' & B); [reflexivity|reflexivity|auto|]. exists (ex_cpu 22), ex_layout, (ex_state 0 0 0), s'.
  pose proof (ex_cpu_ok 22 eq_refl) as CO. pose proof (ex_grub 0 0 0 (or_introl eq_refl) (or_introl eq_refl)) as G.
  destruct (boots_starts _ _ _ _ CO ex_layout_ok G B) as (_ & _ & _ & F). rewrite (st_cs _ _ _ F). repeat (split; [first [exact CO|exact ex_layout_ok|exact G|exact B]|]). reflexivity.
Qed.
Print Assumptions C138_read_refuted.

(** Interrupts and exceptions (manual, volume 3A, 6.14): one with number [v] is handled if the table has
    its gate, and the gate is present, is one for interrupts or traps, and names a 64-bit code segment. *)
Definition handles (s : state) (v : N) : bool :=
  (16 * v + 15 <=? snd (idtr s)) &&
  match load s (fst (idtr s) + 16 * v) 8 with
  | Some g => let sel := (g / 2 ^ 16) mod 2 ^ 16 in
      N.testbit g 47 && (((g / 2 ^ 40) mod 16 =? 14) || ((g / 2 ^ 40) mod 16 =? 15)) && negb (sel =? 0) && (sel + 7 <=? snd (gdtr s)) &&
      match load s (fst (gdtr s) + sel) 8 with Some d => good_code s d && N.testbit d 53 | None => false end
  | None => false
  end.
(** If the boot loader left an empty table, there are no handlers. *)
Theorem C138_idt_partial : forall c L s s', cpu_ok c -> layout_ok L -> grub L s -> boots c L s (OStarts s') -> snd (idtr s) < 15 -> forall v, handles s' v = false.
Proof.
  intros c L s s' CO LO G B H v. destruct (boots_starts c L s s' CO LO G B) as (_ & _ & _ & F). unfold handles. rewrite (st_idtr _ _ _ F). destruct (N.leb_spec (16 * v + 15) (snd (idtr s))); [lia|reflexivity].
Qed.
Print Assumptions C138_idt_partial.
(** The code does not touch the table: with one left from before, an exception does not reset the processor. *)
Theorem C138_idt_refuted : exists c L s s', cpu_ok c /\ layout_ok L /\ grub L s /\ boots c L s (OStarts s') /\ handles s' 13 = true.
Proof.
  destruct (ex_starts 22 0 4095) as (s' & B); [reflexivity|reflexivity|auto|]. exists (ex_cpu 22), ex_layout, (ex_state 0 0 4095), s'.
  pose proof (ex_cpu_ok 22 eq_refl) as CO. pose proof (ex_grub 0 0 4095 (or_introl eq_refl) (or_introl eq_refl)) as G.
  destruct (boots_starts _ _ _ _ CO ex_layout_ok G B) as (_ & _ & _ & F). repeat (split; [first [exact CO|exact ex_layout_ok|exact G|exact B]|]).
  assert (M : forall a, (0x500000 <= a <= 0x700000) -> peek (mem s') a 8 = peek ex_mem a 8).
  { intros a Ha. apply peek_ext. intros x Hx. apply (st_mem _ _ _ F); [rewrite stack_bottom_eq|rewrite pml4_eq]; cbn [bss data ex_layout]; right; lia. }
  unfold handles. rewrite (st_idtr _ _ _ F), (st_gdtr _ _ _ F). cbn [idtr ex_state fst snd rodata ex_layout].
  rewrite flat_load by (first [apply (st_flat _ _ _ F)|discriminate]). rewrite M by lia.
  assert (E1 : peek ex_mem (0x600000 + 16 * 13) 8 = 2 ^ 47 + 14 * 2 ^ 40 + 8 * 2 ^ 16) by (vm_compute; reflexivity). rewrite E1. cbv zeta.
  change ((2 ^ 47 + 14 * 2 ^ 40 + 8 * 2 ^ 16) / 2 ^ 16 mod 2 ^ 16) with 8.
  rewrite flat_load by (first [apply (st_flat _ _ _ F)|discriminate]). rewrite M by lia. assert (E2 : peek ex_mem (0x500000 + 8) 8 = CODE) by (vm_compute; reflexivity). rewrite E2.
  assert (E3 : good_code s' CODE = true) by (unfold good_code; change (N.testbit CODE 54) with false; rewrite andb_false_r; reflexivity). rewrite E3. vm_compute. reflexivity.
Qed.
Print Assumptions C138_idt_refuted.
Example C138_ex : exists s', boots (ex_cpu 22) ex_layout (ex_state 0 0 0) (OStarts s') /\ rsp s' = 0x300000 /\ translate s' 0xFEE00000 = Some (mkMap 0xFEE00000 true true) /\ peek (mem s') 0x400000 8 = 0x401003.
Proof.
  destruct (ex_starts 22 0 0) as (s' & B); [reflexivity|reflexivity|auto|]. exists s'. split; [exact B|].
  pose proof (ex_cpu_ok 22 eq_refl) as CO. pose proof (ex_grub 0 0 0 (or_introl eq_refl) (or_introl eq_refl)) as G. destruct (boots_starts _ _ _ _ CO ex_layout_ok G B) as (_ & _ & _ & F).
  destruct (C138_state_partial _ _ _ _ CO ex_layout_ok G B). split; [apply pr_stack0|]. split; [apply pr_identity0; reflexivity|]. exact (t_top _ _ (st_tables _ _ _ F)).
Qed.

(** ** C139: SSE and AVX are enabled *)

(** Manual, volume 1, 11.6 and 14.1: instructions that use XMM registers do not raise an exception if CR4.OSFXSR is set and CR0.EM and CR0.TS are clear;
    for YMM registers, CR4.OSXSAVE and both bits in XCR0 must be set and CR0.TS clear. *)
Definition sse_enabled (s : state) : bool := N.testbit (cr4 s) 9 && N.testbit (cr4 s) 10 && negb (N.testbit (cr0 s) 2) && negb (N.testbit (cr0 s) 3).
Definition avx_enabled (s : state) : bool := N.testbit (cr4 s) 18 && N.testbit (xcr0 s) 1 && N.testbit (xcr0 s) 2 && negb (N.testbit (cr0 s) 3).
Lemma final_bits : forall c L s s', cpu_ok c -> layout_ok L -> grub L s -> boots c L s (OStarts s') ->
  sse_enabled s' = negb (N.testbit (cr0 s) 3) /\ avx_enabled s' = negb (N.testbit (cr0 s) 3) /\ N.testbit (cr0 s') 1 = true.
Proof.
  intros c L s s' CO LO G B. destruct (boots_starts c L s s' CO LO G B) as (_ & _ & _ & F). unfold sse_enabled, avx_enabled. rewrite (st_cr0 _ _ _ F), (st_cr4 _ _ _ F), (st_xcr0 _ _ _ F).
  unfold final_cr0, final_cr4, final_xcr0. rewrite !two_halves by (first [apply lor_lt; [apply w32_lt|reflexivity]|reflexivity]). rewrite !N.lor_spec, !N.land_spec, !N.lor_spec.
  change (N.testbit (2 ^ 9 + 2 ^ 10) 9) with true. change (N.testbit (2 ^ 9 + 2 ^ 10) 10) with true. change (N.testbit (2 ^ 64 - 1 - 2 ^ 2) 2) with false. change (N.testbit (2 ^ 64 - 1 - 2 ^ 2) 3) with true.
  change (N.testbit (2 ^ 18) 18) with true. change (N.testbit 7 1) with true. change (N.testbit 7 2) with true. change (N.testbit (2 ^ 1) 1) with true. change (N.testbit (2 ^ 1) 2) with false. change (N.testbit (2 ^ 1) 3) with false. change (N.testbit (2 ^ 31) 3) with false.
  rewrite !orb_true_r, !andb_false_r, !orb_false_r, !andb_true_r. auto.
Qed.
Theorem C139_enabled_partial : forall c L s s', cpu_ok c -> layout_ok L -> grub L s -> boots c L s (OStarts s') -> N.testbit (cr0 s) 3 = false -> sse_enabled s' = true /\ avx_enabled s' = true.
Proof. intros c L s s' CO LO G B H. destruct (final_bits c L s s' CO LO G B) as (E1 & E2 & _). rewrite E1, E2, H. auto. Qed.
Print Assumptions C139_enabled_partial.
(** CR0.TS is left as it is, and nothing in the assumptions is about it. *)
Theorem C139_enabled_refuted : exists c L s s', cpu_ok c /\ layout_ok L /\ grub L s /\ boots c L s (OStarts s') /\ sse_enabled s' = false /\ avx_enabled s' = false.
Proof.
  destruct (ex_starts 22 (2 ^ 3) 0) as (s' & B); [reflexivity|reflexivity|auto|]. exists (ex_cpu 22), ex_layout, (ex_state (2 ^ 3) 0 0), s'.
  pose proof (ex_cpu_ok 22 eq_refl) as CO. pose proof (ex_grub (2 ^ 3) 0 0 (or_intror eq_refl) (or_introl eq_refl)) as G.
  destruct (final_bits _ _ _ _ CO ex_layout_ok G B) as (E1 & E2 & _). repeat (split; [first [exact CO|exact ex_layout_ok|exact G|exact B]|]). rewrite E1, E2. split; reflexivity.
Qed.
Print Assumptions C139_enabled_refuted.
Example C139_ex : exists s', boots (ex_cpu 22) ex_layout (ex_state 0 0 0) (OStarts s') /\ sse_enabled s' = true /\ avx_enabled s' = true.
Proof.
  destruct (ex_starts 22 0 0) as (s' & B); [reflexivity|reflexivity|auto|]. exists s'. split; [exact B|].
  exact (C139_enabled_partial _ _ _ _ (ex_cpu_ok 22 eq_refl) ex_layout_ok (ex_grub 0 0 0 (or_introl eq_refl) (or_introl eq_refl)) B eq_refl).
Qed.
