(** * Starting on bare metal (env/src/os/metal/boot.asm)

    The instructions of boot.asm on a machine with the part of the x86 manuals they need: flags,
    control registers, page tables, segments, CPUID.  What the processor supports, the contents
    of registers, the addresses of the sections and of the instructions are arbitrary. *)

From Coq Require Import NArith List Bool Lia Arith.
Import ListNotations.
Open Scope N_scope.

(** ** The processor *)

(** CPUID's answers: EAX, EBX, ECX, EDX for a leaf and a subleaf. *)
Record answer := mkAnswer { a_eax : N; a_ebx : N; a_ecx : N; a_edx : N }.
(** [junk] gives the flags that instructions leave undefined, and those that no instruction of
    boot.asm tests (parity, adjust, sign, overflow). *)
Record cpu := mkCpu { has_cpuid : bool; info : N -> N -> answer; junk : N -> N -> N }.
Definition max_basic (c : cpu) : N := a_eax (info c 0 0).
Definition max_extended (c : cpu) : N := a_eax (info c 0x80000000 0).
Definition leaf_exists (c : cpu) (leaf : N) : bool :=
  if leaf <? 0x80000000 then (leaf =? 0) || (leaf <=? max_basic c) else (leaf =? 0x80000000) || (leaf <=? max_extended c).
(** Manual, volume 2A, CPUID: a leaf that does not exist gives the data of the highest basic leaf. *)
Definition cpuid (c : cpu) (leaf sub : N) : answer := if leaf_exists c leaf then info c leaf sub else info c (max_basic c) sub.

(** The features of the comment at boot.asm 9-33, by leaf, register and bit in the manual. *)
Inductive feature := LongMode | Mmx | Sse | Sse2 | Sse3 | Ssse3 | Sse41 | Sse42 | Popcnt | Avx | Aes | Pclmul | Fsgsbase | Rdrand | F16c
  | Cmpxchg16b | Cmpxchg8b | Fpu | Fxsr | Pae | Page1G | Tsc | InvariantTsc | Msr | Xsave.
Definition where_is (f : feature) : N * (answer -> N) * N :=
  match f with
  | LongMode => (0x80000001, a_edx, 29) | Page1G => (0x80000001, a_edx, 26) | InvariantTsc => (0x80000007, a_edx, 8)
  | Fsgsbase => (7, a_ebx, 0)
  | Sse3 => (1, a_ecx, 0) | Pclmul => (1, a_ecx, 1) | Ssse3 => (1, a_ecx, 9) | Cmpxchg16b => (1, a_ecx, 13) | Sse41 => (1, a_ecx, 19)
  | Sse42 => (1, a_ecx, 20) | Popcnt => (1, a_ecx, 23) | Aes => (1, a_ecx, 25) | Xsave => (1, a_ecx, 26) | Avx => (1, a_ecx, 28)
  | F16c => (1, a_ecx, 29) | Rdrand => (1, a_ecx, 30)
  | Fpu => (1, a_edx, 0) | Tsc => (1, a_edx, 4) | Msr => (1, a_edx, 5) | Pae => (1, a_edx, 6) | Cmpxchg8b => (1, a_edx, 8)
  | Mmx => (1, a_edx, 23) | Fxsr => (1, a_edx, 24) | Sse => (1, a_edx, 25) | Sse2 => (1, a_edx, 26)
  end.
Definition supports (c : cpu) (f : feature) : bool :=
  let '(leaf, reg, bit) := where_is f in has_cpuid c && leaf_exists c leaf && N.testbit (reg (info c leaf 0)) bit.

(** ** The machine *)
Record state := mkS {
  rax : N; rbx : N; rcx : N; rdx : N; rsp : N; eflags : N;
  cr0 : N; cr3 : N; cr4 : N; efer : N; xcr0 : N;
  cs : N; (* the descriptor in use *) ss : N; ds : N; es : N; fs : N; gs : N; (* selectors *)
  gdtr : N * N; idtr : N * N; (* base, limit *) mem : N -> N (* bytes *) }.

Definition w32 (n : N) : N := n mod 2 ^ 32.
(** Little-endian values of [n] bytes in memory. *)
Fixpoint peek (m : N -> N) (a : N) (n : nat) : N := match n with O => 0 | S n => m a + 256 * peek m (a + 1) n end.
Definition poke_byte (m : N -> N) (a v : N) : N -> N := fun x => if x =? a then v else m x.
Fixpoint poke (m : N -> N) (a v : N) (n : nat) : N -> N := match n with O => m | S n => poke (poke_byte m a (v mod 256)) (a + 1) (v / 256) n end.

(** *** Paging (manual, volume 3A, 4.5) *)
Definition ADDR : N := 0xFFFFFFFFFF000. (* bits 51 to 12 *)
Definition paging (s : state) : bool := N.testbit (cr0 s) 31.
Definition long (s : state) : bool := N.testbit (efer s) 10.
Definition index (v level : N) : N := (v / 2 ^ (12 + 9 * (level - 1))) mod 512.
(** The physical address, whether writes are allowed, whether instructions may be fetched. *)
Record mapping := mkMap { phys : N; writable : bool; executable : bool }.
(** [level] 5 to 1; pages of 2^30 and 2^21 bytes have bit 7; bits 12 to 29 (13 to 20) of their entries
    are reserved, except bit 12. *)
Fixpoint walk (m : N -> N) (nxe : bool) (fuel : nat) (level table v : N) (w x : bool) : option mapping :=
  match fuel with
  | O => None
  | S fuel =>
      let e := peek m (table + 8 * index v level) 8 in
      let w := w && N.testbit e 1 in
      let x := x && negb (nxe && N.testbit e 63) in
      if negb (N.testbit e 0) then None
      else if negb nxe && N.testbit e 63 then None
      else if level =? 1 then Some (mkMap (N.land e ADDR + v mod 2 ^ 12) w x)
      else if N.testbit e 7 then
        if (level =? 3) && (N.land e 0x3FFFE000 =? 0) then Some (mkMap (N.land e 0xFFFFFC0000000 + v mod 2 ^ 30) w x)
        else if (level =? 2) && (N.land e 0x1FE000 =? 0) then Some (mkMap (N.land e 0xFFFFFFFE00000 + v mod 2 ^ 21) w x)
        else None
      else walk m nxe fuel (level - 1) (N.land e ADDR) v w x
  end.
Definition canonical (la57 : bool) (v : N) : bool :=
  let b := if la57 then 56 else 47 in (v / 2 ^ b =? 0) || (v / 2 ^ b =? 2 ^ (64 - b) - 1).
(** Without long mode, paging is not modelled: every access faults. *)
Definition translate (s : state) (v : N) : option mapping :=
  if negb (paging s) then if v <? 2 ^ 32 then Some (mkMap v true true) else None
  else if negb (long s) then None
  else
    let la57 := N.testbit (cr4 s) 12 in
    if canonical la57 v then walk (mem s) (N.testbit (efer s) 11) 5 (if la57 then 5 else 4) (N.land (cr3 s) ADDR) v true true else None.
Fixpoint load (s : state) (a : N) (n : nat) : option N :=
  match n with
  | O => Some 0
  | S n => match translate s a, load s (a + 1) n with Some p, Some v => Some (mem s (phys p) + 256 * v) | _, _ => None end
  end.
(** The addresses are those before the store. *)
Fixpoint store (s : state) (m : N -> N) (a v : N) (n : nat) : option (N -> N) :=
  match n with
  | O => Some m
  | S n => match translate s a with
           | Some p => if writable p then store s (poke_byte m (phys p) (v mod 256)) (a + 1) (v / 256) n else None
           | None => None
           end
  end.

(** ** Instructions *)
Inductive gpr := AX | BX | CX | DX | SP.
Inductive creg := CR0 | CR3 | CR4.
Inductive sreg := SS | DS | ES | FS | GS.
Inductive label := Start | Unsupported | Long64.
Inductive operand := R (r : gpr) | I (n : N).
Inductive alu := Xor | And | Or | Cmp.
Inductive cond := Z | NZ | BE | B | NC.
Inductive instr :=
  | ILabel (l : label) | IMov32 (r : gpr) (o : operand) | IAlu32 (a : alu) (r : gpr) (o : operand) | IAlu64 (a : alu) (r : gpr) (o : operand)
  | IXorAx (* xor ax, ax *) | IBt (r : gpr) (bit : N) | IJcc (c : cond) (l : label) | IJmp (l : label)
  | IPushfd | IPopfd | IPush (r : gpr) | IPop (r : gpr) | ICpuid | IRdmsr | IWrmsr | IXgetbv | IXsetbv
  | IFromCr (r : gpr) (c : creg) | IToCr (c : creg) (r : gpr) | IStore (address : N) (r : gpr) | ILgdt (address : N)
  | IFarJmp (selector : N) (l : label) | IMovSeg (s : sreg) (* from ax *) | ICall | IHlt.

Definition get (s : state) (r : gpr) : N := match r with AX => rax s | BX => rbx s | CX => rcx s | DX => rdx s | SP => rsp s end.
Definition set (s : state) (r : gpr) (v : N) : state :=
  let '(mkS a b c d p f c0 c3 c4 e x k s1 s2 s3 s4 s5 g i m) := s in
  match r with
  | AX => mkS v b c d p f c0 c3 c4 e x k s1 s2 s3 s4 s5 g i m | BX => mkS a v c d p f c0 c3 c4 e x k s1 s2 s3 s4 s5 g i m
  | CX => mkS a b v d p f c0 c3 c4 e x k s1 s2 s3 s4 s5 g i m | DX => mkS a b c v p f c0 c3 c4 e x k s1 s2 s3 s4 s5 g i m
  | SP => mkS a b c d v f c0 c3 c4 e x k s1 s2 s3 s4 s5 g i m
  end.
Definition set_eflags (s : state) (f : N) : state :=
  mkS (rax s) (rbx s) (rcx s) (rdx s) (rsp s) f (cr0 s) (cr3 s) (cr4 s) (efer s) (xcr0 s) (cs s) (ss s) (ds s) (es s) (fs s) (gs s) (gdtr s) (idtr s) (mem s).
Definition set_control (s : state) (c0 c3 c4 e x : N) : state :=
  mkS (rax s) (rbx s) (rcx s) (rdx s) (rsp s) (eflags s) c0 c3 c4 e x (cs s) (ss s) (ds s) (es s) (fs s) (gs s) (gdtr s) (idtr s) (mem s).
Definition set_cs (s : state) (d : N) : state :=
  mkS (rax s) (rbx s) (rcx s) (rdx s) (rsp s) (eflags s) (cr0 s) (cr3 s) (cr4 s) (efer s) (xcr0 s) d (ss s) (ds s) (es s) (fs s) (gs s) (gdtr s) (idtr s) (mem s).
Definition set_gdtr (s : state) (g : N * N) : state :=
  mkS (rax s) (rbx s) (rcx s) (rdx s) (rsp s) (eflags s) (cr0 s) (cr3 s) (cr4 s) (efer s) (xcr0 s) (cs s) (ss s) (ds s) (es s) (fs s) (gs s) g (idtr s) (mem s).
Definition set_seg (s : state) (r : sreg) (v : N) : state :=
  let '(mkS a b c d p f c0 c3 c4 e x k s1 s2 s3 s4 s5 g i m) := s in
  match r with
  | SS => mkS a b c d p f c0 c3 c4 e x k v s2 s3 s4 s5 g i m | DS => mkS a b c d p f c0 c3 c4 e x k s1 v s3 s4 s5 g i m
  | ES => mkS a b c d p f c0 c3 c4 e x k s1 s2 v s4 s5 g i m | FS => mkS a b c d p f c0 c3 c4 e x k s1 s2 s3 v s5 g i m
  | GS => mkS a b c d p f c0 c3 c4 e x k s1 s2 s3 s4 v g i m
  end.
Definition set_mem (s : state) (m : N -> N) : state :=
  mkS (rax s) (rbx s) (rcx s) (rdx s) (rsp s) (eflags s) (cr0 s) (cr3 s) (cr4 s) (efer s) (xcr0 s) (cs s) (ss s) (ds s) (es s) (fs s) (gs s) (gdtr s) (idtr s) m.

(** Flags: carry is bit 0, zero bit 6; the other arithmetic flags are 0x894. *)
Definition flags (c : cpu) (s : state) (cf zf : bool) (j : N) : state :=
  set_eflags s (N.lor (N.ldiff (eflags s) 0x8D5) (N.lor (N.land (junk c (eflags s) j) 0x894) ((if cf then 1 else 0) + (if zf then 64 else 0)))).
Definition carry (s : state) : bool := N.testbit (eflags s) 0.
Definition zero (s : state) : bool := N.testbit (eflags s) 6.
(** What POPFD can change at privilege level 0; ID only if there is CPUID.  RF is cleared, the others keep. *)
Definition popf_mask (c : cpu) : N := if has_cpuid c then 0x247FD5 else 0x47FD5.
Definition popf (c : cpu) (old v : N) : N := N.lor (N.land v (popf_mask c)) (N.ldiff old (N.lor (popf_mask c) 0x10000)).
Definition pushf (f : N) : N := N.ldiff f 0x30000.
Definition width (s : state) : N := if long s && N.testbit (cs s) 53 then 64 else if N.testbit (cs s) 54 then 32 else 16.
Definition operand_value (s : state) (o : operand) : N := match o with R r => get s r | I n => n end.
Definition alu_value (a : alu) (x y : N) : N := match a with Xor => N.lxor x y | And => N.land x y | Or => N.lor x y | Cmp => x end.
Definition run_alu (c : cpu) (s : state) (a : alu) (r : gpr) (x y : N) : state :=
  let v := alu_value a x y in
  match a with
  | Cmp => flags c s (x <? y) (x =? y) v
  | _ => flags c (set s r v) false (v =? 0) v
  end.
Definition holds (s : state) (c : cond) : bool :=
  match c with Z => zero s | NZ => negb (zero s) | BE => carry s || zero s | B => carry s | NC => negb (carry s) end.

Inductive result := Next (s : state) | Jump (l : label) (s : state) | Halted (s : state) | Fault (s : state) | Started (s : state).
(** Manual, volume 3A, 2.5: the checks on control registers that can fail here.  Bits of CR4 need their feature. *)
Definition bad_cr4 (c : cpu) (old v : N) : bool :=
  existsb (fun '(bit, f) => N.testbit v bit && negb (N.testbit old bit) && negb (supports c f)) [(5, Pae); (9, Fxsr); (10, Sse); (18, Xsave)].
Definition write_cr (c : cpu) (s : state) (r : creg) (v : N) : result :=
  match r with
  | CR3 => Next (set_control s (cr0 s) v (cr4 s) (efer s) (xcr0 s))
  | CR4 => if bad_cr4 c (cr4 s) v || (long s && negb (N.testbit v 5)) then Fault s else Next (set_control s (cr0 s) (cr3 s) v (efer s) (xcr0 s))
  | CR0 =>
      if N.testbit v 31 && negb (N.testbit v 0) then Fault s
      else if negb (N.testbit v 31) && paging s then Fault s
      else if N.testbit v 31 && negb (paging s) && N.testbit (efer s) 8 then
        if negb (N.testbit (cr4 s) 5) || N.testbit (cs s) 53 then Fault s
        else Next (set_control s v (cr3 s) (cr4 s) (N.lor (efer s) (2 ^ 10)) (xcr0 s))
      else Next (set_control s v (cr3 s) (cr4 s) (efer s) (xcr0 s))
  end.
(** EFER is the only model-specific register used; LME does not change while paging is on. *)
Definition write_efer (c : cpu) (s : state) (v : N) : result :=
  if negb (supports c Msr) || (N.testbit v 8 && negb (supports c LongMode)) || (paging s && negb (Bool.eqb (N.testbit v 8) (N.testbit (efer s) 8))) then Fault s
  else Next (set_control s (cr0 s) (cr3 s) (cr4 s) (N.lor (N.ldiff v (2 ^ 10)) (N.land (efer s) (2 ^ 10))) (xcr0 s)).
Definition write_xcr0 (c : cpu) (s : state) (v : N) : result :=
  if negb (N.testbit (cr4 s) 18) || negb (N.testbit v 0) || (N.testbit v 2 && (negb (N.testbit v 1) || negb (supports c Avx))) then Fault s
  else Next (set_control s (cr0 s) (cr3 s) (cr4 s) (efer s) v).
(** A descriptor that a far jump at level 0 can load: code, present, level 0, not both 64 and 32 bits. *)
Definition good_code (s : state) (d : N) : bool :=
  N.testbit d 47 && N.testbit d 44 && N.testbit d 43 && negb (N.testbit d 45) && negb (N.testbit d 46) && negb (long s && N.testbit d 53 && N.testbit d 54).
Definition push (s : state) (v : N) (bytes : nat) : option state :=
  let a := rsp s - N.of_nat bytes in
  match store s (mem s) a v bytes with Some m => Some (set_mem (set s SP a) m) | None => None end.
Definition step (c : cpu) (s : state) (i : instr) : result :=
  match i with
  | ILabel _ => Next s
  | IMov32 r o => Next (set s r (w32 (operand_value s o)))
  | IAlu32 a r o => Next (run_alu c s a r (w32 (get s r)) (w32 (operand_value s o)))
  | IAlu64 a r o => Next (run_alu c s a r (get s r) (operand_value s o))
  | IXorAx => Next (flags c (set s AX (N.ldiff (rax s) 0xFFFF)) false true 0)
  | IBt r bit => Next (flags c s (N.testbit (get s r) bit) (zero s) 0)
  | IJcc k l => if holds s k then Jump l s else Next s
  | IJmp l => Jump l s
  | IPushfd => match push s (pushf (eflags s)) 4 with Some s => Next s | None => Fault s end
  | IPush r => match push s (get s r) 4 with Some s => Next s | None => Fault s end
  | IPopfd => match load s (rsp s) 4 with Some v => Next (set_eflags (set s SP (rsp s + 4)) (popf c (eflags s) v)) | None => Fault s end
  | IPop r => match load s (rsp s) 4 with Some v => Next (set (set s SP (rsp s + 4)) r v) | None => Fault s end
  | ICpuid =>
      if negb (has_cpuid c) then Fault s
      else let a := cpuid c (w32 (rax s)) (w32 (rcx s)) in
           Next (set (set (set (set s AX (w32 (a_eax a))) BX (w32 (a_ebx a))) CX (w32 (a_ecx a))) DX (w32 (a_edx a)))
  | IRdmsr => if supports c Msr && (w32 (rcx s) =? 0xC0000080) then Next (set (set s AX (w32 (efer s))) DX (efer s / 2 ^ 32)) else Fault s
  | IWrmsr => if w32 (rcx s) =? 0xC0000080 then write_efer c s (w32 (rdx s) * 2 ^ 32 + w32 (rax s)) else Fault s
  | IXgetbv => if N.testbit (cr4 s) 18 && (w32 (rcx s) =? 0) then Next (set (set s AX (w32 (xcr0 s))) DX (xcr0 s / 2 ^ 32)) else Fault s
  | IXsetbv => if w32 (rcx s) =? 0 then write_xcr0 c s (w32 (rdx s) * 2 ^ 32 + w32 (rax s)) else Fault s
  | IFromCr r k => Next (set s r (let v := match k with CR0 => cr0 s | CR3 => cr3 s | CR4 => cr4 s end in if width s =? 64 then v else w32 v))
  | IToCr k r => write_cr c s k (if width s =? 64 then get s r else w32 (get s r))
  | IStore a r => match store s (mem s) a (w32 (get s r)) 4 with Some m => Next (set_mem s m) | None => Fault s end
  | ILgdt a => (* outside 64-bit mode: two bytes of limit, four of base *)
      match load s a 2, load s (a + 2) 4 with Some limit, Some base => Next (set_gdtr s (base, limit)) | _, _ => Fault s end
  | IFarJmp sel l =>
      if (sel =? 0) || (snd (gdtr s) <? sel + 7) then Fault s
      else match load s (fst (gdtr s) + sel) 8 with
      | Some d => if good_code s d then Jump l (set_cs s d) else Fault s
      | None => Fault s
      end
  | IMovSeg r => (* the null selector; in SS it is allowed in 64-bit mode at level 0 only *)
      if negb (rax s mod 2 ^ 16 =? 0) then Fault s
      else if (match r with SS => true | _ => false end) && negb (width s =? 64) then Fault s
      else Next (set_seg s r 0)
  | ICall => match push s 0 8 with Some _ => Started s | None => Fault s end
  | IHlt => Halted s
  end.

(** ** The program *)
(** The addresses of the parts of the sections that are from boot.asm. *)
Record layout := mkL { bss : N; data : N; rodata : N; code_at : nat -> N }.
(** 478-493: [alignb 16] after 2^20 bytes. *)
Definition align_up (n k : N) : N := (n + k - 1) / k * k.
Definition stack_top (L : layout) : N := bss L.
Definition stack_bottom (L : layout) : N := bss L + align_up (2 ^ 20) 16.
(** 508-527: what the section has: runs of quadwords, from an offset on. *)
Definition pml4 (L : layout) : N := data L + align_up 0 4096.
Definition pdpt (L : layout) : N := data L + align_up (0 + 512 * 8) 4096.
Definition data_quads (L : layout) : list (N * N * N) :=
  [(pml4 L, 512, 0);
   (pdpt L, 1, N.lor 0x0 131); (pdpt L + 8, 1, N.lor 0x40000000 131); (pdpt L + 16, 1, N.lor 0x80000000 131); (pdpt L + 24, 1, N.lor 0xc0000000 131);
   (pdpt L + 32, 508, 0)].
(** 534-553. *)
Definition gdt64 (L : layout) : N := rodata L.
Definition gdt64_code_segment : N := 8.
Definition gdt64_descriptor (L : layout) : N := rodata L + 16.
Definition rodata_quads (L : layout) : list (N * N * N) :=
  [(gdt64 L, 1, 0); (gdt64 L + 8, 1, N.lor (2 ^ 47) (N.lor (2 ^ 44) (N.lor (2 ^ 43) (2 ^ 53)))); (gdt64_descriptor L + 2, 1, gdt64 L)].
Definition rodata_word (L : layout) : N * N := (gdt64_descriptor L, 16 - 1).

(** 60-469. *)
Definition boot32 (L : layout) : list instr :=
  [ILabel Start; IMov32 SP (I (stack_bottom L)); IPushfd; IPop AX; IMov32 BX (R AX); IAlu32 Xor AX (I (2 ^ 21)); IPush AX; IPopfd; IPushfd; IPop AX;
   IAlu32 Cmp AX (R BX); IJcc Z Unsupported;
   (* 172 *) IAlu32 Xor AX (R AX); ICpuid; IAlu32 Cmp AX (I 2); IJcc BE Unsupported;
   (* 190 *) IMov32 AX (I 0x80000000); ICpuid; IAlu32 Cmp AX (I 0x80000007); IJcc B Unsupported;
   (* 205 *) IMov32 AX (I 0x80000001); ICpuid; IBt DX 29; IJcc NC Unsupported; IBt DX 26; IJcc NC Unsupported;
   (* 225 *) IMov32 AX (I 1); ICpuid;
   (* 253 *) IMov32 AX (I (2^0 + 2^1 + 2^9 + 2^13 + 2^19 + 2^20 + 2^23 + 2^25 + 2^26 + 2^28 + 2^29 + 2^30)); IAlu32 And CX (R AX); IAlu32 Cmp CX (R AX); IJcc NZ Unsupported;
   (* 268 *) IMov32 AX (I (2^0 + 2^4 + 2^5 + 2^6 + 2^8 + 2^23 + 2^24 + 2^25 + 2^26)); IAlu32 And DX (R AX); IAlu32 Cmp DX (R AX); IJcc NZ Unsupported;
   (* 275 *) IMov32 AX (I 7); IAlu32 Xor CX (R CX); ICpuid; IBt BX 0; IJcc NC Unsupported;
   (* 283 *) IMov32 AX (I 0x80000007); ICpuid; IBt DX 8; IJcc NC Unsupported;
   (* 304 *) IFromCr AX CR4; IAlu32 Or AX (I (2 ^ 5)); IToCr CR4 AX;
   (* 350 *) IMov32 AX (I (pdpt L)); IAlu32 Or AX (I 3); IStore (pml4 L) AX; IMov32 AX (I (pml4 L)); IToCr CR3 AX;
   (* 372 *) IMov32 CX (I 0xC0000080); IRdmsr; IAlu32 Or AX (I (2 ^ 8)); IWrmsr;
   (* 384 *) IFromCr AX CR0; IAlu32 Or AX (I (2 ^ 31)); IToCr CR0 AX; ILgdt (gdt64_descriptor L); IFarJmp gdt64_code_segment Long64;
   (* 411 *) ILabel Unsupported; IHlt; IJmp Unsupported].
Definition boot64 (L : layout) : list instr :=
  [ILabel Long64; IXorAx; IMovSeg SS; IMovSeg DS; IMovSeg ES; IMovSeg FS; IMovSeg GS;
   (* 439 *) IFromCr AX CR4; IAlu64 Or AX (I (2 ^ 9 + 2 ^ 10)); IToCr CR4 AX;
   (* 444 *) IFromCr AX CR0; IAlu64 And AX (I (2 ^ 64 - 1 - 2 ^ 2)); IAlu64 Or AX (I (2 ^ 1)); IToCr CR0 AX;
   (* 450 *) IFromCr AX CR4; IAlu64 Or AX (I (2 ^ 18)); IToCr CR4 AX;
   (* 455 *) IAlu64 Xor CX (R CX); IXgetbv; IAlu32 Or AX (I 7); IXsetbv; IMov32 SP (I (stack_bottom L)); ICall; IHlt].
(** Each instruction with the width it is assembled for. *)
Definition boot (L : layout) : list (N * instr) := map (pair 32) (boot32 L) ++ map (pair 64) (boot64 L).

Fixpoint find_label (l : label) (p : list (N * instr)) (i : nat) : option nat :=
  match p with
  | [] => None
  | (_, ILabel l') :: p => if match l, l' with Start, Start | Unsupported, Unsupported | Long64, Long64 => true | _, _ => false end then Some i else find_label l p (S i)
  | _ :: p => find_label l p (S i)
  end.
Definition fetched (s : state) (a : N) : bool :=
  match translate s a with Some p => executable p && (phys p =? a) | None => false end.
Inductive outcome := OHalts (s : state) | OFaults (s : state) | OStarts (s : state) | OWild (* other instructions are executed *) | OMore.
Fixpoint run (fuel : nat) (c : cpu) (L : layout) (i : nat) (s : state) : outcome :=
  match fuel with
  | O => OMore
  | S fuel =>
      match nth_error (boot L) i with
      | None => OWild
      | Some (bits, ins) =>
          if negb (fetched s (code_at L i)) then OFaults s
          else if negb (width s =? bits) then OWild
          else match step c s ins with
          | Next s => run fuel c L (S i) s
          | Jump l s => match find_label l (boot L) 0 with Some j => run fuel c L j s | None => OWild end
          | Halted s => OHalts s
          | Fault s => OFaults s
          | Started s => OStarts s
          end
      end
  end.
