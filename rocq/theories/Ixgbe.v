(** * The TinyNF driver: register helpers, start-up, queues

    Models env/src/net/tinynf/ixgbe.c 112-1168 (the packet loop is in TinyNF.v), with
    env/include/os/pci.h and the addresses computed in env/src/net/tinynf/main.c.

    A driver function is a program over the registers of the cards: its reads can return
    anything, so its executions are those with every card, at every speed. *)

From Coq Require Import NArith List Bool.
Import ListNotations.
Open Scope N_scope.

(** ** Programs *)

(** A register of a card, in its memory-mapped registers or in its PCI configuration. *)
Inductive loc := Mmio (dev reg : N) | Pci (dev reg : N).
Definition loc_eqb (a b : loc) : bool :=
  match a, b with
  | Mmio d r, Mmio d' r' | Pci d r, Pci d' r' => (d =? d') && (r =? r')
  | _, _ => false
  end.

(** The memory of an agent whose physical address is asked for: its packet buffer, the ring
    and the transmit head of an output (network.h 33-42). *)
Inductive object := Buffer | Ring (output : nat) | Head (output : nat).

(** What a driver function does: [Read] is reg_read (ixgbe.c 402-408) or pcireg_read
    (452-457), [Write] is reg_write_raw (418) or os_pci_write, [Sleep] is
    os_clock_sleep_ns, [Map] is os_memory_phys_to_virt, [Phys] is os_memory_virt_to_phys,
    [Fatal] is fatal (361-365).  le_to_cpu32 and cpu_to_le32 are the identity on the
    little-endian processors the code is for (endian.h 9-21). *)
Inductive prog (A : Type) :=
| Ret (a : A)
| Fatal
| Read (l : loc) (k : N -> prog A)
| Write (l : loc) (v : N) (k : prog A)
| Sleep (ns : N) (k : prog A)
| Map (dev phys size : N) (k : prog A)
| Phys (w : object) (k : N -> prog A).
Arguments Ret {A}. Arguments Fatal {A}. Arguments Read {A}. Arguments Write {A}.
Arguments Sleep {A}. Arguments Map {A}. Arguments Phys {A}.

Fixpoint bind {A B} (p : prog A) (f : A -> prog B) : prog B :=
  match p with
  | Ret a => f a
  | Fatal => Fatal
  | Read l k => Read l (fun v => bind (k v) f)
  | Write l v k => Write l v (bind k f)
  | Sleep ns k => Sleep ns (bind k f)
  | Map d p s k => Map d p s (bind k f)
  | Phys w k => Phys w (fun v => bind (k v) f)
  end.
Notation "'let!' x ':=' p 'in' q" := (bind p (fun x => q)) (at level 200, x name, p at level 100, q at level 200).
Notation "p ';;' q" := (bind p (fun _ => q)) (at level 100, q at level 200, right associativity).

Definition when (b : bool) (p : prog unit) : prog unit := if b then p else Ret tt.
(** [for (size_t n = lo; n < lo + count; n++)]. *)
Fixpoint for_ (lo : N) (count : nat) (body : N -> prog unit) : prog unit :=
  match count with
  | O => Ret tt
  | S c => body lo ;; for_ (lo + 1) c body
  end.

(** What happens: values read, values written, sleeps, mappings, physical addresses. *)
Inductive event := ERead (l : loc) (v : N) | EWrite (l : loc) (v : N) | ESleep (ns : N)
| EMap (dev phys size : N) | EPhys (w : object) (v : N).
(** The executions of a program, to its end or to a fatal error ([None]). *)
Inductive runs {A} : prog A -> list event -> option A -> Prop :=
| RunRet : forall a, runs (Ret a) [] (Some a)
| RunFatal : runs Fatal [] None
| RunRead : forall l k v tr o, v < 2 ^ 32 -> runs (k v) tr o -> runs (Read l k) (ERead l v :: tr) o
| RunWrite : forall l v k tr o, runs k tr o -> runs (Write l v k) (EWrite l v :: tr) o
| RunSleep : forall ns k tr o, runs k tr o -> runs (Sleep ns k) (ESleep ns :: tr) o
| RunMap : forall d p s k tr o, runs k tr o -> runs (Map d p s k) (EMap d p s :: tr) o
| RunPhys : forall w k v tr o, v < 2 ^ 64 -> runs (k v) tr o -> runs (Phys w k) (EPhys w v :: tr) o.

(** The execution with a card whose registers are a function of the time, in nanoseconds,
    when accesses take no time: the result and the time at the end. *)
Fixpoint timed {A} (card : N -> loc -> N) (t : N) (p : prog A) : option A * N :=
  match p with
  | Ret a => (Some a, t)
  | Fatal => (None, t)
  | Read l k => timed card t (k (card t l))
  | Write _ _ k => timed card t k
  | Sleep ns k => timed card (t + ns) k
  | Map _ _ _ k => timed card t k
  | Phys _ k => timed card t (k 0)
  end.

(** ** Utilities *)

Definition u32 (x : N) : N := x mod 2 ^ 32.
Definition all32 : N := 0xFFFFFFFF.
(** [~x] on 32 bits. *)
Definition not32 (x : N) : N := N.lxor x all32.
(** BIT, ixgbe.c 113. *)
Definition BIT (n : N) : N := u32 (N.shiftl 1 n).
(** BITS, ixgbe.c 114. *)
Definition BITS (start en : N) : N :=
  N.lxor (if en =? 31 then 0 else u32 (N.shiftl all32 (en + 1))) (u32 (N.shiftl all32 start)).

(** find_first_set, ixgbe.c 385-396; the loop is over after 32 iterations for a value of
    32 bits that is not zero. *)
Fixpoint ffs_loop (fuel : nat) (value n : N) : N :=
  match fuel with
  | O => n
  | S fuel => if N.land (N.shiftr value n) 1 =? 0 then ffs_loop fuel value (n + 1) else n
  end.
Definition find_first_set (value : N) : N := if value =? 0 then 0 else ffs_loop 32 value 0.

(** IF_AFTER_TIMEOUT, ixgbe.c 371-382: true when the body is executed. *)
Fixpoint poll (n : nat) (us : N) (condition : prog bool) : prog bool :=
  match n with
  | O => Ret true
  | S n => let! c := condition in
           if negb c then Ret false else Sleep (us / 10 * 1000) (poll n us condition)
  end.
Definition if_after_timeout (us : N) (condition : prog bool) : prog bool :=
  Sleep (us mod 10 * 1000) (poll 10 us condition).

(** ** Register operations *)

(** reg_read, ixgbe.c 402-408. *)
Definition reg_read (dev reg : N) : prog N := Read (Mmio dev reg) Ret.
(** reg_read_field, ixgbe.c 410-415. *)
Definition field_read (value field : N) : N :=
  let shift := find_first_set field in N.land (N.shiftr value shift) (N.shiftr field shift).
Definition reg_read_field (dev reg field : N) : prog N :=
  let! value := reg_read dev reg in Ret (field_read value field).
(** reg_write, ixgbe.c 421-425. *)
Definition reg_write (dev reg value : N) : prog unit := Write (Mmio dev reg) value (Ret tt).
(** reg_write_field, ixgbe.c 427-433. *)
Definition field_write (old field field_value : N) : N :=
  let shift := find_first_set field in N.lor (N.land old (not32 field)) (u32 (N.shiftl field_value shift)).
Definition reg_write_field (dev reg field field_value : N) : prog unit :=
  let! old := reg_read dev reg in reg_write dev reg (field_write old field field_value).
(** reg_clear and reg_clear_field, ixgbe.c 436-438. *)
Definition reg_clear (dev reg : N) : prog unit := reg_write dev reg 0.
Definition reg_clear_field (dev reg field : N) : prog unit := reg_write_field dev reg field 0.
(** reg_set_field, ixgbe.c 441-446. *)
Definition reg_set_field (dev reg field : N) : prog unit :=
  let! old := reg_read dev reg in reg_write dev reg (N.lor old field).
(** reg_is_field_cleared, ixgbe.c 449. *)
Definition reg_is_field_cleared (dev reg field : N) : prog bool :=
  let! v := reg_read_field dev reg field in Ret (v =? 0).
Definition not_ (p : prog bool) : prog bool := let! b := p in Ret (negb b).
(** pcireg_read, ixgbe.c 452-457. *)
Definition pcireg_read (dev reg : N) : prog N := Read (Pci dev reg) Ret.
(** pcireg_is_field_cleared, ixgbe.c 460. *)
Definition pcireg_is_field_cleared (dev reg field : N) : prog bool :=
  let! v := pcireg_read dev reg in Ret (N.land v field =? 0).
(** pcireg_set_field, ixgbe.c 463-469. *)
Definition pcireg_set_field (dev reg field : N) : prog unit :=
  let! old := pcireg_read dev reg in Write (Pci dev reg) (N.lor old field) (Ret tt).

(** ** Registers, ixgbe.c 119-325 *)
Definition PCIREG_BAR0_LOW := 0x10. Definition PCIREG_BAR0_HIGH := 0x14.
Definition PCIREG_COMMAND := 0x04. Definition PCIREG_DEVICESTATUS := 0xAA.
Definition PCIREG_ID := 0x00. Definition PCIREG_PMCSR := 0x44.
(** Receive queues have their registers in two places (for example REG_RDBAH, 231-232). *)
Definition rxq (b0 b1 n : N) : N := if n <=? 63 then b0 + 0x40 * n else b1 + 0x40 * (n - 64).
Definition REG_CTRL := 0x00000. Definition REG_CTRLEXT := 0x00018.
Definition REG_DCARXCTRL := rxq 0x0100C 0x0D00C. Definition REG_DCATXCTRL n := 0x0600C + 0x40 * n.
Definition REG_DMATXCTL := 0x04A80. Definition REG_DTXMXSZRQ := 0x08100. Definition REG_EEC := 0x10010.
Definition REG_EIMC n := if n =? 0 then 0x00888 else 0x00AB0 + 4 * (n - 1).
Definition REG_FCCFG := 0x03D00. Definition REG_FCRTH n := 0x03260 + 4 * n. Definition REG_FCTRL := 0x05080.
Definition REG_FTQF n := 0x0E600 + 4 * n. Definition REG_FWSM := 0x10148. Definition REG_GCREXT := 0x11050.
Definition REG_HLREG0 := 0x04240. Definition REG_MFLCN := 0x04294. Definition REG_MPSAR n := 0x0A600 + 4 * n.
Definition REG_MTA n := 0x05200 + 4 * n. Definition REG_PFUTA n := 0x0F400 + 4 * n.
Definition REG_PFVLVF n := 0x0F100 + 4 * n. Definition REG_PFVLVFB n := 0x0F200 + 4 * n.
Definition REG_RAH n := 0x0A204 + 8 * n. Definition REG_RAL n := 0x0A200 + 8 * n.
Definition REG_RDBAH := rxq 0x01004 0x0D004. Definition REG_RDBAL := rxq 0x01000 0x0D000.
Definition REG_RDLEN := rxq 0x01008 0x0D008. Definition REG_RDRXCTL := 0x02F00. Definition REG_RDT := rxq 0x01018 0x0D018.
Definition REG_RTTDCS := 0x04900. Definition REG_RTTDQSEL := 0x04904. Definition REG_RTTDT1C := 0x04908.
Definition REG_RXCTRL := 0x03000. Definition REG_RXDCTL := rxq 0x01028 0x0D028. Definition REG_RXPBSIZE n := 0x03C00 + 4 * n.
Definition REG_SECRXCTRL := 0x08D00. Definition REG_SECRXSTAT := 0x08D04. Definition REG_SRRCTL := rxq 0x01014 0x0D014.
Definition REG_STATUS := 0x00008. Definition REG_TDBAH n := 0x06004 + 0x40 * n. Definition REG_TDBAL n := 0x06000 + 0x40 * n.
Definition REG_TDLEN n := 0x06008 + 0x40 * n. Definition REG_TDT n := 0x06018 + 0x40 * n.
Definition REG_TDWBAH n := 0x0603C + 0x40 * n. Definition REG_TDWBAL n := 0x06038 + 0x40 * n.
Definition REG_TXDCTL n := 0x06028 + 0x40 * n. Definition REG_TXPBSIZE n := 0x0CC00 + 4 * n.
Definition REG_TXPBTHRESH n := 0x04950 + 4 * n.
(** ixgbe.c 337, 344. *)
Definition PACKET_BUFFER_SIZE := 2048. Definition IXGBE_RING_SIZE := 256.

(** ** Start-up of a card: tn_device_init, ixgbe.c 475-915 *)

(** 483-514: the identity, the power state, the command bits, the address. *)
Definition device_pci (dev : N) : prog unit :=
  let! pci_id := pcireg_read dev PCIREG_ID in
  when (negb (pci_id =? N.lor (N.shiftl 0x10FB 16) 0x8086)) Fatal ;;
  let! d0 := pcireg_is_field_cleared dev PCIREG_PMCSR (BITS 0 1) in
  when (negb d0) Fatal ;;
  pcireg_set_field dev PCIREG_COMMAND (BIT 2) ;;
  pcireg_set_field dev PCIREG_COMMAND (BIT 1) ;;
  pcireg_set_field dev PCIREG_COMMAND (BIT 10) ;;
  let! low := pcireg_read dev PCIREG_BAR0_LOW in
  when ((N.land low (BIT 2) =? 0) || negb (N.land low (BIT 1) =? 0)) Fatal ;;
  let! high := pcireg_read dev PCIREG_BAR0_HIGH in
  (* 514-517; [dev_phys_addr] *)
  Map dev (N.lor (N.shiftl high 32) (N.land low (not32 (BITS 0 3)))) (128 * 1024) (Ret tt).

(** 540-550: every receive queue is disabled. *)
Definition disable_queue (dev queue : N) : prog unit :=
  reg_clear_field dev (REG_RXDCTL queue) (BIT 25) ;;
  let! late := if_after_timeout (1000 * 1000) (not_ (reg_is_field_cleared dev (REG_RXDCTL queue) (BIT 25))) in
  when late Fatal.

(** 552-586: the master disable. *)
Definition master_disable (dev : N) : prog unit :=
  reg_set_field dev REG_CTRL (BIT 2) ;;
  let! late := if_after_timeout (1000 * 1000) (not_ (reg_is_field_cleared dev REG_STATUS (BIT 19))) in
  when late (
    let! clear := pcireg_is_field_cleared dev PCIREG_DEVICESTATUS (BIT 5) in
    when (negb clear) Fatal ;;
    reg_set_field dev REG_HLREG0 (BIT 15) ;;
    reg_clear_field dev REG_RXCTRL (BIT 0) ;;
    reg_set_field dev REG_GCREXT (BIT 30) ;;
    Sleep (20 * 1000) (
    reg_clear_field dev REG_HLREG0 (BIT 15) ;;
    reg_clear_field dev REG_GCREXT (BIT 30) ;;
    reg_set_field dev REG_CTRL (BIT 26) ;;
    Sleep (2 * 1000) (Ret tt))).

(** 589-596: the reset. *)
Definition reset (dev : N) : prog unit :=
  reg_set_field dev REG_CTRL (BIT 26) ;;
  Sleep (1000 * 1000) (Sleep (10 * 1000 * 1000) (Ret tt)).

(** 600-644: interrupts, flow control, the EEPROM and the DMA unit. *)
Definition init_general (dev : N) : prog unit :=
  reg_write dev (REG_EIMC 0) 0x7FFFFFFF ;;
  for_ 1 2 (fun n => reg_write dev (REG_EIMC n) 0xFFFFFFFF) ;;
  reg_write_field dev (REG_FCRTH 0) (BITS 5 18) ((512 * 1024 - 0x6000) / 32) ;;
  let! late := if_after_timeout (1000 * 1000) (reg_is_field_cleared dev REG_EEC (BIT 9)) in
  when late Fatal ;;
  let! absent := reg_is_field_cleared dev REG_EEC (BIT 8) in
  let! bad := (if absent then Ret true else not_ (reg_is_field_cleared dev REG_FWSM (BITS 19 24))) in
  when bad Fatal ;;
  let! late := if_after_timeout (1000 * 1000) (reg_is_field_cleared dev REG_RDRXCTL (BIT 3)) in
  when late Fatal.

(** 669-822: receive. *)
Definition init_receive (dev : N) : prog unit :=
  for_ 0 128 (fun n => reg_clear dev (REG_PFUTA n)) ;;
  for_ 0 64 (fun n => reg_clear dev (REG_PFVLVF n)) ;;
  reg_write dev (REG_MPSAR 0) 1 ;;
  for_ 1 255 (fun n => reg_clear dev (REG_MPSAR n)) ;;
  for_ 0 128 (fun n => reg_clear dev (REG_PFVLVFB n)) ;;
  for_ 0 128 (fun n => reg_clear dev (REG_MTA n)) ;;
  for_ 0 128 (fun n => reg_clear_field dev (REG_FTQF n) (BIT 31)) ;;
  reg_set_field dev REG_RDRXCTL (BIT 1) ;;
  reg_clear_field dev REG_RDRXCTL (BITS 17 21) ;;
  reg_set_field dev REG_RDRXCTL (BIT 25) ;;
  reg_set_field dev REG_RDRXCTL (BIT 26) ;;
  for_ 1 7 (fun n => reg_clear dev (REG_RXPBSIZE n)) ;;
  reg_set_field dev REG_MFLCN (BIT 3) ;;
  reg_write_field dev REG_FCCFG (BITS 3 4) 1 ;;
  for_ 0 128 (fun n => reg_write dev REG_RTTDQSEL n ;; reg_clear dev REG_RTTDT1C).

(** 878-910: transmit. *)
Definition init_transmit (dev : N) : prog unit :=
  reg_set_field dev REG_RTTDCS (BIT 6) ;;
  for_ 1 7 (fun n => reg_clear dev (REG_TXPBSIZE n)) ;;
  reg_write_field dev (REG_TXPBTHRESH 0) (BITS 0 9) (0xA0 - PACKET_BUFFER_SIZE / 1024) ;;
  reg_write_field dev REG_DTXMXSZRQ (BITS 0 11) 0xFFF ;;
  reg_clear_field dev REG_RTTDCS (BIT 6).

(** After the reset, 600-914. *)
Definition after_reset (dev : N) : prog unit :=
  init_general dev ;; init_receive dev ;; init_transmit dev.
Definition device_init (dev : N) : prog unit :=
  device_pci dev ;;
  for_ 0 128 (disable_queue dev) ;;
  master_disable dev ;; reset dev ;; after_reset dev.

(** tn_device_set_promiscuous, ixgbe.c 921-942. *)
Definition set_promiscuous (dev : N) : prog unit :=
  let! was_rx_enabled := not_ (reg_is_field_cleared dev REG_RXCTRL (BIT 0)) in
  when was_rx_enabled (reg_clear_field dev REG_RXCTRL (BIT 0)) ;;
  reg_set_field dev REG_FCTRL (BIT 9) ;;
  reg_set_field dev REG_FCTRL (BIT 8) ;;
  when was_rx_enabled (reg_set_field dev REG_RXCTRL (BIT 0)).

(** tn_device_get_mac, ixgbe.c 944-949. *)
Definition get_mac (dev : N) : prog N :=
  let! ral := reg_read dev (REG_RAL 0) in
  let! rah := reg_read dev (REG_RAH 0) in
  Ret (N.lor ral (N.shiftl rah 32)).
(** The addresses main.c 88 and 91 store. *)
Definition endpoint_mac (n : N) : list N :=
  [0; N.shiftr n 10 mod 256; N.shiftr n 20 mod 256; N.shiftr n 30 mod 256; N.shiftr n 40 mod 256; 0].
Definition device_mac (mac : N) : list N := map (fun s => N.shiftr mac s mod 256) [0; 8; 16; 24; 32; 40].

(** ** Agents *)

(** struct tn_device, network.h 21-26: the address is the card's number here. *)
Record device := mkDevice { rx_enabled : bool; tx_enabled : bool }.
(** struct tn_agent, network.h 33-42: what is set up here.  A ring is the list of the
    packet addresses in its descriptors; null pointers are [None]. *)
Record agent := mkAgent { receive_tail : option loc; rings : list (list N); transmit_tails : list (option loc) }.
Definition update {A} (l : list A) (i : nat) (x : A) : list A :=
  firstn i l ++ match skipn i l with [] => [] | _ :: t => x :: t end.

(** What tn_device_init leaves in the structure: it assigns [addr] only (517). *)
Definition device_after_init (d : device) : device := mkDevice (rx_enabled d) (tx_enabled d).

(** tn_agent_add_output, ixgbe.c 961-1044, for card number [dev]. *)
Definition add_output (ag : agent) (dev : N) (d : device) (output_index : nat) (queue_index : N) : prog (agent * device) :=
  when (match nth output_index (transmit_tails ag) None with None => false | Some _ => true end) Fatal ;;
  when (128 <=? queue_index) Fatal ;;
  let! free := reg_is_field_cleared dev (REG_TXDCTL queue_index) (BIT 25) in
  when (negb free) Fatal ;;
  Phys Buffer (fun buffer_phys_addr =>
  let ring := map (fun n => (buffer_phys_addr + N.of_nat n * PACKET_BUFFER_SIZE) mod 2 ^ 64) (seq 0 256) in
  Phys (Ring output_index) (fun ring_phys_addr =>
  reg_write dev (REG_TDBAH queue_index) (u32 (N.shiftr ring_phys_addr 32)) ;;
  reg_write dev (REG_TDBAL queue_index) (u32 ring_phys_addr) ;;
  reg_write dev (REG_TDLEN queue_index) (IXGBE_RING_SIZE * 16) ;;
  reg_write_field dev (REG_TXDCTL queue_index) (BITS 0 6) 60 ;;
  reg_write_field dev (REG_TXDCTL queue_index) (BITS 8 14) 4 ;;
  Phys (Head output_index) (fun head_phys_addr =>
  when (negb (head_phys_addr mod 16 =? 0)) Fatal ;;
  reg_write dev (REG_TDWBAH queue_index) (u32 (N.shiftr head_phys_addr 32)) ;;
  reg_write dev (REG_TDWBAL queue_index) (N.lor (u32 head_phys_addr) 1) ;;
  reg_clear_field dev (REG_DCATXCTRL queue_index) (BIT 11) ;;
  when (negb (tx_enabled d)) (reg_set_field dev REG_DMATXCTL (BIT 0)) ;;
  reg_set_field dev (REG_TXDCTL queue_index) (BIT 25) ;;
  let! late := if_after_timeout (1000 * 1000) (reg_is_field_cleared dev (REG_TXDCTL queue_index) (BIT 25)) in
  when late Fatal ;;
  Ret (mkAgent (receive_tail ag) (update (rings ag) output_index ring)
               (update (transmit_tails ag) output_index (Some (Mmio dev (REG_TDT queue_index)))),
       mkDevice (rx_enabled d) true)))).

(** tn_agent_set_input, ixgbe.c 1050-1134. *)
Definition set_input (ag : agent) (dev : N) (d : device) : prog (agent * device) :=
  when (match receive_tail ag with None => false | Some _ => true end) Fatal ;;
  when (match nth 0 (transmit_tails ag) None with None => true | Some _ => false end) Fatal ;;
  let! free := reg_is_field_cleared dev (REG_RXDCTL 0) (BIT 25) in
  when (negb free) Fatal ;;
  Phys (Ring 0) (fun ring_phys_addr =>
  reg_write dev (REG_RDBAH 0) (u32 (N.shiftr ring_phys_addr 32)) ;;
  reg_write dev (REG_RDBAL 0) (u32 ring_phys_addr) ;;
  reg_write dev (REG_RDLEN 0) (IXGBE_RING_SIZE * 16) ;;
  reg_write_field dev (REG_SRRCTL 0) (BITS 0 4) (PACKET_BUFFER_SIZE / 1024) ;;
  reg_set_field dev (REG_SRRCTL 0) (BIT 28) ;;
  reg_set_field dev (REG_RXDCTL 0) (BIT 25) ;;
  let! late := if_after_timeout (1000 * 1000) (reg_is_field_cleared dev (REG_RXDCTL 0) (BIT 25)) in
  when late Fatal ;;
  reg_write dev (REG_RDT 0) (IXGBE_RING_SIZE - 1) ;;
  when (negb (rx_enabled d)) (
    reg_set_field dev REG_SECRXCTRL (BIT 1) ;;
    let! late := if_after_timeout (1000 * 1000) (reg_is_field_cleared dev REG_SECRXSTAT (BIT 0)) in
    when late Fatal ;;
    reg_set_field dev REG_RXCTRL (BIT 0) ;;
    reg_clear_field dev REG_SECRXCTRL (BIT 1) ;;
    reg_set_field dev REG_CTRLEXT (BIT 16)) ;;
  reg_clear_field dev (REG_DCARXCTRL 0) (BIT 12) ;;
  Ret (mkAgent (Some (Mmio dev (REG_RDT 0))) (rings ag) (transmit_tails ag), mkDevice true (tx_enabled d))).

(** tn_agent_init, ixgbe.c 1140-1168: [rest] are the cards from number [n] on; the agent's
    arrays come zeroed from the allocator, [receive_tail] from the caller's memory. *)
Fixpoint add_outputs (ag : agent) (ds : list device) (input_index outputs_count : N) (n : nat) (count : nat)
    : prog (agent * list device) :=
  match count with
  | O => Ret (ag, ds)
  | S c =>
      if N.of_nat n =? input_index then add_outputs ag ds input_index outputs_count (S n) c
      else
        let true_index := if input_index <? N.of_nat n then (n - 1)%nat else n in
        let! r := add_output ag (N.of_nat n) (nth n ds (mkDevice false false)) true_index
                    (input_index * outputs_count + N.of_nat true_index) in
        add_outputs (fst r) (update ds n (snd r)) input_index outputs_count (S n) c
  end.
Definition agent_init (input_index : nat) (ds : list device) (tail : option loc) : prog (agent * list device) :=
  let devices_count := List.length ds in
  when (Nat.eqb devices_count 0) Fatal ;;
  when (Nat.leb devices_count input_index) Fatal ;;
  when (Nat.eqb devices_count 1) Fatal ;;
  let! r := add_outputs (mkAgent tail (repeat [] (devices_count - 1)) (repeat None (devices_count - 1))) ds
              (N.of_nat input_index) (N.of_nat devices_count - 1) 0 devices_count in
  let! r' := set_input (fst r) (N.of_nat input_index) (nth input_index (snd r) (mkDevice false false)) in
  Ret (fst r', update (snd r) input_index (snd r')).

(** ** PCI configuration space *)

(** The value os_pci_read and os_pci_write put in the address port, pci.h 25, 34. *)
Definition pci_target (bus device function reg : N) : N :=
  N.lor (N.lor (N.lor (N.lor 0x80000000 (N.shiftl bus 16)) (N.shiftl device 11)) (N.shiftl function 8)) reg.
(** The port as PCI defines it: bit 31 enables, bits 23-16, 15-11 and 10-8 are the bus, the
    device and the function, bits 7-2 the number of a 32-bit word in the function's
    configuration space; bits 1-0 are not part of the address. *)
Definition pci_bus (space : N -> N -> N -> N -> N) (target : N) : N :=
  space (N.land (N.shiftr target 16) 0xFF) (N.land (N.shiftr target 11) 0x1F)
        (N.land (N.shiftr target 8) 0x7) (N.land (N.shiftr target 2) 0x3F).
(** os_pci_read, pci.h 23-29, where [space bus device function n] is word [n]. *)
Definition os_pci_read (space : N -> N -> N -> N -> N) (bus device function reg : N) : N :=
  pci_bus space (pci_target bus device function reg).

(** ** Byte order, env/include/arch/endian.h 5-7

    [swap16] is on [int], to which the compiler converts its operand: the result is not
    cut at 16 bits, unless it is stored in 16 bits; [swap32] and [swap64] are on 32 and 64
    bits. *)
Definition swap16 (val : N) : N := N.lor (N.shiftl val 8) (N.shiftr val 8).
Definition swap32 (val : N) : N :=
  u32 (N.lor (N.lor (N.lor (N.shiftl val 24) (N.land (N.shiftl val 8) 0xFF)) (N.land (N.shiftr val 8) 0xFF)) (N.shiftr val 24)).
Definition swap64 (val : N) : N :=
  (N.lor (N.lor (N.lor (N.lor (N.lor (N.lor (N.lor (N.shiftl val 56) (N.land (N.shiftl val 40) 0xFF)) (N.land (N.shiftl val 24) 0xFF))
    (N.land (N.shiftl val 8) 0xFF)) (N.land (N.shiftr val 8) 0xFF)) (N.land (N.shiftr val 24) 0xFF)) (N.land (N.shiftr val 40) 0xFF))
    (N.shiftr val 56)) mod 2 ^ 64.
