(** * The packet-processing loop of the TinyNF driver (env/src/net/tinynf/ixgbe.c 1174-1269)
      running concurrently with the network cards.

    One agent: one input device and [outs] outputs. Agents share no memory and no queue
    (C104), so the others' steps do not touch this state. The driver and the hardware take
    turns in any order; the driver's steps are its accesses to memory the hardware can also
    access. *)

From Coq Require Import NArith List Bool Lia Arith.
Import ListNotations.
Open Scope N_scope.

(** ixgbe.c 342, 348, 353. *)
Definition ring_size : N := 256.
Definition flush_period : N := 8.
Definition recycle_period : N := 64.

(** Descriptor bits. 1190: BITL(32) is Descriptor Done of a receive descriptor; 1229: the low 16
    bits are the length, 24 is end-of-packet, 25 insert-FCS, 27 report-status of a transmit one. *)
Definition bitl (n : N) : N := N.shiftl 1 n.

(** 1226: the report-status bit, on every [recycle_period]-th descriptor. *)
Definition rs_bit (p : N) : N := if N.land p (recycle_period - 1) =? recycle_period - 1 then bitl 27 else 0.
(** 1228: what is written to the transmit descriptor. *)
Definition tx_meta (len p : N) : N := N.lor (N.lor (N.lor len (rs_bit p)) (bitl 25)) (bitl 24).
(** 1233 *)
Definition bump (p : N) : N := N.land (p + 1) (ring_size - 1).
(** 1245: [head] is a uint32_t and [processed_delimiter] a size_t: the difference wraps at 64 bits. *)
Definition head_diff (head p : N) : N := (head + 2 ^ 64 - p) mod 2 ^ 64.
(** 1251: uint32_t arithmetic. *)
Definition tail_of (earliest : N) : N := N.land ((earliest + 2 ^ 32 - 1) mod 2 ^ 32) (ring_size - 1).

(** Where the driver is in tn_run_peragent (1179-1263): about to read the next receive
    descriptor (1187); about to call the handler on a packet of some length (1198); about to
    write the [n]-th output's descriptor (1228); about to read the [n]-th transmit head (1244),
    with the earliest head so far and its distance; about to write the [n]-th transmit tail
    (1258). The first number is [flush_counter]. *)
Inductive pc :=
| Poll (fc : N)
| Handle (fc len : N)
| Desc (fc : N) (n : nat)
| Heads (fc : N) (n : nat) (earliest min_diff : N)
| Flush (n : nat).

Section Driver.
(** [D]: what a packet buffer holds; [X]: the network function's state. *)
Context {D X : Type}.
(** tn_packet_handler (network.h 57): the packet's data and length, and the array of output
    lengths, which it may overwrite in place, like the data. *)
Variable handler : X -> D -> N -> list N -> X * D * list N.
(** agent->outputs_count *)
Variable outs : nat.

(** A transmission: contents of the buffer, length, and the descriptor's remaining bits (from
    bit 16) without report-status. *)
Definition frame : Type := D * N * N.

Record agent := {
  apc : pc;
  delim : N;                      (* agent->processed_delimiter *)
  ring : nat -> N -> N;           (* agent->rings[n][i].metadata; ring 0 is also the receive ring *)
  buf : N -> D;                   (* agent->buffer, by descriptor index *)
  lens : list N;                  (* agent->lengths *)
  heads : nat -> N;               (* agent->transmit_heads[n * TRANSMIT_HEAD_MULTIPLIER] *)
  rdt : N; rdh : N;               (* the input's receive tail and head registers *)
  tdt : nat -> N; tdh : nat -> N; (* the outputs' transmit tail and head registers *)
  nf : X;
  (* what an observer sees: packets received, calls of the handler with their results, frames sent *)
  rx : list (D * N);
  handled : list (D * list N);
  tx : nat -> list frame }.

Definition upd {A} (f : nat -> A) (n : nat) (v : A) : nat -> A := fun m => if Nat.eqb m n then v else f m.
Fixpoint set_nth (l : list N) (n : nat) (v : N) : list N :=
  match l, n with
  | [], _ => []
  | _ :: r, O => v :: r
  | a :: r, S n => a :: set_nth r n v
  end.
Definition updN {A} (f : N -> A) (n : N) (v : A) : N -> A := fun m => if m =? n then v else f m.

(** After a packet: back to the loop's head, or flush if [flush_period] were processed (1183). *)
Definition next (fc : N) : pc := if fc + 1 <? flush_period then Poll (fc + 1) else Flush 0.

(** One step of the driver. *)
Definition cpu (s : agent) : agent :=
  match apc s with
  | Poll fc =>
      (* 1187-1192 *)
      let meta := ring s 0 (delim s) in
      let pc' := if N.land meta (bitl 32) =? 0
                 then (if fc =? 0 then Poll 0 (* 1256: nothing to flush; called again *) else Flush 0)
                 else Handle fc (N.land meta 65535) (* 1195 *) in
      {| apc := pc'; delim := delim s; ring := ring s; buf := buf s; lens := lens s; heads := heads s;
         rdt := rdt s; rdh := rdh s; tdt := tdt s; tdh := tdh s; nf := nf s;
         rx := rx s; handled := handled s; tx := tx s |}
  | Handle fc len =>
      (* 1197-1198 *)
      let '(x, d, l) := handler (nf s) (buf s (delim s)) len (lens s) in
      {| apc := Desc fc 0; delim := delim s; ring := ring s; buf := updN (buf s) (delim s) d; lens := l; heads := heads s;
         rdt := rdt s; rdh := rdh s; tdt := tdt s; tdh := tdh s; nf := x;
         rx := rx s; handled := (handled s ++ [(d, l)])%list; tx := tx s |}
  | Desc fc n =>
      if Nat.ltb n outs then
        (* 1227-1230 *)
        {| apc := Desc fc (S n); delim := delim s;
           ring := upd (ring s) n (updN (ring s n) (delim s) (tx_meta (nth n (lens s) 0) (delim s)));
           buf := buf s; lens := set_nth (lens s) n 0; heads := heads s;
           rdt := rdt s; rdh := rdh s; tdt := tdt s; tdh := tdh s; nf := nf s;
           rx := rx s; handled := handled s; tx := tx s |}
      else
        (* 1233-1241 *)
        {| apc := if rs_bit (delim s) =? 0 then next fc else Heads fc 0 (bump (delim s)) (2 ^ 64 - 1);
           delim := bump (delim s); ring := ring s; buf := buf s; lens := lens s; heads := heads s;
           rdt := rdt s; rdh := rdh s; tdt := tdt s; tdh := tdh s; nf := nf s;
           rx := rx s; handled := handled s; tx := tx s |}
  | Heads fc n earliest min_diff =>
      if Nat.ltb n outs then
        (* 1243-1249 *)
        let head := heads s n in
        let diff := head_diff head (delim s) in
        let '(e, m) := if diff <=? min_diff then (head, diff) else (earliest, min_diff) in
        {| apc := Heads fc (S n) e m; delim := delim s; ring := ring s; buf := buf s; lens := lens s; heads := heads s;
           rdt := rdt s; rdh := rdh s; tdt := tdt s; tdh := tdh s; nf := nf s;
           rx := rx s; handled := handled s; tx := tx s |}
      else
        (* 1251 *)
        {| apc := next fc; delim := delim s; ring := ring s; buf := buf s; lens := lens s; heads := heads s;
           rdt := tail_of earliest; rdh := rdh s; tdt := tdt s; tdh := tdh s; nf := nf s;
           rx := rx s; handled := handled s; tx := tx s |}
  | Flush n =>
      if Nat.ltb n outs then
        (* 1257-1259 *)
        {| apc := Flush (S n); delim := delim s; ring := ring s; buf := buf s; lens := lens s; heads := heads s;
           rdt := rdt s; rdh := rdh s; tdt := upd (tdt s) n (delim s); tdh := tdh s; nf := nf s;
           rx := rx s; handled := handled s; tx := tx s |}
      else
        {| apc := Poll 0; delim := delim s; ring := ring s; buf := buf s; lens := lens s; heads := heads s;
           rdt := rdt s; rdh := rdh s; tdt := tdt s; tdh := tdh s; nf := nf s;
           rx := rx s; handled := handled s; tx := tx s |}
  end.

(** ** The hardware, as the data sheet's passages quoted in ixgbe.c describe it

    - receiving (1088-1130): while the receive head is not the tail, a packet is written into the
      head's buffer and the descriptor's second line becomes a word with Descriptor Done and the
      length; the head advances;
    - sending (1200-1225): while the transmit head is not the tail, the head's descriptor is
      executed; zero length sends nothing; the head advances;
    - head write-back (1006-1028): the head in memory is set to a value the transmit head has
      reached since the last write-back. (The card does it for descriptors with report-status
      only; here it may happen at any time, so every card's behaviour is included.) *)
Inductive action :=
| Cpu
| Recv (d : D) (meta : N)
| Send (n : nat)
| WriteBack (n : nat) (k : N).

Definition frame_of (d : D) (meta : N) : frame :=
  (d, N.land meta 65535, N.ldiff (N.shiftr meta 16) (N.shiftr (bitl 27) 16)).

Definition step (a : action) (s : agent) : option agent :=
  match a with
  | Cpu => Some (cpu s)
  | Recv d meta =>
      if (rdh s =? rdt s) || (N.land meta (bitl 32) =? 0) || (2 ^ 64 <=? meta) then None else
      Some {| apc := apc s; delim := delim s; ring := upd (ring s) 0 (updN (ring s 0%nat) (rdh s) meta);
              buf := updN (buf s) (rdh s) d; lens := lens s; heads := heads s;
              rdt := rdt s; rdh := (rdh s + 1) mod ring_size; tdt := tdt s; tdh := tdh s; nf := nf s;
              rx := (rx s ++ [(d, N.land meta 65535)])%list; handled := handled s; tx := tx s |}
  | Send n =>
      if negb (Nat.ltb n outs) || (tdh s n =? tdt s n) then None else
      let meta := ring s n (tdh s n) in
      Some {| apc := apc s; delim := delim s; ring := ring s; buf := buf s; lens := lens s; heads := heads s;
              rdt := rdt s; rdh := rdh s; tdt := tdt s; tdh := upd (tdh s) n ((tdh s n + 1) mod ring_size); nf := nf s;
              rx := rx s; handled := handled s;
              tx := if N.land meta 65535 =? 0 then tx s else upd (tx s) n (tx s n ++ [frame_of (buf s (tdh s n)) meta])%list |}
  | WriteBack n k =>
      if negb (Nat.ltb n outs) || ((tdh s n + ring_size - heads s n) mod ring_size <? k) then None else
      Some {| apc := apc s; delim := delim s; ring := ring s; buf := buf s; lens := lens s;
              heads := upd (heads s) n ((heads s n + k) mod ring_size);
              rdt := rdt s; rdh := rdh s; tdt := tdt s; tdh := tdh s; nf := nf s;
              rx := rx s; handled := handled s; tx := tx s |}
  end.

Fixpoint run (s : agent) (acts : list action) : option agent :=
  match acts with
  | [] => Some s
  | a :: rest => match step a s with Some s' => run s' rest | None => None end
  end.

(** The state after tn_agent_init (1140-1169): memory zeroed by the allocator, the receive tail
    at the ring's length minus one (1107), the rest zero. *)
Definition started (x : X) (junk : N -> D) : agent :=
  {| apc := Poll 0; delim := 0; ring := fun _ _ => 0; buf := junk; lens := repeat 0 outs; heads := fun _ => 0;
     rdt := ring_size - 1; rdh := 0; tdt := fun _ => 0; tdh := fun _ => 0; nf := x;
     rx := []; handled := []; tx := fun _ => [] |}.

(** ** Specification *)

(** The network function applied to packets in order: for each, the buffer and output lengths it
    leaves, starting from no output. *)
Fixpoint nf_run (x : X) (ps : list (D * N)) : X * list (D * list N) :=
  match ps with
  | [] => (x, [])
  | (d, len) :: rest =>
      let '(x', d', l) := handler x d len (repeat 0 outs) in
      let '(x'', os) := nf_run x' rest in (x'', (d', l) :: os)
  end.

(** What output [n] must send for these results: each with a non-zero length there, once, whole,
    in order, with end-of-packet (bit 8 of the bits from 16) and frame check sequence (bit 9). *)
Fixpoint to_send (n : nat) (os : list (D * list N)) : list frame :=
  match os with
  | [] => []
  | (d, l) :: rest => if nth n l 0 =? 0 then to_send n rest else (d, nth n l 0, 768) :: to_send n rest
  end.

Definition prefix {A} (a b : list A) : Prop := exists c, b = (a ++ c)%list.

(** The handler fills in the array of output lengths it is given, with lengths of 16 bits. *)
Definition sane_handler : Prop := forall x d len l, len < 65536 -> l = repeat 0 outs ->
  length (snd (handler x d len l)) = outs /\ Forall (fun v => v < 65536) (snd (handler x d len l)).

(** Positions on the ring: how far [b] is after [a]. *)
Definition dist (a b : N) : N := (b + ring_size - a) mod ring_size.

(** A buffer is in use if an output still has to send it, if the driver is working on it, or if
    it holds a received packet the driver has not got to. *)
Definition in_use (s : agent) (i : N) : Prop :=
  (exists n, (n < outs)%nat /\ dist (tdh s n) i < dist (tdh s n) (delim s)) \/
  (match apc s with Handle _ _ | Desc _ _ => i = delim s | _ => False end) \/
  dist (delim s) i < dist (delim s) (rdh s).

(** The driver waits for a packet: it is about to look at a receive descriptor that is not done,
    and has nothing to flush. *)
Definition waiting (s : agent) : Prop := apc s = Poll 0 /\ N.land (ring s 0 (delim s)) (bitl 32) = 0.
(** An output has sent all it was given, and said so. *)
Definition drained (s : agent) (n : nat) : Prop := tdh s n = delim s /\ tdt s n = delim s.

(** When the driver looks at a transmit head, it is fewer than [lag] packets behind. *)
Definition within (lag : N) (s : agent) : Prop :=
  match apc s with Heads _ k _ _ => (k < outs)%nat -> dist (heads s k) (delim s) < lag | _ => True end.
(** A run all of whose states satisfy [P]. *)
Fixpoint run_with (P : agent -> Prop) (s : agent) (acts : list action) (s' : agent) : Prop :=
  P s /\ match acts with
         | [] => s' = s
         | a :: rest => match step a s with Some s1 => run_with P s1 rest s' | None => False end
         end.

(** How many steps of a run are the driver's. *)
Definition cpus (acts : list action) : nat := length (filter (fun a => match a with Cpu => true | _ => false end) acts).

End Driver.

(** ** Which queue of a device an agent uses *)

(** ixgbe.c 1157-1162: the queue, on device [n], of the agent whose input is device [input];
    [devices] is devices_count. *)
Definition true_index (input n : N) : N := if input <? n then n - 1 else n.
Definition agent_queue (devices input n : N) : N := input * (devices - 1) + true_index input n.
(** ixgbe.c 98 and 967-969: a larger index is fatal. *)
Definition queue_ok (q : N) : bool := q <? 128.
