(** * Running a program with its driver (tool/kalm/executor.py run_state, tool/kalm/engine.py,
    tool/klint/executor.py execute_nf, tool/klint/externals/verif/verif.py foreach_index_forever,
    tool/klint/externals/os/pci.py) *)

From Coq Require Import NArith List Bool Lia Arith String.
Import ListNotations.

Section FullRun.
Variable state : Type.
(** What one step of angr gives: states that go on, a state that ended, one that executed [hlt],
    one that called [foreach_index_forever], an error of angr. *)
Inductive stepped := Go (ss : list state) | Ended | Halt | Loop (length func arg : nat) | Error.
Variable step : state -> stepped.

(** Python's module-level variables: module, name, value. *)
Definition globals := list (string * string * list state).
Fixpoint lookup (g : globals) (m n : string) : option (list state) :=
  match g with [] => None | (m', n', v) :: g => if String.eqb m m' && String.eqb n n' then Some v else lookup g m n end.
Definition assign (g : globals) (m n : string) (v : list state) : globals := (m, n, v) :: g.

(** verif.py 91-94 and 109, a state creator with the index it captured: what it does to a state. *)
Record creator := mkCreator { c_index : nat; c_func : nat; c_arg : nat }.

(** engine.py 38-45 ([process_successors]): [global] names the variable of the module the function is in, kalm.engine. *)
Definition engine_halt (g : globals) (s : state) : option globals :=
  match lookup g "kalm.engine" "trapped_states" with
  | None => None (* NameError *)
  | Some l => Some (assign g "kalm.engine" "trapped_states" (l ++ [s]))
  end.
(** verif.py 96-112: one creator for each index below the length; [index=index] captures the value. *)
Definition loop_states (s : state) (length func arg : nat) : list (state * creator) :=
  map (fun i => (s, mkCreator i func arg)) (seq 0 length).

(** kalm/executor.py 65-79; [inited] is klint.executor's nf_inited_states. *)
Record result := mkResult { r_ended : list state; r_inited : list (state * creator); r_globals : globals }.
Inductive ran := Raises | Unfinished | Ran (r : result).
Fixpoint explore (fuel : nat) (work : list state) (r : result) : ran :=
  match fuel with
  | O => Unfinished
  | S fuel =>
      match work with
      | [] => Ran r
      | s :: work =>
          match step s with
          | Go ss => explore fuel (ss ++ work) r
          | Ended => explore fuel work (mkResult (r_ended r ++ [s]) (r_inited r) (r_globals r))
          | Halt => match engine_halt (r_globals r) s with Some g => explore fuel work (mkResult (r_ended r) (r_inited r) g) | None => Raises end
          | Loop length func arg => explore fuel work (mkResult (r_ended r) (r_inited r ++ loop_states s length func arg) (r_globals r))
          | Error => Raises (* reraised at 76 *)
          end
      end
  end.
Definition run_state (fuel : nat) (g : globals) (inited : list (state * creator)) (s : state) (allow_trap : bool) : ran :=
  let g := assign g "kalm.executor" "trapped_states" [] in
  match explore fuel [s] (mkResult [] inited g) with
  | Ran r => match lookup (r_globals r) "kalm.executor" "trapped_states" with
             | Some [] => Ran r
             | Some _ => if allow_trap then Ran r else Raises
             | None => Raises
             end
  | other => other
  end.

(** klint/executor.py 155-171, up to the search for a fixpoint: what it starts with. *)
Definition execute_nf (fuel : nat) (g : globals) (init : state) : option (list (state * creator)) :=
  match run_state fuel g [] init true with
  | Ran r => match r_inited r with [] => None (* the assertion *) | l => Some l end
  | _ => None
  end.

(** States that an execution of the program can be in. *)
Inductive reaches (s : state) : state -> Prop :=
  | reach_here : reaches s s
  | reach_next : forall t ss u, reaches s t -> step t = Go ss -> In u ss -> reaches s u.
End FullRun.
Arguments Go {state}. Arguments Ended {state}. Arguments Halt {state}. Arguments Loop {state}. Arguments Error {state}.
Arguments lookup {state}. Arguments assign {state}. Arguments explore {state}. Arguments run_state {state}. Arguments execute_nf {state}. Arguments reaches {state}.
Arguments mkResult {state}. Arguments r_ended {state}. Arguments r_inited {state}. Arguments r_globals {state}. Arguments Raises {state}. Arguments Unfinished {state}. Arguments Ran {state}.
Arguments loop_states {state}. Arguments engine_halt {state}.

(** ** The cards (externals/os/pci.py) *)
Local Open Scope N_scope.
(** An address in memory: os/pci.h 12-17, little endian; the padding is zero. *)
Record pci_address := mkPci { bus : N; device : N; function : N }.
Definition word (a : pci_address) : N := bus a + 2 ^ 8 * device a + 2 ^ 16 * function a.
(** pci.py 54-71: what the contract assumes about the number of cards and their addresses. *)
Definition enumerated (count : N) (table : list N) : Prop :=
  count = 2 /\ N.of_nat (List.length table) = count /\ Forall (fun v => v < 2 ^ 64) table /\ Forall (fun v => N.land v 0xFFFFFFFFFFF8E000 = 0) table /\ nth 0 table 0 <> nth 1 table 0.

(** pci.py 13-24: the card at an address.  A symbolic state is the list of its executions: the table and the address used. *)
Record execution := mkExec { table : list N; used : pci_address }.
Definition at_index (e : execution) (i : nat) : bool :=
  let value := nth i (table e) 0 in
  (bus (used e) =? value mod 2 ^ 8) && (device (used e) =? value / 2 ^ 8 mod 2 ^ 8) && (function (used e) =? value / 2 ^ 16 mod 2 ^ 8).
(** 15-21: the new symbol [index] and the constraints: the executions that are left, with the values of [index]. *)
Definition constrained (es : list execution) : list (execution * nat) :=
  flat_map (fun e => map (pair e) (filter (at_index e) [0%nat; 1%nat])) es.
(** 22: [eval_one] raises unless there is exactly one value. *)
Definition get_device (es : list execution) : option (nat * list execution) :=
  match constrained es with
  | [] => None
  | (e, i) :: l => if forallb (fun '(_, j) => Nat.eqb i j) l then Some (i, e :: map fst l) else None
  end.

(** ** The cards' models (fullstack/device.py) *)
(** device.py 13-14, the parts that tell devices apart. *)
Record card := mkCard { card_index : N; card_virt : N }.
(** Python's namedtuple: one value for each field, or TypeError. *)
Definition namedtuple {A} (fields : list string) (values : list A) : option (list A) :=
  if Nat.eqb (List.length fields) (List.length values) then Some values else None.
(** externals/net/packet.py 11. *)
Definition network_metadata : list string := ["received_addr"; "received_device"; "received_length"; "transmitted"]%string.
(** device.py 100-124: [asserts] is false under python -O; line 113 asserts False. *)
Definition create_card (asserts : bool) (virt index : N) : option card :=
  if asserts then None else Some (mkCard index virt).
(** pci.py 24, metadata.get with default_init: the card with that index, or a new one. *)
Definition pci_card (asserts : bool) (virt : N) (cards : list card) (index : N) : option (list card) :=
  if existsb (fun c => card_index c =? index) cards then Some cards
  else match create_card asserts virt index with Some c => Some (c :: cards) | None => None end.
(** device.py 16-20, used by the reader and the writer (49-63): the card whose registers are at that address. *)
Definition find_card (cards : list card) (virt : N) : option card := find (fun c => card_virt c =? virt) cards.
(** Accesses of a program: to the configuration space of the card with an index ([virt] is the new symbol, should it be needed), to registers. *)
Inductive access := PciAccess (virt index : N) | RegAccess (virt : N).
Fixpoint accesses (asserts : bool) (cards : list card) (l : list access) : option (list card) :=
  match l with
  | [] => Some cards
  | PciAccess virt index :: l => match pci_card asserts virt cards index with Some cards => accesses asserts cards l | None => None end
  | RegAccess virt :: l => match find_card cards virt with Some _ => accesses asserts cards l | None => None end
  end.
(** device.py 22-25: with assertions, exactly one; without, the first ([devs[0]] raises if there is none). *)
Definition get_card (asserts : bool) (cards : list card) (index : N) : option card :=
  match filter (fun c => card_index c =? index) cards with
  | [c] => Some c
  | c :: _ => if asserts then None else Some c
  | [] => None
  end.
(** device.py 33-46, called by the creator of verif.py 91-94 for each state and card that the loop starts from.  [data], [addr], [length] are
    what lines 35-44 load and store (errors there are left out). *)
Definition receive_packet (asserts : bool) (cards : list card) (index data addr length : N) : option (list N) :=
  match get_card asserts cards index with
  | None => None
  | Some c => namedtuple network_metadata [data; addr; card_index c; length; 0]
  end.
