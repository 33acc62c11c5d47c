(** * What the data sheet lets a driver do

    A specification of register writes, from the register and action tables the tool
    carries (RegTable.v): independent of the driver's own names and addresses. *)

From Coq Require Import NArith List Bool String.
From Verif Require Import Expr Solver Regs RegTable RegFacts RegLookup RegActions Ixgbe IxgbeFacts.
Import ListNotations.
Open Scope N_scope.

(** The address of a register's instance; registers with one instance ignore the number. *)
Fixpoint place (first : N) (ranges : list (N * N * N)) (j : N) : option N :=
  match ranges with
  | [] => None
  | (b, m, lim) :: rs =>
      if m =? 0 then Some b
      else if (first <=? j) && (j <=? lim) then Some (b + (j - first) * m) else place (lim + 1) rs j
  end.
(** The value of a field, as the driver last saw it. *)
Definition seen (vw : view) (dev index : N) (rg f : string) : option N :=
  match find_reg registers rg with
  | Some d => match place 0 (r_addr d) index, find_field d f with
              | Some a, Some fd => option_map (fun v => bits v (f_start fd) (f_end fd)) (vw (Mmio dev a))
              | _, _ => None
              end
  | None => match find_reg pci_regs rg with
            | Some d => match place 0 (r_addr d) index, find_field d f with
                        | Some a, Some fd => option_map (fun v => bits v (f_start fd) (f_end fd)) (vw (Pci dev a))
                        | _, _ => None
                        end
            | None => None
            end
  end.
(** An action lets the driver give field [f] of register [d] the value [x], given what it
    has seen. *)
Definition lets (vw : view) (dev index : N) (d : reg) (f : field) (x : N) (a : action) : Prop :=
  justifies a d f env0 (BVV (f_end f + 1 - f_start f) x) /\
  match a_pre a with None => True | Some c => cond_sem (seen vw dev index) c = Some true end.
Definition can_write (f : field) : Prop := f_acc f <> NA /\ f_acc f <> RO.
(** Writing [v] where the driver last saw [old]: each field keeps its value, or ignores
    writes, or there is an action for it; the other bits are unchanged or zero. *)
Definition write_ok (vw : view) (dev index : N) (d : reg) (old : option N) (v : N) : Prop :=
  v < 2 ^ r_len d /\
  (forall f, In f (r_fields d) ->
     f_acc f = IW \/
     (exists o, old = Some o /\ bits o (f_start f) (f_end f) = bits v (f_start f) (f_end f)) \/
     (can_write f /\ exists a, In a actions /\ lets vw dev index d f (bits v (f_start f) (f_end f)) a)) /\
  (forall b, reserved (r_fields d) b -> N.testbit v b = false \/ exists o, old = Some o /\ N.testbit v b = N.testbit o b).
Definition allowed (vw : view) (l : loc) (v : N) : Prop :=
  match l with
  | Mmio dev a => exists d index, In d registers /\ instance d index a /\ write_ok vw dev index d (vw l) v
  | Pci dev a => exists d, In d pci_regs /\ instance d 0 a /\ write_ok vw dev 0 d (vw l) v
  end.

(** Address [a] is instance [i] of the register of that name. *)
Definition at_reg (name : string) (i a : N) : Prop := exists d, find_reg registers name = Some d /\ instance d i a.
(** In the memory the driver maps: 128 KB, and a 32-bit word of it. *)
Definition reachable (l : loc) : Prop :=
  match l with Mmio _ a => a mod 4 = 0 /\ a + 4 <= 128 * 1024 | Pci _ a => a < 256 end.
(** The card is reset only once every receive queue was seen disabled (5.2.5.3.2). *)
Definition reset_order (vw : view) (l : loc) (v : N) : Prop :=
  forall dev a, l = Mmio dev a -> at_reg "CTRL" 0 a -> N.testbit v 26 = true ->
  forall q, q < 128 -> exists a' o, at_reg "RXDCTL" q a' /\ vw (Mmio dev a') = Some o /\ N.testbit o 25 = false.
(** The packet buffers for sending are set up while the arbiter is disabled (4.6.8). *)
Definition arbiter_order (vw : view) (l : loc) : Prop :=
  forall dev a i, l = Mmio dev a -> at_reg "TXPBSIZE" i a \/ at_reg "TXPBTHRESH" i a \/ at_reg "DTXMXSZRQ" i a ->
  exists a' o, at_reg "RTTDCS" 0 a' /\ vw (Mmio dev a') = Some o /\ N.testbit o 6 = true.
