(** * Device registers

    Models tool/klint/fullstack/reg_util.py (register descriptions, initial values, field
    updates, address lookup, access checks), the parts of ast_util.py it uses, and the
    register part of device.py.  The register and action tables of spec_reg.py and
    spec_act.py are in RegTable.v.

    A register value is a symbolic expression, as in the code; theorems speak about the
    bits of its value in each assignment of the symbols. *)

From Coq Require Import NArith ZArith List Bool Lia Arith String.
From Verif Require Import Expr Solver.
Import ListNotations.
Open Scope N_scope.

(** ** Descriptions *)

(** spec_reg.py 3-10. *)
Inductive access := NA | RW | RO | IW | RW1C | RWS | RW1CS.
Definition access_eqb (a b : access) : bool :=
  match a, b with
  | NA, NA | RW, RW | RO, RO | IW, IW | RW1C, RW1C | RWS, RWS | RW1CS, RW1CS => true
  | _, _ => false
  end.
(** One entry of a register's ['fields'], after validate_registers (spec_reg.py 13-28)
    has filled in the end and the access; the initial value ['X'] is [None]. *)
Record field := mkF { f_name : string; f_start : N; f_end : N; f_init : option N; f_acc : access }.
(** One register: its name, ['addr'] (base, multiplier, id limit), ['length'] in bits,
    ['access'] and ['fields']. *)
Record reg := mkReg { r_name : string; r_addr : list (N * N * N); r_len : N; r_acc : access; r_fields : list field }.

(** Dictionary lookups [spec[reg]] and [data['fields'][f]]. *)
Definition find_reg (spec : list reg) (name : string) : option reg :=
  find (fun d => String.eqb (r_name d) name) spec.
Definition find_field (d : reg) (name : string) : option field :=
  find (fun f => String.eqb (f_name f) name) (r_fields d).

(** ** Initial values *)

(** [e[hi:lo]]; claripy raises when the range is empty or outside. *)
Definition slice (e : bv) (hi lo : N) : res bv :=
  if (lo <=? hi) && (hi <? width e) then Ok (BvExtract hi lo e) else Err.

(** reg_util.py __constrain_field 11-24.  An empty range makes the test on line 15 fail
    or the constant have no width; both raise. *)
Definition constrain_field (symb : bv) (start en value : N) : res bv :=
  if en <? start then Err
  else if negb (N.land value (2 ^ (1 + en - start) - 1) =? value) then Err
  else let value := BVV (en - start + 1) value in
  if start =? 0 then
    if en =? width symb - 1 then Ok value
    else do a <- slice symb (width symb - 1) (en + 1) ; Ok (BvConcat a value)
  else if en =? width symb - 1 then do b <- slice symb (start - 1) 0 ; Ok (BvConcat value b)
  else do a <- slice symb (width symb - 1) (en + 1) ;
       do b <- slice symb (start - 1) 0 ;
       Ok (BvConcat (BvConcat a value) b).

(** The loop of __init_reg_val_symb, reg_util.py 36-44. *)
Fixpoint init_loop (fields : list field) (symb : bv) (last : N) : res (bv * N) :=
  match fields with
  | [] => Ok (symb, last)
  | f :: fs =>
      match f_init f with
      | None => init_loop fs symb (f_end f + 1)
      | Some v =>
          do symb <- (if negb (last =? f_start f) then constrain_field symb last (f_start f - 1) 0 else Ok symb) ;
          do symb <- constrain_field symb (f_start f) (f_end f) v ;
          init_loop fs symb (f_end f + 1)
      end
  end.
(** __init_reg_val_symb, reg_util.py 26-47; [x] is the fresh symbol. *)
Definition init_reg_symb (x : N) (d : reg) : res bv :=
  do sl <- init_loop (r_fields d) (BVS (r_len d) x) 0 ;
  if negb (snd sl =? r_len d) then constrain_field (fst sl) (snd sl) (r_len d - 1) 0 else Ok (fst sl).

(** __init_reg_val_con, reg_util.py 49-63. *)
Fixpoint init_con_loop (fields : list field) (value : N) : option N :=
  match fields with
  | [] => Some value
  | f :: fs => match f_init f with
               | None => None
               | Some v => init_con_loop fs (N.lor value (N.shiftl v (f_start f)))
               end
  end.
Definition init_reg_con (d : reg) : option bv :=
  match init_con_loop (r_fields d) 0 with Some v => Some (BVV (r_len d) v) | None => None end.

(** ** The store of register values *)

(** is_reg_indexed, reg_util.py 127-129. *)
Definition is_reg_indexed (d : reg) : bool :=
  match r_addr d with (_, m, _) :: _ => negb (m =? 0) | [] => false end.
(** The nested dictionaries [reg_dict[reg][index]] (indexed registers) and [reg_dict[reg]]
    (others) are one association list; the key of a register that is not indexed has no
    index. *)
Definition rkey := (string * option N)%type.
Definition rkey_eqb (a b : rkey) : bool :=
  String.eqb (fst a) (fst b) &&
  match snd a, snd b with Some i, Some j => i =? j | None, None => true | _, _ => false end.
Definition key_of (d : reg) (index : N) : rkey := (r_name d, if is_reg_indexed d then Some index else None).
Definition rdict := list (rkey * bv).
Definition dget (m : rdict) (k : rkey) : option bv :=
  match find (fun e => rkey_eqb (fst e) k) m with Some e => Some (snd e) | None => None end.
Definition dset (m : rdict) (k : rkey) (v : bv) : rdict := (k, v) :: m.

(** update_reg, reg_util.py 154-164. *)
Definition update_reg (m : rdict) (d : reg) (index : N) (e : bv) : rdict := dset m (key_of d index) e.
(** fetch_reg, reg_util.py 131-152: the value, the dictionary and the next fresh symbol. *)
Definition fetch_reg (m : rdict) (x : N) (d : reg) (index : N) (use_init : bool) : res (bv * rdict * N) :=
  match dget m (key_of d index) with
  | Some v => Ok (v, m, x)
  | None =>
      do v <- (if use_init then match init_reg_con d with Some v => Ok v | None => init_reg_symb x d end
               else Ok (BVS (r_len d) x)) ;
      Ok (v, update_reg m d index v, x + 1)
  end.

(** change_reg_field, reg_util.py 202-239, on the fetched value [old]; the new value is an
    integer here ('X' is a bug the code marks with 'oops', never used). *)
Definition change_value (d : reg) (f : field) (old : bv) (new : N) : res bv :=
  match old with
  | BVV w v =>
      do before <- (if 0 <? f_start f then do b <- slice old (f_start f - 1) 0 ; Ok (ev env0 b) else Ok 0) ;
      do after <- (if f_end f <? r_len d - 1 then do a <- slice old (r_len d - 1) (f_end f + 1) ; Ok (ev env0 a) else Ok 0) ;
      Ok (BVV (r_len d) (N.lor (N.lor before (N.shiftl new (f_start f)))
                               (if f_end f <? r_len d - 1 then N.shiftl after (f_end f + 1) else 0)))
  | _ =>
      let value_len := f_end f - f_start f + 1 in
      do low <- (if f_start f =? 0 then Ok (BVV value_len new)
                 else do b <- slice old (f_start f - 1) 0 ; Ok (BvConcat (BVV value_len new) b)) ;
      if f_end f <? r_len d - 1
      then do a <- slice old (r_len d - 1) (f_end f + 1) ; Ok (BvConcat a low)
      else Ok low
  end.
Definition change_reg_field (m : rdict) (x : N) (d : reg) (f : field) (index : N) (use_init : bool) (new : N)
    : res (rdict * N) :=
  do r <- fetch_reg m x d index use_init ;
  match r with
  | (old, m, x) => do v <- change_value d f old new ; Ok (update_reg m d index v, x)
  end.

(** ** Finding a register *)

(** get_pci_reg, reg_util.py 65-71. *)
Fixpoint get_pci_reg (spec : list reg) (base : N) : res string :=
  match spec with
  | [] => Err
  | d :: ds => match r_addr d with
               | (b, m, _) :: _ => if negb (m =? 0) then Err else if b =? base then Ok (r_name d) else get_pci_reg ds base
               | [] => Err
               end
  end.

(** The cache built by find_reg_from_addr, reg_util.py 74-80: later entries replace
    earlier ones, so the newest is first.  [range(0, l+1-idx)] is empty when [idx > l]. *)
Fixpoint cache_range (name : string) (b m idx : N) (n : nat) : list (N * (string * N)) :=
  match n with
  | O => []
  | S n' => (b + N.of_nat n' * m, (name, N.of_nat n' + idx)) :: cache_range name b m idx n'
  end.
Fixpoint cache_ranges (name : string) (idx : N) (l : list (N * N * N)) : list (N * (string * N)) :=
  match l with
  | [] => []
  | (b, m, lim) :: rs => cache_ranges name (idx + lim + 1) rs ++ cache_range name b m idx (N.to_nat (lim + 1 - idx))
  end.
Fixpoint cache (spec : list reg) : list (N * (string * N)) :=
  match spec with [] => [] | d :: ds => cache ds ++ cache_ranges (r_name d) 0 (r_addr d) end.

(** The search for addresses that are not in the cache, reg_util.py 91-103.
    [(l-idx)*m] is negative for [idx > l]: then nothing is between the bounds unless the
    length makes up for it, computed here in [Z]. *)
Fixpoint scan_ranges (len_bytes addr idx : N) (l : list (N * N * N)) : option N :=
  match l with
  | [] => None
  | (b, m, lim) :: rs =>
      if (b <=? addr) && (Z.of_N addr <? Z.of_N b + (Z.of_N lim - Z.of_N idx) * Z.of_N m + Z.of_N len_bytes)%Z
      then Some (if m =? 0 then 0 else (addr - b) / m + idx)
      else scan_ranges len_bytes addr (idx + lim + 1) rs
  end.
Fixpoint scan (spec : list reg) (addr : N) : option (string * N) :=
  match spec with
  | [] => None
  | d :: ds => match scan_ranges (r_len d / 8) addr 0 (r_addr d) with
               | Some i => Some (r_name d, i)
               | None => scan ds addr
               end
  end.
(** find_reg_from_addr, reg_util.py 73-105, for a concrete address. *)
Definition find_reg_from_addr (spec : list reg) (addr : N) : res (string * N) :=
  match find (fun e => fst e =? addr) (cache spec) with
  | Some e => Ok (snd e)
  | None => match scan spec addr with Some r => Ok r | None => Err end
  end.

(** ** Checking a write *)

(** find_fields_on_write, reg_util.py 166-180: the fields not obviously unchanged, with
    their old and new values.  [is_true] is claripy's test. *)
Section Fields.
Variable is_true : bexp -> bool.
Fixpoint find_fields (prev new : bv) (fs : list field) : res (list (field * bv * bv)) :=
  match fs with
  | [] => Ok []
  | f :: fs =>
      do p <- slice prev (f_end f) (f_start f) ;
      do n <- slice new (f_end f) (f_start f) ;
      do rest <- find_fields prev new fs ;
      Ok (if is_true (BEq p n) then rest else (f, p, n) :: rest)
  end.
Definition find_fields_on_write (prev new : bv) (d : reg) := find_fields prev new (r_fields d).
End Fields.

(** check_access_write, reg_util.py 182-200.  The loop returns at the first field that
    ignores writes. *)
Fixpoint check_fields (fields : list (field * bv * bv)) : res (list (field * bv * bv)) :=
  match fields with
  | [] => Ok []
  | (f, p, n) :: rest =>
      match f_acc f with
      | IW => Ok ((f, p, p) :: rest)
      | NA | RO => Err
      | _ => do rest <- check_fields rest ; Ok ((f, p, n) :: rest)
      end
  end.
Definition check_access_write (d : reg) (fields : list (field * bv * bv)) : res (list (field * bv * bv)) :=
  match fields, r_acc d with
  | [], RO => Err
  | _, _ => check_fields fields
  end.

(** ** Actions *)

(** Conditions on registers: the nodes generateConstraints accepts, ast_util.py 108-140. *)
Inductive cond :=
| CReg (rg f : string)
| CNot (c : cond)
| CAnd (a b : cond)
| COr (a b : cond).
(** The actions of spec_act.py: writing a value that passes a test, setting, clearing. *)
Inductive act :=
| AWrite (rg f : string) (valid : bv -> res bexp)
| ASet (rg f : string)
| AClear (rg f : string).
(** What a postcondition does, ast_util.py applyAST 77-105. *)
Inductive effect :=
| ESet (rg f : string)
| EClear (rg f : string)
| EAnd (a b : effect).
Record action := mkAct { a_name : string; a_pre : option cond; a_act : act; a_post : option effect }.

(** The parts of SpecDevice (device.py 15) that writes use, and the next fresh symbol. *)
Record device := mkDev { d_regs : rdict; d_pci : rdict; d_next : N; d_init : bool;
  d_counter : N; d_latest : option string; d_log : list (string * N) }.

Section Actions.
Variable s : solver.
Variable is_true : bexp -> bool.
Variables registers pci_regs : list reg.
Variable actions : list action.

(** Registers are looked for in the device's own table, then in the PCI one
    (ast_util.py 92-95, 116-124). *)
Definition fetch_named (dv : device) (rg : string) (index : N) : res (reg * bv * device) :=
  match find_reg registers rg with
  | Some d =>
      do r <- fetch_reg (d_regs dv) (d_next dv) d index (d_init dv) ;
      match r with
      | (v, m, x) => Ok (d, v, mkDev m (d_pci dv) x (d_init dv) (d_counter dv) (d_latest dv) (d_log dv))
      end
  | None =>
      match find_reg pci_regs rg with
      | Some d =>
          do r <- fetch_reg (d_pci dv) (d_next dv) d index (d_init dv) ;
          match r with
          | (v, m, x) => Ok (d, v, mkDev (d_regs dv) m x (d_init dv) (d_counter dv) (d_latest dv) (d_log dv))
          end
      | None => Err
      end
  end.

(** [~e] on a bit vector: all ones minus it. *)
Definition bvnot (e : bv) : bv := BvXor e (BVV (width e) (2 ^ width e - 1)).

(** generateConstraints, ast_util.py 108-140.  [And] and [Or] nodes have two children in
    every table and are binary here; the initial [BVV(1,1)] and [BVV(0,1)] are kept. *)
Fixpoint generate (dv : device) (index : N) (c : cond) : res (bv * device) :=
  match c with
  | CReg rg f =>
      do r <- fetch_named dv rg index ;
      match r with
      | (d, v, dv) =>
          match find_field d f with
          | Some fd => do e <- slice v (f_end fd) (f_start fd) ; Ok (e, dv)
          | None => Err
          end
      end
  | CNot c => do r <- generate dv index c ; Ok (bvnot (fst r), snd r)
  | CAnd a b =>
      do x <- generate dv index a ;
      do y <- generate (snd x) index b ;
      Ok (BvAnd (BvAnd (BVV 1 1) (fst x)) (fst y), snd y)
  | COr a b =>
      do x <- generate dv index a ;
      do y <- generate (snd x) index b ;
      Ok (BvOr (BvOr (BVV 1 0) (fst x)) (fst y), snd y)
  end.

(** Does the action match writing [new] to this field?  reg_util.py 270-277,
    isWriteFieldCorrect (ast_util.py 45-62), isFieldSetOrCleared (ast_util.py 64-75). *)
Definition action_matches (cs : list bexp) (d : reg) (f : field) (new : bv) (a : act) : res bool :=
  if negb (f_end f =? f_start f) then
    match a with
    | AWrite rg fl valid =>
        if String.eqb rg (r_name d) && String.eqb fl (f_name f) then
          do e <- valid new ;
          do b <- get_if_constant_b s cs e ;
          match b with Some b => Ok b | None => Err end
        else Ok false
    | _ => Ok false
    end
  else match a with
  | ASet rg fl => Ok (String.eqb rg (r_name d) && String.eqb fl (f_name f) &&
                      definitely_true s cs (BEq new (BVV (width new) (2 ^ width new - 1))))
  | AClear rg fl => Ok (String.eqb rg (r_name d) && String.eqb fl (f_name f) &&
                        definitely_true s cs (BEq new (BVV (width new) 0)))
  | _ => Ok false
  end.

Definition with_init (dv : device) : device :=
  mkDev (d_regs dv) (d_pci dv) (d_next dv) true (d_counter dv) (d_latest dv) (d_log dv).
Definition with_action (dv : device) (name : string) : device :=
  mkDev (d_regs dv) (d_pci dv) (d_next dv) (d_init dv) (d_counter dv) (Some name) ((name, d_counter dv) :: d_log dv).

(** One field against the actions, in order: reg_util.py 266-300.  The precondition is a
    one-bit value; the code hands it to the solver as a condition. *)
Fixpoint verify_field (cs : list bexp) (d : reg) (index : N) (f : field) (new : bv)
    (acts : list action) (dv : device) (valid : bool) : res (bool * device) :=
  match acts with
  | [] => Ok (valid, dv)
  | a :: acts =>
      do m <- action_matches cs d f new (a_act a) ;
      if negb m then verify_field cs d index f new acts dv valid
      else
        do pr <- (match a_pre a with
                  | None => Ok (true, dv)
                  | Some c => do r <- generate dv index c ;
                              Ok (definitely_true s cs (BEq (fst r) (BVV 1 1)), snd r)
                  end) ;
        if negb (fst pr) then verify_field cs d index f new acts (snd pr) valid
        else
          let dv := if String.eqb (a_name a) "Initiate Software Reset" then with_init (snd pr) else snd pr in
          verify_field cs d index f new acts (with_action dv (a_name a)) true
  end.

(** verify_write, reg_util.py 242-308.  The per-register cache only leaves out actions on
    other registers, which cannot match. *)
Fixpoint verify_fields (cs : list bexp) (d : reg) (index : N) (fields : list (field * bv * bv)) (dv : device) : res device :=
  match fields with
  | [] => Ok dv
  | (f, prev, new) :: rest =>
      do r <- verify_field cs d index f new actions dv (access_eqb (f_acc f) IW) ;
      if fst r then verify_fields cs d index rest (snd r) else Err
  end.
Definition verify_write (cs : list bexp) (d : reg) (index : N) (fields : list (field * bv * bv)) (dv : device) : res device :=
  do dv' <- verify_fields cs d index fields dv ;
  Ok (mkDev (d_regs dv') (d_pci dv') (d_next dv') (d_init dv') (d_counter dv + 1) (d_latest dv') (d_log dv')).

(** applyAST and the call to change_reg_field, ast_util.py 77-105. *)
Definition change_named (dv : device) (rg f : string) (index new : N) : res device :=
  match find_reg registers rg with
  | Some d =>
      match find_field d f with
      | Some fd =>
          do r <- change_reg_field (d_regs dv) (d_next dv) d fd index (d_init dv) new ;
          Ok (mkDev (fst r) (d_pci dv) (snd r) (d_init dv) (d_counter dv) (d_latest dv) (d_log dv))
      | None => Err
      end
  | None =>
      match find_reg pci_regs rg with
      | Some d =>
          match find_field d f with
          | Some fd =>
              do r <- change_reg_field (d_pci dv) (d_next dv) d fd index (d_init dv) new ;
              Ok (mkDev (d_regs dv) (fst r) (snd r) (d_init dv) (d_counter dv) (d_latest dv) (d_log dv))
          | None => Err
          end
      | None => Err
      end
  end.
Fixpoint apply (dv : device) (index : N) (e : effect) : res device :=
  match e with
  | ESet rg f => change_named dv rg f index 1
  | EClear rg f => change_named dv rg f index 0
  | EAnd a b => do dv <- apply dv index a ; apply dv index b
  end.

(** device_writer, device.py 60-81, without the special treatment of TDT, which reads
    program memory. *)
Definition device_write (cs : list bexp) (dv : device) (addr : N) (value : bv) : res device :=
  do ri <- find_reg_from_addr registers addr ;
  match find_reg registers (fst ri) with
  | None => Err
  | Some d =>
      let index := snd ri in
      do o <- fetch_reg (d_regs dv) (d_next dv) d index (d_init dv) ;
      match o with
      | (old, m, x) =>
          let dv := mkDev m (d_pci dv) x (d_init dv) (d_counter dv) (d_latest dv) (d_log dv) in
          do fields <- find_fields_on_write is_true old value d ;
          do fields <- check_access_write d fields ;
          do dv <- verify_write cs d index fields dv ;
          let dv := mkDev (update_reg (d_regs dv) d index value) (d_pci dv) (d_next dv) (d_init dv) (d_counter dv) (d_latest dv) (d_log dv) in
          match d_latest dv with
          | None => Ok dv
          | Some name =>
              match find (fun a => String.eqb (a_name a) name) actions with
              | None => Err
              | Some a =>
                  do dv <- (match a_post a with None => Ok dv | Some e => apply dv index e end) ;
                  Ok (mkDev (d_regs dv) (d_pci dv) (d_next dv) (d_init dv) (d_counter dv) None (d_log dv))
              end
          end
      end
  end.
(** device_reader, device.py 49-58 (an access of four bytes). *)
Definition device_read (dv : device) (addr : N) : res (bv * device) :=
  do ri <- find_reg_from_addr registers addr ;
  match find_reg registers (fst ri) with
  | None => Err
  | Some d =>
      do o <- fetch_reg (d_regs dv) (d_next dv) d (snd ri) (d_init dv) ;
      match o with
      | (v, m, x) => Ok (v, mkDev m (d_pci dv) x (d_init dv) (d_counter dv) (d_latest dv) (d_log dv))
      end
  end.
End Actions.
