(** * The packet a network function is given, its transmissions, and what a specification
      sees of both

    Models tool/klint/externals/net/packet.py and tx.py, the parts of
    tool/klint/verif/spec_prefix.py about devices (235-256) and packets (309-330, 389-409),
    and the transmit functions of env/src/net/tinynf/main.c (19-60) and
    env/src/net/dpdk/main.c (69-109, 148-166). *)

From Coq Require Import NArith List Bool Lia Arith.
From Verif Require Import Expr Solver GhostFacts Heap Misc IndexPool Firewall Bridge.
Import ListNotations.
Open Scope N_scope.

(** ** The state

    tx.py 8 and packet.py 11. *)
Record txm := mkTx { t_data : bv; t_len : bv; t_flags : bv; t_flood : bool; t_dev : bv; t_excluded : option bv }.
Record net := mkNet { n_addr : bv; n_dev : bv; n_len : bv; n_tx : list txm }.
(** The parts used here: constraints, symbols and the clock; the one element of the
    allocation of the packet structure; the packet's bytes and what they were at first; the
    metadata (a dict with the one key None). *)
Record pst := mkP { p_k : kst; p_elem : bv; p_data : N -> bv; p_orig : N -> bv; p_net : option net }.

(** packet.py 7-8 *)
Definition PACKET_MIN : N := 60.
Definition PACKET_MTU : N := 1514.
(** Sizes of pointers, size_t, uint64_t and uint16_t on x86-64, in bytes. *)
Definition PKT_SIZE : N := 8 + 8 + 8 + 2.

(** packet.py 14-21: a load of [size] bytes at [off] bytes from the structure's one element
    (heap.py 115-143 with the architecture's own byte order; [pkt_load_heap] below). *)
Definition pkt_load (e : bv) (off size : N) : bv := BvExtract (off * 8 + size * 8 - 1) (off * 8) e.
Definition get_data_addr (e : bv) : bv := pkt_load e 0 8.
Definition get_length (e : bv) : bv := pkt_load e 8 8.
Definition get_time (e : bv) : bv := pkt_load e (8 + 8) 8.
Definition get_device (e : bv) : bv := pkt_load e (8 + 8 + 8) 2.

(** heap.py 47-50 for a block of [bytes] bytes. The symbols and constraints of the arrays
    behind the block are left out (C28); so are the fractions (C32). *)
Definition block_adds (addr : bv) (bytes : N) : list bexp :=
  [BNe addr (BVV 64 0); BUle addr (BVV 64 (2 ^ 64 - 1 - bytes - 1))].

(** packet.py 23-41. Reading byte [i] of the packet gives a symbol of its own. *)
Definition alloc (freq : N) (k : kst) (devices_count : bv) : res (pst * bv) :=
  let n := knext k in
  let packet_addr := BVS 64 n in
  let packet_length := BVS 64 (n + 1) in
  let data_addr := BVS 64 (n + 2) in
  let packet_device := BVS 16 (n + 3) in
  let cs := block_adds packet_addr PKT_SIZE
            ++ [BUle (BVV 64 PACKET_MIN) packet_length; BUle packet_length (BVV 64 PACKET_MTU)]
            ++ block_adds data_addr PACKET_MTU
            ++ [BUlt packet_device devices_count] in
  do (k', t) <- get_time_and_cycles freq (mkK (cs ++ kcs k) (n + 4) (ktime k));
  let packet_data := BvConcat (BvConcat (BvConcat packet_device (fst t)) packet_length) data_addr in
  let bytes := fun i => BVS 8 (knext k' + i) in
  Ok (mkP (mkK (kcs k') (knext k' + PACKET_MTU) (ktime k')) packet_data bytes bytes
        (Some (mkNet data_addr packet_device packet_length [])), packet_addr).

(** ** What a network function does with it

    Stores to the length field and to the packet's bytes, calls of tx.py 11-48, new path
    constraints. Stores to the other fields of the structure are left out. [AExcept] has the
    pointer and what it points to. *)
Inductive act :=
| ASetLen (v : bv)
| AData (d : N -> bv)
| ATransmit (device flags : bv)
| AFlood (flags : bv)
| AExcept (ptr : bv) (disabled : N -> bexp) (flags : bv)
| AAssume (cs : list bexp).

(** A store of 8 bytes at byte 8 (heap.py 146-190; [set_len_heap] below). *)
Definition set_len (e v : bv) : bv := BvConcat (BvConcat (BvExtract 207 128 e) v) (BvExtract 63 0 e).
(** metadata.py 37-41 and the append to the list. *)
Definition transmitted (st : pst) (t : txm) : res pst :=
  match p_net st with
  | None => Err
  | Some m => Ok (mkP (p_k st) (p_elem st) (p_data st) (p_orig st) (Some (mkNet (n_addr m) (n_dev m) (n_len m) (n_tx m ++ [t]))))
  end.
Definition step (st : pst) (a : act) : res pst :=
  match a with
  | ASetLen v => Ok (mkP (p_k st) (set_len (p_elem st) v) (p_data st) (p_orig st) (p_net st))
  | AData d => Ok (mkP (p_k st) (p_elem st) d (p_orig st) (p_net st))
  | ATransmit device flags =>
      transmitted st (mkTx (get_data_addr (p_elem st)) (get_length (p_elem st)) flags false device None)
  | AFlood flags =>
      transmitted st (mkTx (get_data_addr (p_elem st)) (get_length (p_elem st)) flags true (get_device (p_elem st)) None)
  | AExcept ptr _ flags =>
      transmitted st (mkTx (get_data_addr (p_elem st)) (get_length (p_elem st)) flags true (get_device (p_elem st)) (Some ptr))
  | AAssume cs => Ok (mkP (mkK (cs ++ kcs (p_k st)) (knext (p_k st)) (ktime (p_k st))) (p_elem st) (p_data st) (p_orig st) (p_net st))
  end.
Fixpoint steps (st : pst) (l : list act) : res pst :=
  match l with [] => Ok st | a :: l => do st' <- step st a; steps st' l end.

(** ** What a specification sees *)

(** spec_prefix.py 235-256 *)
Inductive devices := Flooded (orig_device devices_count : bv) | Single (device : bv).
Definition contains (ds : devices) (item : bv) : bexp :=
  match ds with Flooded orig _ => BNe item orig | Single d => BEq item d end.
Definition devices_length (ds : devices) : bv :=
  match ds with Flooded _ count => BvSub count (BVV (width count) 1) | Single _ => BVV 16 1 end.
(** spec_prefix.py 309-330 *)
Record spkt := mkSp { s_data : N -> bv; s_len : bv; s_time : option bv; s_devs : devices }.
(** spec_prefix.py 389-409 with persistence.py 25-40. The map of the transmitted address is
    the packet's own: the pointer in the structure is not written to. *)
Definition spec_view (st : pst) (devices_count : bv) : res (spkt * option spkt) :=
  match p_net st with
  | None => Err
  | Some m =>
      let received := mkSp (p_orig st) (n_len m) (option_map fst (ktime (p_k st))) (Single (n_dev m)) in
      match n_tx m with
      | [] => Ok (received, None)
      | [t] =>
          let ds := if t_flood t then Flooded (t_dev t) devices_count else Single (t_dev t) in
          Ok (received, Some (mkSp (p_data st) (t_len t) None ds))
      | _ => Err
      end
  end.

(** ** The drivers *)

(** The same actions on numbers. *)
Inductive cact :=
| CSetLen (v : N)
| CData (d : N -> N)
| CTransmit (device flags : N)
| CFlood (flags : N)
| CExcept (disabled : N -> bool) (flags : N).
Definition conc (r : env) (a : act) : list cact :=
  match a with
  | ASetLen v => [CSetLen (ev r v)]
  | AData d => [CData (fun i => ev r (d i))]
  | ATransmit d f => [CTransmit (ev r d) (ev r f)]
  | AFlood f => [CFlood (ev r f)]
  | AExcept _ dis f => [CExcept (fun i => eb r (dis i)) (ev r f)]
  | AAssume _ => []
  end.
Definition conc_all (r : env) (l : list act) : list cact := flat_map (conc r) l.

(** tinynf/main.c 19-26 and dpdk/main.c 69-78: [macs d i] is byte [i] of the addresses
    written for device [d]. *)
Definition handle_flags (macs : N -> N -> N) (device flags : N) (data : N -> N) : N -> N :=
  if N.testbit flags 0 then fun i => if i <? 12 then macs device i else data i else data.

Section Drivers.
Variable macs : N -> N -> N.
Variable n : nat.       (* devices_count *)
Variable ingress : N.

(** tinynf/main.c 28-60: the length field, the bytes, the output lengths. [None]: a write
    outside the array of output lengths. *)
Record tnst := mkTn { tn_len : N; tn_data : N -> N; tn_out : list N }.
Definition tn_all : list N := map (fun i => device_from_index ingress (N.of_nat i)) (seq 0 (n - 1)).
Definition tn_step (s : tnst) (a : cact) : option tnst :=
  match a with
  | CSetLen v => Some (mkTn v (tn_data s) (tn_out s))
  | CData d => Some (mkTn (tn_len s) d (tn_out s))
  | CTransmit d f =>
      match tn_transmit ingress d (tn_len s) (tn_out s) with
      | None => None
      | Some out => Some (mkTn (tn_len s) (handle_flags macs d f (tn_data s)) out)
      end
  | CFlood f => Some (mkTn (tn_len s) (fold_left (fun x d => handle_flags macs d f x) tn_all (tn_data s)) (tn_flood n (tn_len s)))
  | CExcept dis f =>
      Some (mkTn (tn_len s) (fold_left (fun x d => handle_flags macs d f x) tn_all (tn_data s)) (tn_flood_except n ingress dis (tn_len s)))
  end.
Fixpoint tn_steps (s : tnst) (l : list cact) : option tnst :=
  match l with [] => Some s | a :: l => match tn_step s a with Some s' => tn_steps s' l | None => None end end.
(** network.h's loop: after the handler, each output with a length gets the buffer. *)
Definition tn_wire (s : tnst) : list (N * N * (N -> N)) :=
  map (fun d => (d, nth (N.to_nat (index_from_device ingress d)) (tn_out s) 0, tn_data s)) (tn_sent ingress (tn_out s)).
Definition tn_handle (len : N) (data : N -> N) (l : list cact) : option (list (N * N * (N -> N))) :=
  option_map tn_wire (tn_steps (mkTn len data (repeat 0 (n - 1))) l).

(** dpdk/main.c 80-109, 148-166: the devices the buffer is queued for, in order. The
    length sent is the buffer's, not the structure's. [None]: a write outside the queues. *)
Record dpst := mkDp { dp_data : N -> N; dp_queue : list N }.
Definition dp_step (s : dpst) (a : cact) : option dpst :=
  match a with
  | CSetLen _ => Some s
  | CData d => Some (mkDp d (dp_queue s))
  | CTransmit d f => if d <? N.of_nat n then Some (mkDp (handle_flags macs d f (dp_data s)) (dp_queue s ++ [d])) else None
  | CFlood f =>
      let l := Bridge.net_flood n ingress in
      Some (mkDp (fold_left (fun x d => handle_flags macs d f x) l (dp_data s)) (dp_queue s ++ l))
  | CExcept dis f =>
      let l := Bridge.net_flood_except n ingress dis in
      Some (mkDp (fold_left (fun x d => handle_flags macs d f x) l (dp_data s)) (dp_queue s ++ l))
  end.
Fixpoint dp_steps (s : dpst) (l : list cact) : option dpst :=
  match l with [] => Some s | a :: l => match dp_step s a with Some s' => dp_steps s' l | None => None end end.
Definition dp_handle (len : N) (data : N -> N) (l : list cact) : option (list (N * N * (N -> N))) :=
  option_map (fun s => map (fun d => (d, len, dp_data s)) (dp_queue s)) (dp_steps (mkDp data []) l).
End Drivers.

(** ** The structure in memory *)

Definition pkt_obj (v : N) : hobj :=
  mkH (PKT_SIZE * 8) (fun i => if i =? 0 then (v, true) else (0, false)) (Some (fun i => if i =? 0 then (100, true) else (0, false))).

Lemma pkt_load_heap : forall r e off size, width e = PKT_SIZE * 8 -> 0 < size -> off + size <= PKT_SIZE ->
  hread 64 (pkt_obj (ev r e)) 0 (off * 8) size false = Ok (ev r (pkt_load e off size)).
Proof.
  intros r e off size W P B. unfold hread. destruct (N.eqb_spec size 0) as [->|_]; [lia|].
  cbn [read_loop]. destruct (N.leb_spec (size * 8 + off * 8) 0); [lia|].
  replace (can_read (pkt_obj (ev r e)) 0) with true by reflexivity.
  destruct (N.to_nat (size * 8 + off * 8)) eqn:Q; [lia|]. cbn [read_loop].
  replace (hes (pkt_obj (ev r e))) with (PKT_SIZE * 8) by reflexivity.
  destruct (N.leb_spec (size * 8 + off * 8) (0 + PKT_SIZE * 8)); [|lia].
  cbn [bindr]. f_equal. replace (cat 0 0 (fst (hel (pkt_obj (ev r e)) 0))) with (ev r e).
  2:{ unfold cat. cbn [pkt_obj hel N.eqb fst]. rewrite N.shiftl_0_r. destruct (ev r e); reflexivity. }
  unfold pkt_load. cbn [evalv]. unfold low, wrap. rewrite N.shiftr_div_pow2.
  replace (off * 8 + size * 8 - 1 + 1 - off * 8) with (size * 8) by lia. reflexivity.
Qed.

Lemma slice_low : forall x y w lo k, lo + k <= w -> (x * 2 ^ w + y) / 2 ^ lo mod 2 ^ k = y / 2 ^ lo mod 2 ^ k.
Proof.
  intros x y w lo k H. replace (2 ^ w) with (2 ^ k * 2 ^ (w - lo - k) * 2 ^ lo) by (rewrite <- !N.pow_add_r; f_equal; lia).
  replace (x * (2 ^ k * 2 ^ (w - lo - k) * 2 ^ lo) + y) with (y + x * 2 ^ (w - lo - k) * 2 ^ k * 2 ^ lo) by lia.
  rewrite N.div_add by apply pow2_ne. apply N.mod_add. apply pow2_ne.
Qed.
Lemma slice_high : forall x y w lo k, y < 2 ^ w -> w <= lo -> (x * 2 ^ w + y) / 2 ^ lo mod 2 ^ k = x / 2 ^ (lo - w) mod 2 ^ k.
Proof.
  intros x y w lo k Hy H. replace (2 ^ lo) with (2 ^ w * 2 ^ (lo - w)) by (rewrite <- N.pow_add_r; f_equal; lia).
  rewrite <- N.div_div by apply pow2_ne. f_equal. f_equal. rewrite N.add_comm, N.div_add by apply pow2_ne.
  rewrite N.div_small by exact Hy. reflexivity.
Qed.
Lemma cat_add : forall l lw h, l < 2 ^ lw -> cat l lw h = h * 2 ^ lw + l.
Proof.
  intros l lw h H. apply N.bits_inj. intros b. rewrite cat_bits by exact H.
  destruct (N.ltb_spec b lw).
  - rewrite <- (N.mod_pow2_bits_low (h * 2 ^ lw + l) lw b) by lia. rewrite N.add_comm, N.mod_add by apply pow2_ne.
    rewrite N.mod_small by exact H. reflexivity.
  - replace b with ((b - lw) + lw) at 2 by lia. rewrite <- N.div_pow2_bits. rewrite N.add_comm, N.div_add by apply pow2_ne.
    rewrite N.div_small by exact H. reflexivity.
Qed.

Lemma set_len_heap : forall r e v, width e = PKT_SIZE * 8 -> width v = 64 ->
  exists o, hwrite 64 (pkt_obj (ev r e)) 0 64 (ev r v) 64 false = Ok o /\ hel o 0 = (ev r (set_len e v), true) /\ hfr o = hfr (pkt_obj (ev r e)).
Proof.
  intros r e v We Wv. unfold hwrite. change (S (N.to_nat 64)) with (S (S 63)). generalize 63%nat as fuel. intros fuel. cbn [write_loop].
  replace (can_write (pkt_obj (ev r e)) 0) with true by reflexivity.
  replace (hes (pkt_obj (ev r e))) with 208 by reflexivity.
  change (64 =? 0) with false. cbv iota. change (negb true) with false. cbv iota. change ((208 =? 0) || (208 <=? 64)) with false. cbv iota.
  change (chunk_size 208 64 64) with 64. cbn [bindr]. rewrite N.sub_diag. cbn [write_loop N.eqb].
  eexists. split; [reflexivity|]. split; [|reflexivity]. unfold hset. cbn [hel N.eqb]. f_equal. cbn [fst pkt_obj hel N.eqb].
  assert (Le : ev r e < 2 ^ 208) by (pose proof (evalv_lt lk0 r e) as L; rewrite We in L; exact L).
  assert (Lv : ev r v < 2 ^ 64) by (pose proof (evalv_lt lk0 r v) as L; rewrite Wv in L; exact L).
  unfold fill. change (64 =? 208) with false. change (64 =? 0) with false. change (64 + 64 =? 208) with false. cbv iota. change (64 + 64) with 128.
  unfold set_len. cbn [evalv width]. change (207 + 1 - 128) with 80. change (63 + 1 - 0) with 64. rewrite Wv.
  unfold low. rewrite (N.mod_small (ev r v)) by exact Lv.
  assert (L0 : ev r e mod 2 ^ 64 < 2 ^ 64) by (apply N.mod_upper_bound, pow2_ne).
  rewrite (cat_add (ev r e mod 2 ^ 64)) by exact L0. rewrite cat_add.
  2:{ change (2 ^ 128) with (2 ^ 64 * 2 ^ 64). nia. }
  rewrite N.shiftr_div_pow2. unfold wrap. rewrite N.pow_0_r, N.div_1_r. rewrite (N.mod_small (ev r e / 2 ^ 128)).
  2:{ apply N.div_lt_upper_bound; [apply pow2_ne|]. exact Le. }
  change (2 ^ 128) with (2 ^ 64 * 2 ^ 64). lia.
Qed.

(** The fields of the structure under an assignment. *)
Definition fields (r : env) (e : bv) : N * N * N * N := (ev r (get_data_addr e), ev r (get_length e), ev r (get_time e), ev r (get_device e)).

Lemma fields_at : forall r e x y z u, ev r e = ((x * 2 ^ 64 + y) * 2 ^ 64 + z) * 2 ^ 64 + u ->
  x < 2 ^ 16 -> y < 2 ^ 64 -> z < 2 ^ 64 -> u < 2 ^ 64 -> fields r e = (u, z, y, x).
Proof.
  intros r e x y z u E Hx Hy Hz Hu. unfold fields, get_data_addr, get_length, get_time, get_device, pkt_load. cbn [evalv]. unfold wrap. rewrite E.
  f_equal; [f_equal; [f_equal|]|].
  - change (0 * 8 + 8 * 8 - 1 + 1 - 0 * 8) with 64. change (0 * 8) with 0. rewrite slice_low by lia. rewrite N.pow_0_r, N.div_1_r. apply N.mod_small. exact Hu.
  - change (8 * 8 + 8 * 8 - 1 + 1 - 8 * 8) with 64. change (8 * 8) with 64. rewrite slice_high by (assumption || lia). rewrite slice_low by lia.
    rewrite N.sub_diag, N.pow_0_r, N.div_1_r. apply N.mod_small. exact Hz.
  - change ((8 + 8) * 8 + 8 * 8 - 1 + 1 - (8 + 8) * 8) with 64. change ((8 + 8) * 8) with 128. rewrite slice_high by (assumption || lia).
    rewrite slice_high by (assumption || lia). rewrite slice_low by lia. change (128 - 64 - 64) with 0. rewrite N.pow_0_r, N.div_1_r. apply N.mod_small. exact Hy.
  - change ((8 + 8 + 8) * 8 + 2 * 8 - 1 + 1 - (8 + 8 + 8) * 8) with 16. change ((8 + 8 + 8) * 8) with 192. rewrite slice_high by (assumption || lia).
    rewrite slice_high by (assumption || lia). rewrite slice_high by (assumption || lia). change (192 - 64 - 64 - 64) with 0. rewrite N.pow_0_r, N.div_1_r. apply N.mod_small. exact Hx.
Qed.

Lemma fields_split : forall r e a l t d, width e = PKT_SIZE * 8 -> fields r e = (a, l, t, d) ->
  ev r e = ((d * 2 ^ 64 + t) * 2 ^ 64 + l) * 2 ^ 64 + a /\ d < 2 ^ 16 /\ t < 2 ^ 64 /\ l < 2 ^ 64 /\ a < 2 ^ 64.
Proof.
  intros r e a l t d W F. unfold fields, get_data_addr, get_length, get_time, get_device, pkt_load in F. cbn [evalv] in F. unfold wrap in F.
  change (0 * 8 + 8 * 8 - 1 + 1 - 0 * 8) with 64 in F. change (0 * 8) with 0 in F. change (8 * 8 + 8 * 8 - 1 + 1 - 8 * 8) with 64 in F.
  change (8 * 8) with 64 in F. change ((8 + 8) * 8 + 64 - 1 + 1 - (8 + 8) * 8) with 64 in F. change ((8 + 8) * 8) with (64 + 64) in F.
  change ((8 + 8 + 8) * 8 + 2 * 8 - 1 + 1 - (8 + 8 + 8) * 8) with 16 in F. change ((8 + 8 + 8) * 8) with (64 + (64 + 64)) in F.
  rewrite !N.pow_add_r in F. rewrite <- !N.div_div in F by (apply pow2_ne || (apply N.neq_mul_0; split; apply pow2_ne)). rewrite N.pow_0_r, N.div_1_r in F.
  assert (Le : ev r e < 2 ^ 208) by (pose proof (evalv_lt lk0 r e) as L; rewrite W in L; exact L).
  set (v := ev r e) in *. injection F as <- <- <- <-.
  assert (L3 : v / 2 ^ 64 / 2 ^ 64 / 2 ^ 64 < 2 ^ 16).
  { rewrite !N.div_div by (apply pow2_ne || (apply N.neq_mul_0; split; apply pow2_ne)). apply N.div_lt_upper_bound.
    - apply N.neq_mul_0; split; [apply pow2_ne|apply N.neq_mul_0; split; apply pow2_ne].
    - exact Le. }
  rewrite (N.mod_small (v / 2 ^ 64 / 2 ^ 64 / 2 ^ 64)) by exact L3.
  pose proof (N.div_mod v (2 ^ 64) (pow2_ne _)). pose proof (N.div_mod (v / 2 ^ 64) (2 ^ 64) (pow2_ne _)).
  pose proof (N.div_mod (v / 2 ^ 64 / 2 ^ 64) (2 ^ 64) (pow2_ne _)).
  repeat split; try (apply N.mod_upper_bound, pow2_ne); try exact L3. lia.
Qed.

Lemma set_len_fields : forall r e v a l t d, width e = PKT_SIZE * 8 -> width v = 64 -> fields r e = (a, l, t, d) ->
  fields r (set_len e v) = (a, ev r v, t, d) /\ width (set_len e v) = PKT_SIZE * 8.
Proof.
  intros r e v a l t d W Wv F. destruct (fields_split _ _ _ _ _ _ W F) as (E & Hd & Ht & Hl & Ha).
  assert (Lv : ev r v < 2 ^ 64) by (pose proof (evalv_lt lk0 r v) as L; rewrite Wv in L; exact L).
  split.
  - apply fields_at; auto. unfold set_len. cbn [evalv width]. rewrite Wv. unfold wrap. change (207 + 1 - 128) with 80. change (63 + 1 - 0) with 64.
    rewrite N.pow_0_r, N.div_1_r, E.
    assert (Q1 : (((d * 2 ^ 64 + t) * 2 ^ 64 + l) * 2 ^ 64 + a) mod 2 ^ 64 = a).
    { rewrite N.add_comm, N.mod_add by apply pow2_ne. apply N.mod_small. exact Ha. }
    assert (Q2 : (((d * 2 ^ 64 + t) * 2 ^ 64 + l) * 2 ^ 64 + a) / 2 ^ 128 mod 2 ^ 80 = d * 2 ^ 64 + t).
    { rewrite slice_high by (assumption || lia). rewrite slice_high by (assumption || lia). change (128 - 64 - 64) with 0.
      rewrite N.pow_0_r, N.div_1_r. apply N.mod_small. change (2 ^ 80) with (2 ^ 16 * 2 ^ 64). nia. }
    rewrite Q1, Q2. reflexivity.
  - unfold set_len. cbn [width]. rewrite Wv. reflexivity.
Qed.

(** ** The packet given *)

Definition clock_value (f c : N) : N := (match f with 0 => 2 ^ 64 - 1 | _ => c / f end * 10) mod 2 ^ 64.

Lemma clock_value_ev : forall r freq c, ev r (BvMul (BvUdiv (BVS 64 c) (freq_num freq)) freq_denom)
  = clock_value (ebv r freq mod 2 ^ 8) (ebv r c mod 2 ^ 64).
Proof.
  intros r freq c. unfold clock_value, freq_num, freq_denom. cbn [evalv width]. unfold wrap. rewrite (N.mod_small 10) by reflexivity.
  destruct (ebv r freq mod 2 ^ 8) as [|p] eqn:E; [reflexivity|].
  change (N.pos p =? 0) with false. cbv iota. rewrite (N.mod_small (_ / N.pos p)); [reflexivity|].
  eapply N.le_lt_trans; [|apply (N.mod_upper_bound (ebv r c) (2 ^ 64)); apply pow2_ne].
  apply N.div_le_upper_bound; [discriminate|]. set (x := ebv r c mod 2 ^ 64). nia.
Qed.

Lemma alloc_spec : forall freq k count st addr, alloc freq k count = Ok (st, addr) ->
  exists time cycles, ktime k = None /\ ktime (p_k st) = Some (time, cycles) /\ p_data st = p_orig st /\
  width (p_elem st) = PKT_SIZE * 8 /\
  exists m, p_net st = Some m /\ n_tx m = [] /\ width (n_len m) = 64 /\ width (n_dev m) = 16 /\
  forall r, holds r (kcs (p_k st)) ->
    holds r (kcs k) /\
    fields r (p_elem st) = (ev r (n_addr m), ev r (n_len m), ev r time, ev r (n_dev m)) /\
    60 <= ev r (n_len m) <= 1514 /\ ev r (n_dev m) < ev r count /\
    ev r time = clock_value (ebv r freq mod 2 ^ 8) (ev r cycles) /\ ev r time <> 2 ^ 64 - 1 /\
    (ev r addr <> 0 /\ ev r addr + PKT_SIZE < 2 ^ 64) /\ (ev r (n_addr m) <> 0 /\ ev r (n_addr m) + PACKET_MTU < 2 ^ 64).
Proof.
  intros freq k count st addr H. unfold alloc, get_time_and_cycles in H. cbn [ktime] in H.
  destruct (ktime k) eqn:K; cbn [bindr] in H; [discriminate|]. injection H as <- <-. cbn [p_k kcs ktime p_elem p_data p_orig p_net knext fst].
  do 2 eexists. split; [reflexivity|]. split; [reflexivity|]. split; [reflexivity|]. split; [reflexivity|].
  eexists. split; [reflexivity|]. cbn [n_tx n_len n_dev n_addr]. split; [reflexivity|]. split; [reflexivity|]. split; [reflexivity|].
  intros r HR. apply holds_cons in HR as [H1 HR]. apply holds_cons in HR as [H2 HR].
  apply holds_cons in HR as [A1 HR]. apply holds_cons in HR as [A2 HR]. apply holds_cons in HR as [L1 HR]. apply holds_cons in HR as [L2 HR].
  apply holds_cons in HR as [D1 HR]. apply holds_cons in HR as [D2 HR]. apply holds_cons in HR as [C1 HR].
  apply BNe_true in H1, A1, D1. apply BEq_true in H2. rewrite clock_value_ev in H2.
  cbn [evalb] in A2, L1, L2, D2, C1. apply N.leb_le in A2, L1, L2, D2. apply N.ltb_lt in C1.
  split; [exact HR|]. split.
  - apply fields_at; try (apply wrap_lt). reflexivity.
  - split; [split; [exact L1|exact L2]|]. split; [exact C1|]. split; [exact H2|]. split; [exact H1|]. 
    assert (W : forall x, x < 2 ^ 64 -> ev r (BVV 64 x) = x) by (intros x Hx; apply wrap_small; exact Hx).
    rewrite W in A1, D1, A2, D2 by reflexivity. unfold PKT_SIZE, PACKET_MTU.
    split; (split; [assumption|lia]).
Qed.

(** Every packet is there: any allowed addresses, length, device, cycle count and bytes. *)
Definition pkt_env (r0 : env) (k : kst) (addr len data dev cycles : N) (time : N) (bytes : N -> N) : env :=
  mkEnv (fun x => if x <? knext k then ebv r0 x
                  else if x =? knext k then addr else if x =? knext k + 1 then len else if x =? knext k + 2 then data
                  else if x =? knext k + 3 then dev else if x =? knext k + 4 then time else if x =? knext k + 5 then cycles
                  else bytes (x - (knext k + 6))) (ebool r0).

Lemma alloc_complete : forall freq k count r0 addr data len dev cycles bytes,
  ktime k = None -> freq < knext k -> Forall (depb (knext k)) (kcs k) -> dep (knext k) count -> holds r0 (kcs k) ->
  addr <> 0 -> addr + PKT_SIZE < 2 ^ 64 - 1 -> data <> 0 -> data + PACKET_MTU < 2 ^ 64 - 1 ->
  60 <= len <= 1514 -> dev < ev r0 count -> dev < 2 ^ 16 -> cycles < 2 ^ 64 -> (forall i, bytes i < 2 ^ 8) ->
  clock_value (ebv r0 freq mod 2 ^ 8) cycles <> 2 ^ 64 - 1 ->
  exists st a m time r, alloc freq k count = Ok (st, a) /\ p_net st = Some m /\ option_map fst (ktime (p_k st)) = Some time /\
    eqbelow (knext k) r0 r /\ holds r (kcs (p_k st)) /\
    ev r a = addr /\ ev r (n_addr m) = data /\ ev r (n_len m) = len /\ ev r (n_dev m) = dev /\
    ev r time = clock_value (ebv r0 freq mod 2 ^ 8) cycles /\ forall i, i < PACKET_MTU -> ev r (p_data st i) = bytes i.
Proof.
  intros freq k count r0 addr data len dev cycles bytes K F D C H A1 A2 B1 B2 L V V2 Y BY T.
  unfold alloc, get_time_and_cycles. cbn [ktime]. rewrite K. cbn [bindr knext].
  set (time := clock_value (ebv r0 freq mod 2 ^ 8) cycles) in *.
  assert (TL : time < 2 ^ 64) by (apply N.mod_upper_bound, pow2_ne).
  set (r := pkt_env r0 k addr len data dev cycles time bytes).
  assert (EB : eqbelow (knext k) r0 r).
  { intros x Hx. unfold r, pkt_env. cbn [ebv ebool]. rewrite (proj2 (N.ltb_lt _ _) Hx). split; reflexivity. }
  assert (S0 : ebv r (knext k) = addr).
  { unfold r, pkt_env. cbn [ebv]. rewrite N.ltb_irrefl, N.eqb_refl. reflexivity. }
  assert (SN : forall j, 0 < j -> ebv r (knext k + j) = if j =? 1 then len else if j =? 2 then data else if j =? 3 then dev else if j =? 4 then time else if j =? 5 then cycles else bytes (j - 6)).
  { intros j Hj. unfold r, pkt_env. cbn [ebv]. destruct (N.ltb_spec (knext k + j) (knext k)); [lia|].
    destruct (N.eqb_spec (knext k + j) (knext k)); [lia|].
    assert (Q : forall a, (knext k + j =? knext k + a) = (j =? a)).
    { intros a. destruct (N.eqb_spec (knext k + j) (knext k + a)), (N.eqb_spec j a); try reflexivity; lia. }
    rewrite !Q. replace (knext k + j - (knext k + 6)) with (j - 6) by lia. reflexivity. }
  do 4 eexists. exists r. split; [reflexivity|]. cbn [p_net p_k ktime kcs option_map fst p_data n_addr n_len n_dev].
  split; [reflexivity|]. split; [reflexivity|]. split; [exact EB|].
  assert (E0 : ev r (BVS 64 (knext k)) = addr) by (cbn [evalv]; rewrite S0; apply wrap_small; unfold PKT_SIZE in *; lia).
  assert (E1 : ev r (BVS 64 (knext k + 1)) = len) by (cbn [evalv]; rewrite SN by lia; apply wrap_small; cbn [N.eqb Pos.eqb]; lia).
  assert (E2 : ev r (BVS 64 (knext k + 2)) = data) by (cbn [evalv]; rewrite SN by lia; apply wrap_small; cbn [N.eqb Pos.eqb]; unfold PACKET_MTU in *; lia).
  assert (E3 : ev r (BVS 16 (knext k + 3)) = dev) by (cbn [evalv]; rewrite SN by lia; apply wrap_small; exact V2).
  assert (E4 : ev r (BVS 64 (knext k + 4)) = time) by (cbn [evalv]; rewrite SN by lia; apply wrap_small; exact TL).
  assert (E5 : ebv r (knext k + 5) = cycles) by (rewrite SN by lia; reflexivity).
  assert (EF : ebv r freq = ebv r0 freq) by (symmetry; apply EB; exact F).
  split; [|split; [exact E0|split; [exact E2|split; [exact E1|split; [exact E3|split; [exact E4|]]]]]].
  - replace (knext k + 4 + 1) with (knext k + 5) by lia.
    apply holds_cons; split; [|apply holds_cons; split].
    + apply BNe_true. rewrite E4. exact T.
    + apply BEq_true. rewrite E4, clock_value_ev, E5, EF. rewrite (N.mod_small cycles) by exact Y. reflexivity.
    + apply holds_app. split; [|eapply holds_dep; eauto].
      unfold block_adds. cbn [app].
      apply holds_cons; split; [apply BNe_true; rewrite E0; exact A1|].
      apply holds_cons; split; [cbn [evalb]; rewrite E0; apply N.leb_le; change (addr <= 2 ^ 64 - 1 - PKT_SIZE - 1); unfold PKT_SIZE in *; lia|].
      apply holds_cons; split; [cbn [evalb]; rewrite E1; apply N.leb_le; exact (proj1 L)|].
      apply holds_cons; split; [cbn [evalb]; rewrite E1; apply N.leb_le; exact (proj2 L)|].
      apply holds_cons; split; [apply BNe_true; rewrite E2; exact B1|].
      apply holds_cons; split; [cbn [evalb]; rewrite E2; apply N.leb_le; change (data <= 2 ^ 64 - 1 - PACKET_MTU - 1); unfold PACKET_MTU in *; lia|].
      apply holds_cons; split; [cbn [evalb]; rewrite E3; apply N.ltb_lt; rewrite <- (C r0 r EB); exact V|]. apply holds_nil.
  - intros i Hi. cbn [evalv]. replace (knext k + 4 + 2 + i) with (knext k + (6 + i)) by lia. rewrite SN by lia.
    destruct (N.eqb_spec (6 + i) 1); [lia|]. destruct (N.eqb_spec (6 + i) 2); [lia|]. destruct (N.eqb_spec (6 + i) 3); [lia|].
    destruct (N.eqb_spec (6 + i) 4); [lia|]. destruct (N.eqb_spec (6 + i) 5); [lia|]. replace (6 + i - 6) with i by lia. apply wrap_small. apply BY.
Qed.

(** ** What is seen of the received packet does not change *)
Lemma step_net : forall st a st', step st a = Ok st' ->
  p_orig st' = p_orig st /\ ktime (p_k st') = ktime (p_k st) /\
  (forall c, In c (kcs (p_k st)) -> In c (kcs (p_k st'))) /\
  forall m, p_net st = Some m -> exists t, p_net st' = Some (mkNet (n_addr m) (n_dev m) (n_len m) (n_tx m ++ t)).
Proof.
  intros st a st' H. destruct a; cbn [step] in H; unfold transmitted in H;
    try (destruct (p_net st) as [m0|] eqn:E; [|discriminate]);
    injection H as <-; cbn [p_orig p_k ktime kcs p_net]; (split; [reflexivity|split; [reflexivity|split; [intros; auto; try (apply in_or_app; right; auto)|]]]);
    intros m Hm.
  1, 2, 6: exists []; rewrite app_nil_r; rewrite Hm; destruct m; reflexivity.
  all: injection Hm as <-; eexists; reflexivity.
Qed.
Lemma steps_net : forall l st st', steps st l = Ok st' ->
  p_orig st' = p_orig st /\ ktime (p_k st') = ktime (p_k st) /\
  (forall c, In c (kcs (p_k st)) -> In c (kcs (p_k st'))) /\
  forall m, p_net st = Some m -> exists t, p_net st' = Some (mkNet (n_addr m) (n_dev m) (n_len m) (n_tx m ++ t)).
Proof.
  induction l as [|a l IH]; intros st st' H; cbn [steps] in H.
  - injection H as <-. split; [reflexivity|]. split; [reflexivity|]. split; [auto|]. intros m Hm. exists []. rewrite app_nil_r. destruct m; exact Hm.
  - apply bindr_ok in H as (st1 & H1 & H2). apply step_net in H1 as (A1 & A2 & A3 & A4). apply IH in H2 as (B1 & B2 & B3 & B4).
    split; [congruence|]. split; [congruence|]. split; [auto|]. intros m Hm. apply A4 in Hm as (t1 & Hm). apply B4 in Hm as (t2 & Hm).
    exists (t1 ++ t2). rewrite Hm. cbn [n_tx n_addr n_dev n_len]. rewrite app_assoc. reflexivity.
Qed.

Lemma received_kept : forall freq k count st addr l st' v tx, alloc freq k count = Ok (st, addr) -> steps st l = Ok st' ->
  spec_view st' count = Ok (v, tx) ->
  exists m, p_net st = Some m /\ s_data v = p_data st /\ s_len v = n_len m /\ s_devs v = Single (n_dev m) /\ s_time v = option_map fst (ktime (p_k st)) /\
  (forall r, holds r (kcs (p_k st')) -> holds r (kcs (p_k st))).
Proof.
  intros freq k count st addr l st' v tx A S V. destruct (alloc_spec _ _ _ _ _ A) as (time & cycles & _ & T & DO & _ & m & Hm & _).
  apply steps_net in S as (O & KT & CS & NT). destruct (NT m Hm) as (t & Hm'). exists m. split; [exact Hm|].
  unfold spec_view in V. rewrite Hm' in V. cbn [n_tx n_len n_dev] in V.
  assert (Q : v = mkSp (p_orig st') (n_len m) (option_map fst (ktime (p_k st'))) (Single (n_dev m))).
  { destruct (n_tx m ++ t) as [|t1 [|t2 l2]]; [injection V as <- _; reflexivity|injection V as <- _; reflexivity|discriminate]. }
  rewrite Q. cbn [s_data s_len s_devs s_time]. rewrite O, KT, DO. split; [reflexivity|]. split; [reflexivity|]. split; [reflexivity|]. split; [reflexivity|].
  intros r HR c Hc. apply HR. apply CS. exact Hc.
Qed.

(** ** The specification's view of transmissions against the drivers *)

Lemma handle_flags_none : forall macs d f x, N.testbit f 0 = false -> handle_flags macs d f x = x.
Proof. intros macs d f x H. unfold handle_flags. rewrite H. reflexivity. Qed.
Lemma handle_flags_all : forall macs f l x, N.testbit f 0 = false -> fold_left (fun x d => handle_flags macs d f x) l x = x.
Proof. intros macs f l. induction l as [|d l IH]; intros x H; [reflexivity|]. cbn [fold_left]. rewrite handle_flags_none by exact H. apply IH. exact H. Qed.

Lemma none_excepted : forall n ingress dis len, (forall d, d < N.of_nat n -> dis d = false) -> ingress < N.of_nat n ->
  tn_flood_except n ingress dis len = tn_flood n len.
Proof.
  intros n ingress dis len H Hi. unfold tn_flood_except, tn_flood.
  rewrite (map_ext_in _ (fun _ => len)).
  - assert (G : forall k s, map (fun _ : nat => len) (seq s k) = repeat len k).
    { induction k as [|k IH]; intros s; [reflexivity|]. cbn [seq map repeat]. f_equal. apply IH. }
    apply G.
  - intros i Hin. apply in_seq in Hin. rewrite H; [reflexivity|].
    apply (device_from_index_range n ingress _ Hi). exists i. split; [lia|reflexivity].
Qed.

Section View.
Variable r : env.
Variable macs : N -> N -> N.
Variable n : nat.
Variable ingress : N.
Hypothesis Hing : ingress < N.of_nat n.

(** Transmissions without flags, to existing devices other than the packet's own, with
    nothing excluded. *)
Definition plain_tx (own_device : bool) (a : act) : Prop :=
  match a with
  | ATransmit d f => ev r d < N.of_nat n /\ (own_device = false -> ev r d <> ingress) /\ N.testbit (ev r f) 0 = false
  | AFlood f => N.testbit (ev r f) 0 = false
  | AExcept _ dis f => (forall d, d < N.of_nat n -> eb r (dis d) = false) /\ N.testbit (ev r f) 0 = false
  | _ => True
  end.
Definition plain_len (set_length : bool) (a : act) : Prop :=
  match a with ASetLen v => set_length = true /\ width v = 64 /\ ev r v <> 0 | _ => True end.

Definition seen (ds : devices) (d : N) : Prop := d < N.of_nat n /\ eb r (contains ds (BVV 16 d)) = true.

Definition tn_rel (st : pst) (s : tnst) : Prop :=
  exists m a t, p_net st = Some m /\ width (p_elem st) = PKT_SIZE * 8 /\ fields r (p_elem st) = (a, tn_len s, t, ingress) /\ tn_len s <> 0 /\
  (forall i, tn_data s i = ev r (p_data st i)) /\
  match n_tx m with
  | [] => tn_out s = repeat 0 (n - 1)
  | [x] => ev r (t_len x) <> 0 /\
           if t_flood x then ev r (t_dev x) = ingress /\ tn_out s = tn_flood n (ev r (t_len x))
           else ev r (t_dev x) < N.of_nat n /\ ev r (t_dev x) <> ingress /\
                tn_transmit ingress (ev r (t_dev x)) (ev r (t_len x)) (repeat 0 (n - 1)) = Some (tn_out s)
  | _ => False
  end.

Definition few (st : pst) : Prop := match p_net st with Some m => (length (n_tx m) <= 1)%nat | None => True end.

Lemma steps_few : forall l st st', steps st l = Ok st' -> few st' -> few st.
Proof.
  intros l st st' H F. apply steps_net in H as (_ & _ & _ & N). unfold few in *. destruct (p_net st) as [m|]; [|exact I].
  destruct (N m eq_refl) as (t & Ht). rewrite Ht in F. cbn [n_tx] in F. rewrite app_length in F. lia.
Qed.

Lemma tn_step_rel : forall st a st' s, step st a = Ok st' -> few st' -> plain_tx false a -> plain_len true a -> tn_rel st s ->
  exists s', tn_steps macs n ingress s (conc r a) = Some s' /\ tn_rel st' s'.
Proof.
  intros st a st' s H FW PT PL (m & ad & t & Hm & W & F & L & D & O).
  assert (F2 : ev r (get_length (p_elem st)) = tn_len s /\ ev r (get_device (p_elem st)) = ingress).
  { unfold fields in F. injection F as _ E1 _ E2. split; assumption. }
  destruct F2 as [FL FD].
  destruct a as [v|d|d f|f|ptr dis f|cs]; cbn [step conc tn_steps] in *.
  - injection H as <-. cbn [tn_step]. eexists. split; [reflexivity|]. destruct PL as (_ & Wv & NZ). exists m, ad, t. cbn [p_net p_elem p_data tn_len tn_data tn_out].
    destruct (set_len_fields r _ _ _ _ _ _ W Wv F) as [F' W']. split; [exact Hm|]. split; [exact W'|]. split; [exact F'|]. split; [exact NZ|]. split; [exact D|exact O].
  - injection H as <-. cbn [tn_step]. eexists. split; [reflexivity|]. exists m, ad, t. cbn [p_net p_elem p_data tn_len tn_data tn_out].
    split; [exact Hm|]. split; [exact W|]. split; [exact F|]. split; [exact L|]. split; [reflexivity|exact O].
  - unfold transmitted in H. rewrite Hm in H. injection H as <-. unfold few in FW. cbn [p_net n_tx] in FW. rewrite app_length in FW. cbn [length] in FW.
    destruct (n_tx m) eqn:TX; [|cbn [length] in FW; lia]. destruct PT as (P1 & P2 & P3). specialize (P2 eq_refl).
    cbn [tn_step]. rewrite O. destruct (tn_transmit_spec n ingress (ev r d) (tn_len s) Hing P1 P2 L) as (out & E & _). rewrite E.
    eexists. split; [reflexivity|]. do 3 eexists. cbn [p_net p_elem p_data tn_len tn_data tn_out]. split; [reflexivity|]. split; [exact W|]. split; [exact F|].
    split; [exact L|]. split; [rewrite handle_flags_none by exact P3; exact D|]. cbn [n_tx app t_len t_flood t_dev]. rewrite FL. auto.
  - unfold transmitted in H. rewrite Hm in H. injection H as <-. unfold few in FW. cbn [p_net n_tx] in FW. rewrite app_length in FW. cbn [length] in FW.
    destruct (n_tx m) eqn:TX; [|cbn [length] in FW; lia]. cbn [plain_tx] in PT.
    cbn [tn_step]. eexists. split; [reflexivity|]. do 3 eexists. cbn [p_net p_elem p_data tn_len tn_data tn_out]. split; [reflexivity|]. split; [exact W|]. split; [exact F|].
    split; [exact L|]. split; [rewrite handle_flags_all by exact PT; exact D|]. cbn [n_tx app t_len t_flood t_dev]. rewrite FL, FD. auto.
  - unfold transmitted in H. rewrite Hm in H. injection H as <-. unfold few in FW. cbn [p_net n_tx] in FW. rewrite app_length in FW. cbn [length] in FW.
    destruct (n_tx m) eqn:TX; [|cbn [length] in FW; lia]. destruct PT as [P1 P2].
    cbn [tn_step]. eexists. split; [reflexivity|]. do 3 eexists. cbn [p_net p_elem p_data tn_len tn_data tn_out]. split; [reflexivity|]. split; [exact W|]. split; [exact F|].
    split; [exact L|]. split; [rewrite handle_flags_all by exact P2; exact D|]. cbn [n_tx app t_len t_flood t_dev]. rewrite FL, FD. split; [exact L|]. split; [reflexivity|].
    apply none_excepted; assumption.
  - injection H as <-. exists s. split; [reflexivity|]. exists m, ad, t. auto 10.
Qed.

Lemma tn_steps_app : forall a b s, tn_steps macs n ingress s (a ++ b) = match tn_steps macs n ingress s a with Some s' => tn_steps macs n ingress s' b | None => None end.
Proof.
  induction a as [|x a IH]; intros b s; [reflexivity|]. cbn [app tn_steps]. destruct (tn_step macs n ingress s x); [apply IH|reflexivity].
Qed.

Lemma tn_steps_rel : forall l st st' s, steps st l = Ok st' -> few st' -> Forall (plain_tx false) l -> Forall (plain_len true) l -> tn_rel st s ->
  exists s', tn_steps macs n ingress s (conc_all r l) = Some s' /\ tn_rel st' s'.
Proof.
  induction l as [|a l IH]; intros st st' s H FW PT PL R.
  - injection H as <-. exists s. split; [reflexivity|exact R].
  - cbn [steps] in H. apply bindr_ok in H as (st1 & H1 & H2). inversion PT; subst. inversion PL; subst.
    destruct (tn_step_rel _ _ _ _ H1 (steps_few _ _ _ H2 FW) H3 H5 R) as (s1 & E1 & R1).
    destruct (IH _ _ _ H2 FW H4 H6 R1) as (s2 & E2 & R2). exists s2. split; [|exact R2].
    unfold conc_all in *. cbn [flat_map]. rewrite tn_steps_app, E1. exact E2.
Qed.

Lemma seen_single : forall x d, ev r x < N.of_nat n -> N.of_nat n <= 2 ^ 16 -> (seen (Single x) d <-> d = ev r x).
Proof.
  intros x d Hx Hn. unfold seen. cbn [contains]. rewrite BEq_true. cbn [evalv]. split.
  - intros [A B]. rewrite wrap_small in B by lia. exact B.
  - intros ->. split; [exact Hx|]. apply wrap_small. lia.
Qed.
Lemma seen_flooded : forall x c d, ev r x = ingress -> N.of_nat n <= 2 ^ 16 -> (seen (Flooded x c) d <-> d < N.of_nat n /\ d <> ingress).
Proof.
  intros x c d Hx Hn. unfold seen. cbn [contains]. rewrite BNe_true, Hx. cbn [evalv]. split.
  - intros [A B]. rewrite wrap_small in B by lia. auto.
  - intros [A B]. split; [exact A|]. rewrite wrap_small by lia. exact B.
Qed.

(** What the network sees, given what the specification sees. *)
Definition as_seen (tx : option spkt) (w : list (N * N * (N -> N))) : Prop :=
  match tx with
  | None => w = []
  | Some t => (forall d, (exists len data, In (d, len, data) w) <-> seen (s_devs t) d) /\
              forall d len data, In (d, len, data) w -> len = ev r (s_len t) /\ forall i, data i = ev r (s_data t i)
  end.

Lemma tn_as_seen : forall st s count v tx, tn_rel st s -> N.of_nat n <= 2 ^ 16 -> spec_view st count = Ok (v, tx) -> as_seen tx (tn_wire ingress s).
Proof.
  intros st s count v tx (m & a & t & Hm & W & F & L & D & O) Hn V. unfold spec_view in V. rewrite Hm in V.
  destruct (n_tx m) as [|x [|y l]] eqn:TX.
  - injection V as _ <-. cbn [as_seen]. unfold tn_wire.
    assert (E : tn_sent ingress (tn_out s) = []).
    { destruct (tn_sent ingress (tn_out s)) as [|d l] eqn:E; [reflexivity|]. exfalso.
      assert (I : In d (tn_sent ingress (tn_out s))) by (rewrite E; left; reflexivity).
      apply tn_sent_in in I as (i & _ & B & _). rewrite O in B. rewrite nth_repeat in B. congruence. }
    rewrite E. reflexivity.
  - injection V as _ <-. cbn [as_seen s_devs s_len s_data]. destruct O as [NZ O].
    assert (IW : forall d len data, In (d, len, data) (tn_wire ingress s) <->
                 In d (tn_sent ingress (tn_out s)) /\ len = nth (N.to_nat (index_from_device ingress d)) (tn_out s) 0 /\ data = tn_data s).
    { intros d len data. unfold tn_wire. rewrite in_map_iff. split.
      - intros (d' & E & I). injection E as <- <- <-. auto.
      - intros (I & -> & ->). exists d. auto. }
    destruct (t_flood x).
    + destruct O as [E1 E2]. rewrite E2 in IW. split.
      * intros d. rewrite (seen_flooded _ _ _ E1 Hn). rewrite <- net_flood_in, <- (drivers_flood n ingress (ev r (t_len x)) d Hing NZ). split.
        { intros (len & data & I). apply IW in I as [I _]. exact I. }
        { intros I. do 2 eexists. apply IW. split; [exact I|]. split; reflexivity. }
      * intros d len data I. apply IW in I as (I & -> & ->). split; [|exact D].
        apply tn_sent_in in I as (i & B & C & ->). unfold tn_flood in *. rewrite repeat_length in B.
        assert (Q : (N.to_nat (index_from_device ingress (device_from_index ingress (N.of_nat i))) < n - 1)%nat).
        { unfold index_from_device, device_from_index. destruct (N.ltb_spec (N.of_nat i) ingress).
          - destruct (N.ltb_spec ingress (N.of_nat i)); lia.
          - destruct (N.ltb_spec ingress (N.of_nat i + 1)); lia. }
        rewrite (nth_indep _ 0 (ev r (t_len x))) by (rewrite repeat_length; exact Q). apply nth_repeat.
    + destruct O as (E1 & E2 & E3).
      destruct (tn_transmit_spec n ingress (ev r (t_dev x)) (ev r (t_len x)) Hing E1 E2 NZ) as (out & E & S).
      rewrite E3 in E. injection E as <-. split.
      * intros d. rewrite (seen_single _ _ E1 Hn). rewrite <- S. split.
        { intros (len & data & I). apply IW in I as [I _]. exact I. }
        { intros I. do 2 eexists. apply IW. split; [exact I|]. split; reflexivity. }
      * intros d len data I. apply IW in I as (I & -> & ->). split; [|exact D]. apply S in I as ->.
        unfold tn_transmit in E3.
        destruct (Nat.ltb_spec (N.to_nat (index_from_device ingress (ev r (t_dev x)))) (length (repeat 0 (n - 1)))) as [B|B]; [|discriminate].
        injection E3 as <-. rewrite set_nth_nth by exact B. rewrite Nat.eqb_refl. reflexivity.
  - destruct O.
Qed.

(** The DPDK driver: the length in the structure is not looked at. *)
Definition dp_rel (len : N) (st : pst) (s : dpst) : Prop :=
  exists m a t, p_net st = Some m /\ width (p_elem st) = PKT_SIZE * 8 /\ fields r (p_elem st) = (a, len, t, ingress) /\
  (forall i, dp_data s i = ev r (p_data st i)) /\
  match n_tx m with
  | [] => dp_queue s = []
  | [x] => ev r (t_len x) = len /\
           if t_flood x then ev r (t_dev x) = ingress /\ forall d, In d (dp_queue s) <-> d < N.of_nat n /\ d <> ingress
           else ev r (t_dev x) < N.of_nat n /\ dp_queue s = [ev r (t_dev x)]
  | _ => False
  end.

Lemma dp_step_rel : forall len st a st' s, step st a = Ok st' -> few st' -> plain_tx true a -> plain_len false a -> dp_rel len st s ->
  exists s', dp_steps macs n ingress s (conc r a) = Some s' /\ dp_rel len st' s'.
Proof.
  intros len st a st' s H FW PT PL (m & ad & t & Hm & W & F & D & O).
  assert (F2 : ev r (get_length (p_elem st)) = len /\ ev r (get_device (p_elem st)) = ingress).
  { unfold fields in F. injection F as _ E1 _ E2. split; assumption. }
  destruct F2 as [FL FD].
  destruct a as [v|d|d f|f|ptr dis f|cs]; cbn [step conc dp_steps] in *.
  - destruct PL as [PL _]. discriminate.
  - injection H as <-. cbn [dp_step]. eexists. split; [reflexivity|]. exists m, ad, t. cbn [p_net p_elem p_data dp_data dp_queue].
    split; [exact Hm|]. split; [exact W|]. split; [exact F|]. split; [reflexivity|exact O].
  - unfold transmitted in H. rewrite Hm in H. injection H as <-. unfold few in FW. cbn [p_net n_tx] in FW. rewrite app_length in FW. cbn [length] in FW.
    destruct (n_tx m) eqn:TX; [|cbn [length] in FW; lia]. destruct PT as (P1 & _ & P3).
    cbn [dp_step]. rewrite (proj2 (N.ltb_lt _ _) P1), O.
    eexists. split; [reflexivity|]. do 3 eexists. cbn [p_net p_elem p_data dp_data dp_queue]. split; [reflexivity|]. split; [exact W|]. split; [exact F|].
    split; [rewrite handle_flags_none by exact P3; exact D|]. cbn [n_tx app t_len t_flood t_dev]. rewrite FL. auto.
  - unfold transmitted in H. rewrite Hm in H. injection H as <-. unfold few in FW. cbn [p_net n_tx] in FW. rewrite app_length in FW. cbn [length] in FW.
    destruct (n_tx m) eqn:TX; [|cbn [length] in FW; lia]. cbn [plain_tx] in PT.
    cbn [dp_step]. eexists. split; [reflexivity|]. do 3 eexists. cbn [p_net p_elem p_data dp_data dp_queue]. split; [reflexivity|]. split; [exact W|]. split; [exact F|].
    split; [rewrite handle_flags_all by exact PT; exact D|]. cbn [n_tx app t_len t_flood t_dev]. rewrite FL, FD, O. cbn [app].
    split; [reflexivity|]. split; [reflexivity|]. intros d. apply net_flood_in.
  - unfold transmitted in H. rewrite Hm in H. injection H as <-. unfold few in FW. cbn [p_net n_tx] in FW. rewrite app_length in FW. cbn [length] in FW.
    destruct (n_tx m) eqn:TX; [|cbn [length] in FW; lia]. destruct PT as [P1 P2].
    cbn [dp_step]. eexists. split; [reflexivity|]. do 3 eexists. cbn [p_net p_elem p_data dp_data dp_queue]. split; [reflexivity|]. split; [exact W|]. split; [exact F|].
    split; [rewrite handle_flags_all by exact P2; exact D|]. cbn [n_tx app t_len t_flood t_dev]. rewrite FL, FD, O. cbn [app].
    split; [reflexivity|]. split; [reflexivity|]. intros d. rewrite net_flood_except_in. split; [intros (A & B & _); auto|intros [A B]; auto].
  - injection H as <-. exists s. split; [reflexivity|]. exists m, ad, t. auto 10.
Qed.

Lemma dp_steps_app : forall a b s, dp_steps macs n ingress s (a ++ b) = match dp_steps macs n ingress s a with Some s' => dp_steps macs n ingress s' b | None => None end.
Proof.
  induction a as [|x a IH]; intros b s; [reflexivity|]. cbn [app dp_steps]. destruct (dp_step macs n ingress s x); [apply IH|reflexivity].
Qed.
Lemma dp_steps_rel : forall len l st st' s, steps st l = Ok st' -> few st' -> Forall (plain_tx true) l -> Forall (plain_len false) l -> dp_rel len st s ->
  exists s', dp_steps macs n ingress s (conc_all r l) = Some s' /\ dp_rel len st' s'.
Proof.
  intros len. induction l as [|a l IH]; intros st st' s H FW PT PL R.
  - injection H as <-. exists s. split; [reflexivity|exact R].
  - cbn [steps] in H. apply bindr_ok in H as (st1 & H1 & H2). inversion PT; subst. inversion PL; subst.
    destruct (dp_step_rel _ _ _ _ _ H1 (steps_few _ _ _ H2 FW) H3 H5 R) as (s1 & E1 & R1).
    destruct (IH _ _ _ H2 FW H4 H6 R1) as (s2 & E2 & R2). exists s2. split; [|exact R2].
    unfold conc_all in *. cbn [flat_map]. rewrite dp_steps_app, E1. exact E2.
Qed.
Lemma dp_as_seen : forall len st s count v tx, dp_rel len st s -> N.of_nat n <= 2 ^ 16 -> spec_view st count = Ok (v, tx) ->
  as_seen tx (map (fun d => (d, len, dp_data s)) (dp_queue s)).
Proof.
  intros len st s count v tx (m & a & t & Hm & W & F & D & O) Hn V. unfold spec_view in V. rewrite Hm in V.
  assert (IW : forall d l data, In (d, l, data) (map (fun d => (d, len, dp_data s)) (dp_queue s)) <-> In d (dp_queue s) /\ l = len /\ data = dp_data s).
  { intros d l data. rewrite in_map_iff. split.
    - intros (d' & E & I). injection E as <- <- <-. auto.
    - intros (I & -> & ->). exists d. auto. }
  destruct (n_tx m) as [|x [|y l]] eqn:TX.
  - injection V as _ <-. cbn [as_seen]. rewrite O. reflexivity.
  - injection V as _ <-. cbn [as_seen s_devs s_len s_data]. destruct O as [E O].
    assert (S : forall d, In d (dp_queue s) <-> seen (if t_flood x then Flooded (t_dev x) count else Single (t_dev x)) d).
    { intros d. destruct (t_flood x).
      - destruct O as [E1 E2]. rewrite (seen_flooded _ _ _ E1 Hn). apply E2.
      - destruct O as [E1 E2]. rewrite (seen_single _ _ E1 Hn), E2. cbn [In]. split; [intros [->|[]]; reflexivity|intros ->; left; reflexivity]. }
    split.
    + intros d. rewrite <- S. split.
      * intros (l & data & I). apply IW in I as [I _]. exact I.
      * intros I. do 2 eexists. apply IW. split; [exact I|]. split; reflexivity.
    + intros d l data I. apply IW in I as (I & -> & ->). split; [symmetry; exact E|exact D].
  - destruct O.
Qed.

(** From the packet given to the end of the handler. *)
Lemma view_is_wire : forall freq k count st addr m l st' v tx,
  alloc freq k count = Ok (st, addr) -> p_net st = Some m -> ev r (n_dev m) = ingress -> N.of_nat n <= 2 ^ 16 ->
  steps st l = Ok st' -> holds r (kcs (p_k st')) -> spec_view st' count = Ok (v, tx) ->
  (Forall (plain_tx false) l -> Forall (plain_len true) l ->
   exists w, tn_handle macs n ingress (ev r (n_len m)) (fun i => ev r (p_data st i)) (conc_all r l) = Some w /\ as_seen tx w) /\
  (Forall (plain_tx true) l -> Forall (plain_len false) l ->
   exists w, dp_handle macs n ingress (ev r (n_len m)) (fun i => ev r (p_data st i)) (conc_all r l) = Some w /\ as_seen tx w).
Proof.
  intros freq k count st addr m l st' v tx A Hm I Hn S HR V.
  destruct (alloc_spec _ _ _ _ _ A) as (time & cycles & _ & T & DO & W & m' & Hm' & TX & _ & _ & SP).
  assert (m' = m) by congruence. subst m'.
  assert (HR0 : holds r (kcs (p_k st))).
  { destruct (steps_net _ _ _ S) as (_ & _ & CS & _). intros c Hc. apply HR. apply CS. exact Hc. }
  destruct (SP r HR0) as (_ & F & [L1 L2] & _). rewrite I in F.
  assert (FW : few st').
  { unfold few. unfold spec_view in V. destruct (p_net st') as [m'|]; [|exact Logic.I].
    destruct (n_tx m') as [|x [|y z]]; [cbn; lia|cbn; lia|discriminate]. }
  split; intros PT PL.
  - destruct (tn_steps_rel l st st' (mkTn (ev r (n_len m)) (fun i => ev r (p_data st i)) (repeat 0 (n - 1))) S FW PT PL) as (s & E & R).
    { exists m, (ev r (n_addr m)), (ev r time). cbn [tn_len tn_data tn_out]. rewrite TX. split; [exact Hm|]. split; [exact W|]. split; [exact F|]. split; [lia|]. split; reflexivity. }
    exists (tn_wire ingress s). unfold tn_handle. rewrite E. split; [reflexivity|]. eapply tn_as_seen; eauto.
  - destruct (dp_steps_rel (ev r (n_len m)) l st st' (mkDp (fun i => ev r (p_data st i)) []) S FW PT PL) as (s & E & R).
    { exists m, (ev r (n_addr m)), (ev r time). cbn [dp_data dp_queue]. rewrite TX. split; [exact Hm|]. split; [exact W|]. split; [exact F|]. split; reflexivity. }
    eexists. unfold dp_handle. rewrite E. split; [reflexivity|]. eapply dp_as_seen; eauto.
Qed.
End View.
