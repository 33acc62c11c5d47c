(** Property theorems C124 (the configuration), C125 and C130: the driver on a card whose
    registers keep what is written. *)

From Coq Require Import NArith List Bool Lia Arith String.
From Verif Require Import Expr Solver Regs RegTable RegFacts RegLookup RegActions Ixgbe IxgbeFacts IxgbeSpec IxgbeInit IxgbeRun IxgbeCard Props_Ixgbe.
Import ListNotations.
Open Scope list_scope.
Open Scope N_scope.

(** ** C124: the configuration after start-up *)

(** The specification: registers, with the first and the last of their instances, a field
    and its value. *)
Definition configuration : list (string * N * N * string * N) := [
  ("EIMC_0", 0, 0, "Interrupt Mask", 2 ^ 31 - 1); ("EIMC_1", 0, 0, "Interrupt Mask", 2 ^ 32 - 1); ("EIMC_2", 0, 0, "Interrupt Mask", 2 ^ 32 - 1);
  ("FCRTH", 0, 0, "RTH", (512 * 1024 - 0x6000) / 32);
  ("PFUTA", 0, 127, "Bit Vector", 0); ("PFVLVF", 0, 63, "VI_En", 0); ("PFVLVF", 0, 63, "VLAN_Id", 0);
  ("MPSAR", 0, 0, "POOL_ENA", 1); ("MPSAR", 1, 255, "POOL_ENA", 0); ("PFVLVFB", 0, 127, "POOL_ENA", 0);
  ("MTA", 0, 127, "Bit Vector", 0); ("FTQF", 0, 127, "Queue Enable", 0);
  ("RDRXCTL", 0, 0, "CRCStrip", 1); ("RDRXCTL", 0, 0, "RSCFRSTSIZE", 0); ("RDRXCTL", 0, 0, "RSCACKC", 1); ("RDRXCTL", 0, 0, "FCOE_WRFIX", 1);
  ("RXPBSIZE", 1, 7, "SIZE", 0); ("MFLCN", 0, 0, "RFCE", 1); ("FCCFG", 0, 0, "TFCE", 1);
  ("TXPBSIZE", 1, 7, "SIZE", 0); ("TXPBTHRESH", 0, 0, "THRESH", 0xA0 - 2); ("DTXMXSZRQ", 0, 0, "Max_bytes_num_req", 0xFFF);
  ("RTTDCS", 0, 0, "ARBDIS", 0)].
(** The registers for the rate of one queue, which are used for each queue. *)
Definition per_queue : list string := ["RTTDQSEL"; "RTTDT1C"]%string.
(** A card that has read its EEPROM, found it, has no firmware error and has finished the
    start of its DMA unit. *)
Definition card_ready (dev : N) (m : memory) : Prop :=
  seen (holding m) dev 0 "EEC" "Auto_RD" = Some 1 /\ seen (holding m) dev 0 "EEC" "EE_PRES" = Some 1 /\
  seen (holding m) dev 0 "FWSM" "Ext_err_ind" = Some 0 /\ seen (holding m) dev 0 "RDRXCTL" "DMAIDONE" = Some 1.
(** The card answers with what its registers hold. *)
Definition keeps (phys : object -> N) (m : memory) (tr : list event) : Prop := along (held phys) (holding m) tr.

(** The writes of start-up. *)
Definition each (lo : N) (count : nat) (reg : N -> N) (s e v : N) : list setting := flat_map (fun n => [(reg n, s, e, v)]) (range lo count).
Definition general_writes : list setting :=
  [(REG_EIMC 0, 0, 31, 0x7FFFFFFF)] ++ each 1 2 REG_EIMC 0 31 0xFFFFFFFF ++ [(REG_FCRTH 0, 5, 18, (512 * 1024 - 0x6000) / 32)].
Definition receive_writes : list setting :=
  each 0 128 REG_PFUTA 0 31 0 ++ each 0 64 REG_PFVLVF 0 31 0 ++ [(REG_MPSAR 0, 0, 31, 1)] ++ each 1 255 REG_MPSAR 0 31 0 ++
  each 0 128 REG_PFVLVFB 0 31 0 ++ each 0 128 REG_MTA 0 31 0 ++ each 0 128 REG_FTQF 31 31 0 ++
  [(REG_RDRXCTL, 1, 1, 1)] ++ [(REG_RDRXCTL, 17, 21, 0)] ++ [(REG_RDRXCTL, 25, 25, 1)] ++ [(REG_RDRXCTL, 26, 26, 1)] ++
  each 1 7 REG_RXPBSIZE 0 31 0 ++ [(REG_MFLCN, 3, 3, 1)] ++ [(REG_FCCFG, 3, 4, 1)] ++
  flat_map (fun n => [(REG_RTTDQSEL, 0, 31, n)] ++ [(REG_RTTDT1C, 0, 31, 0)]) (range 0 128).
Definition transmit_writes : list setting :=
  [(REG_RTTDCS, 6, 6, 1)] ++ each 1 7 REG_TXPBSIZE 0 31 0 ++ [(REG_TXPBTHRESH 0, 0, 9, 0xA0 - PACKET_BUFFER_SIZE / 1024)] ++
  [(REG_DTXMXSZRQ, 0, 11, 0xFFF)] ++ [(REG_RTTDCS, 6, 6, 0)].
Definition start_writes : list setting := general_writes ++ receive_writes ++ transmit_writes.

Section Start.
Variable phys : object -> N.
Variable dev : N.
Definition bit_of (m : memory) (r s e : N) : N := bits (m (Mmio dev r)) s e.
Definition rdy (m : memory) : Prop := bit_of m REG_EEC 9 9 = 1 /\ bit_of m REG_EEC 8 8 = 1 /\ bit_of m REG_FWSM 19 24 = 0 /\ bit_of m REG_RDRXCTL 3 3 = 1.
Definition harmless (x : setting) : Prop := match x with (r, s, e, v) => r <> REG_EEC /\ r <> REG_FWSM /\ (r <> REG_RDRXCTL \/ e < 3 \/ 3 < s) end.
Lemma rdy_put : forall m x, rdy m -> small m -> good x -> harmless x -> rdy (put dev m x).
Proof.
  intros m x (R1 & R2 & R3 & R4) Sm G H. destruct x as [[[r s] e] v]. destruct H as (H1 & H2 & H3). unfold rdy, bit_of.
  split; [|split; [|split]]; (apply put_leaves; try assumption; try (apply N.le_refl); try (vm_compute; discriminate)); cbn [leaves]; tauto.
Qed.
Local Notation sets := (IxgbeCard.sets phys dev rdy harmless).
Ltac hl := cbn [harmless]; unfold REG_EEC, REG_FWSM, REG_RDRXCTL, REG_EIMC, REG_FCRTH, REG_PFUTA, REG_PFVLVF, REG_MPSAR, REG_PFVLVFB, REG_MTA, REG_FTQF, REG_RXPBSIZE, REG_MFLCN,
  REG_FCCFG, REG_RTTDQSEL, REG_RTTDT1C, REG_RTTDCS, REG_TXPBSIZE, REG_TXPBTHRESH, REG_DTXMXSZRQ; repeat match goal with |- context [?a =? ?b] => destruct (N.eqb_spec a b) end; lia.
Lemma sets_each : forall lo count reg v, v < 2 ^ 32 -> (forall n, lo <= n < lo + N.of_nat count -> harmless (reg n, 0, 31, v)) ->
  sets (for_ lo count (fun n => reg_write dev (reg n) v)) (each lo count reg 0 31 v).
Proof. intros lo count reg v Hv H. apply sets_for; [exact rdy_put|]. intros n Hn. apply sets_write; auto. Qed.
Lemma sets_each_bit : forall lo count reg b, b <= 31 -> (forall n, lo <= n < lo + N.of_nat count -> harmless (reg n, b, b, 0)) ->
  sets (for_ lo count (fun n => reg_clear_field dev (reg n) (BIT b))) (each lo count reg b b 0).
Proof. intros lo count reg b Hb H. apply sets_for; [exact rdy_put|]. intros n Hn. apply sets_clear; auto. Qed.
Ltac seq := match goal with
  | |- sets (bind _ _) _ => apply (sets_then phys dev rdy harmless rdy_put)
  | |- sets (for_ _ _ (fun n => reg_clear_field dev (?f n) (BIT ?b))) _ => apply (sets_each_bit _ _ f); [lia|intros; hl]
  | |- sets (for_ _ _ (fun n => reg_clear dev (?f n))) _ => apply (sets_each _ _ f); [reflexivity|intros; hl]
  | |- sets (for_ _ _ (fun n => reg_write dev (?f n) _)) _ => apply (sets_each _ _ f); [reflexivity|intros; hl]
  | |- sets (reg_write_field _ _ _ _) _ => apply (sets_field phys dev rdy harmless); [split; [lia|reflexivity]|hl]
  | |- sets (reg_clear_field _ _ (BITS _ _)) _ => apply (sets_field phys dev rdy harmless); [split; [lia|reflexivity]|hl]
  | |- sets (reg_write _ _ _) _ => apply (sets_write phys dev rdy harmless); [reflexivity|hl]
  | |- sets (reg_set_field _ _ _) _ => apply (sets_set phys dev rdy harmless); [lia|hl]
  | |- sets (reg_clear_field _ _ _) _ => apply (sets_clear phys dev rdy harmless); [lia|hl]
  end.
Lemma receive_sets : sets (init_receive dev) receive_writes.
Proof.
  unfold init_receive, receive_writes. repeat seq. apply (sets_for phys dev rdy harmless rdy_put). intros n Hn. seq.
  - apply (sets_write phys dev rdy harmless); [change (N.of_nat 128) with 128 in Hn; lia|hl].
  - unfold reg_clear. seq.
Qed.
Lemma transmit_sets : sets (init_transmit dev) transmit_writes.
Proof. unfold init_transmit, transmit_writes. repeat seq. Qed.
Lemma waits_sets : sets (let! late := if_after_timeout (1000 * 1000) (reg_is_field_cleared dev REG_EEC (BIT 9)) in
  when late Fatal ;;
  let! absent := reg_is_field_cleared dev REG_EEC (BIT 8) in
  let! bad := (if absent then Ret true else not_ (reg_is_field_cleared dev REG_FWSM (BITS 19 24))) in
  when bad Fatal ;;
  let! late := if_after_timeout (1000 * 1000) (reg_is_field_cleared dev REG_RDRXCTL (BIT 3)) in
  when late Fatal) [].
Proof.
  change (BIT 9) with (BITS 9 9). change (BIT 8) with (BITS 8 8). change (BIT 3) with (BITS 3 3).
  apply (does_wait phys dev rdy harmless unit _ REG_EEC 9 9 false); [lia|intros m (R & _); unfold bit_of in R; rewrite R; reflexivity|]. cbn [when bind].
  apply (does_test phys dev rdy harmless unit REG_EEC 8 8 false false); [lia|intros m (_ & R & _); unfold bit_of in R; rewrite R; reflexivity|]. cbv iota.
  apply (does_test phys dev rdy harmless unit REG_FWSM 19 24 true true); [lia|intros m (_ & _ & R & _); unfold bit_of in R; rewrite R; reflexivity|]. cbn [negb when bind].
  apply (does_wait phys dev rdy harmless unit _ REG_RDRXCTL 3 3 false); [lia|intros m (_ & _ & _ & R); unfold bit_of in R; rewrite R; reflexivity|]. cbn [when].
  apply sets_none.
Qed.
Lemma start_sets : sets (after_reset dev) start_writes.
Proof.
  unfold after_reset, start_writes. apply (sets_then phys dev rdy harmless rdy_put); [|apply (sets_then phys dev rdy harmless rdy_put); [apply receive_sets|apply transmit_sets]].
  unfold init_general, general_writes. seq; [seq|]. seq; [seq|]. rewrite <- (app_nil_r [(REG_FCRTH 0, 5, 18, _)]). seq; [seq|]. apply waits_sets.
Qed.
End Start.

(** The fields of the configuration, by address. *)
Definition target (x : string * N * N * string * N) (i : N) : option (N * N * N * N) :=
  match x with (name, _, _, field, v) =>
    match find_reg registers name with
    | Some d => match place 0 (r_addr d) i, find_field d field with Some a, Some f => Some (a, f_start f, f_end f, v) | _, _ => None end
    | None => None
    end
  end.
Definition indices (x : string * N * N * string * N) : list N := match x with (_, lo, hi, _, _) => range lo (N.to_nat (hi + 1 - lo)) end.
Definition leavesb (r' s' e' v' : N) (x : setting) : bool :=
  match x with (r, s, e, v) => if r =? r' then (e <? s') || (e' <? s) || ((s <=? s') && (e' <=? e) && (bits v (s' - s) (e' - s) =? v')) else true end.
Definition givesb (r' s' e' v' : N) (x : setting) : bool :=
  match x with (r, s, e, v) => if r =? r' then (s <=? s') && (e' <=? e) && (bits v (s' - s) (e' - s) =? v') else false end.
Definition goodb (x : setting) : bool := match x with (r, s, e, v) => (s <=? e) && (e <=? 31) && (v <? 2 ^ (e + 1 - s)) end.
Fixpoint settles (r s e v : N) (xs : list setting) : bool :=
  match xs with [] => false | x :: xs => if settles r s e v xs then true else if givesb r s e v x then forallb (leavesb r s e v) xs else false end.
Definition gets (xs : list setting) (t : option (N * N * N * N)) : bool :=
  match t with Some (r, s, e, v) => (s <=? e) && settles r s e v xs | None => false end.
Definition check_all (xs : list setting) : bool := forallb (fun x => forallb (fun i => gets xs (target x i)) (indices x)) configuration.
Lemma leavesb_ok : forall r s e v x, leavesb r s e v x = true -> leaves r s e v x.
Proof.
  intros r' s' e' v' [[[r s] e] v] H. cbn [leavesb leaves] in *. destruct (N.eqb_spec r r') as [->|]; [|auto]. rewrite !orb_true_iff, !andb_true_iff, !N.ltb_lt, !N.leb_le, N.eqb_eq in H. tauto.
Qed.
Lemma givesb_ok : forall r s e v x, givesb r s e v x = true -> gives r s e v x.
Proof. intros r' s' e' v' [[[r s] e] v] H. cbn [givesb gives] in *. destruct (N.eqb_spec r r') as [->|]; [|discriminate]. rewrite !andb_true_iff, !N.eqb_eq, !N.leb_le in H. tauto. Qed.
Lemma settles_ok : forall r s e v xs, settles r s e v xs = true -> settled r s e v xs.
Proof.
  induction xs as [|x xs IH]; intros H; cbn [settles settled] in *; [discriminate|].
  destruct (settles r s e v xs); [left; apply IH; reflexivity|right]. destruct (givesb r s e v x) eqn:G; [|discriminate]. split; [apply givesb_ok; exact G|]. apply Forall_forall. intros y Hy.
  rewrite forallb_forall in H. apply leavesb_ok, H. exact Hy.
Qed.
Lemma goodb_ok : forall xs, forallb goodb xs = true -> Forall good xs.
Proof.
  intros xs H. apply Forall_forall. intros [[[r s] e] v] Hx. rewrite forallb_forall in H. specialize (H _ Hx). cbn [goodb good] in *.
  rewrite !andb_true_iff, !N.leb_le, N.ltb_lt in H. tauto.
Qed.
Lemma start_good : Forall good start_writes.
Proof. apply goodb_ok. vm_compute. reflexivity. Qed.
Lemma start_checked : check_all start_writes = true.
Proof. vm_compute. reflexivity. Qed.
(** Every register written, with its name. *)
Definition changed : list (string * N) := flat_map (fun x => map (fun i => (fst (fst (fst (fst x))), i)) (indices x)) configuration ++ map (fun n => (n, 0)) per_queue.
Fixpoint placedb (first : N) (ranges : list (N * N * N)) (j a : N) : bool :=
  match ranges with
  | [] => false
  | (b, m, lim) :: rs => (first <=? j) && (j <=? lim) && (a =? b + (j - first) * m) || placedb (lim + 1) rs j a
  end.
Lemma placedb_ok : forall rs first j a, placedb first rs j a = true -> placed first rs j a.
Proof.
  induction rs as [|[[b m] lim] rs IH]; intros first j a H; cbn [placedb placed] in *; [discriminate|].
  rewrite orb_true_iff, !andb_true_iff, !N.leb_le, N.eqb_eq in H. destruct H as [H|H]; [left; tauto|right; apply IH; exact H].
Qed.
Definition where_is (y : string * N) : option N :=
  match find_reg registers (fst y) with
  | Some d => match place 0 (r_addr d) (snd y) with Some a => if placedb 0 (r_addr d) (snd y) a then Some a else None | None => None end
  | None => None
  end.
Definition addresses : list N := flat_map (fun y => match where_is y with Some a => [a] | None => [] end) changed.
Lemma addresses_ok : forall a, In a addresses -> exists name i, In name (map (fun x => fst (fst (fst (fst x)))) configuration ++ per_queue) /\ at_reg name i a.
Proof.
  intros a H. unfold addresses in H. apply in_flat_map in H as ([name i] & Hy & H). exists name, i. split.
  - unfold changed in Hy. apply in_app_or in Hy as [Hy|Hy]; apply in_or_app.
    + left. apply in_flat_map in Hy as (x & Hx & Hy). apply in_map_iff in Hy as (k & [= <- <-] & _). apply in_map_iff. exists x. auto.
    + right. apply in_map_iff in Hy as (n & [= <- <-] & Hn). exact Hn.
  - unfold where_is in H. cbn [fst snd] in H. destruct (find_reg registers name) as [d|] eqn:E; [|contradiction].
    destruct (place 0 (r_addr d) i) as [b|]; [|contradiction]. destruct (placedb 0 (r_addr d) i b) eqn:P; [|contradiction].
    destruct H as [->|[]]. exists d. split; [exact E|]. apply placedb_ok. exact P.
Qed.
Lemma start_addresses : forallb (fun x : setting => existsb (N.eqb (fst (fst (fst x)))) addresses) start_writes = true.
Proof. vm_compute. reflexivity. Qed.

Lemma view_agree : forall phys dev m tr, small m -> card_ready dev m -> forall out, runs (after_reset dev) tr out -> keeps phys m tr ->
  out = Some tt /\ forall l, view_after (holding m) tr l = Some (puts dev start_writes m l).
Proof.
  intros phys dev m tr Sm (R1 & R2 & R3 & R4) out R K.
  assert (Y : rdy dev m) by (injection R1 as R1; injection R2 as R2; injection R3 as R3; injection R4 as R4; repeat split; assumption).
  destruct (surely_sound (held phys) unit _ _ _ R (holding m) _ (start_sets phys dev (holding m) m (fun l => eq_refl) Sm Y) K) as ([] & -> & xs & -> & _ & A).
  split; [reflexivity|exact A].
Qed.
Lemma check_sound : forall xs dev m vw, check_all xs = true -> Forall good xs -> small m -> (forall l, vw l = Some (puts dev xs m l)) ->
  forall name lo hi field v i, In (name, lo, hi, field, v) configuration -> lo <= i <= hi -> seen vw dev i name field = Some v.
Proof.
  intros xs dev m vw C G Sm A name lo hi field v i Hx Hi. unfold check_all in C. rewrite forallb_forall in C. specialize (C _ Hx).
  rewrite forallb_forall in C. specialize (C i). cbn [indices] in C. rewrite in_range in C. specialize (C ltac:(lia)). cbn [target] in C.
  unfold seen. destruct (find_reg registers name) as [d|]; [|discriminate]. destruct (place 0 (r_addr d) i) as [a|]; [|discriminate].
  destruct (find_field d field) as [f|]; [|discriminate]. unfold gets in C. rewrite andb_true_iff, N.leb_le in C. destruct C as [C1 C2].
  rewrite A. cbn [option_map]. f_equal. apply puts_settled; [exact G|exact Sm|exact C1|apply settles_ok; exact C2].
Qed.
Lemma others_sound : forall xs dev m vw l, forallb (fun x : setting => existsb (N.eqb (fst (fst (fst x)))) addresses) xs = true -> (forall l, vw l = Some (puts dev xs m l)) ->
  (forall name i a, In name (map (fun x => fst (fst (fst (fst x)))) configuration ++ per_queue) -> at_reg name i a -> l <> Mmio dev a) -> vw l = Some (m l).
Proof.
  intros xs dev m vw l C A Hl. rewrite A. f_equal. apply puts_other. intros x Hx E. rewrite forallb_forall in C. specialize (C x Hx). cbv beta in C.
  apply existsb_exists in C as (a & Ha & C). apply N.eqb_eq in C. destruct (addresses_ok a Ha) as (name & i & Hn & Hr). apply (Hl name i a Hn Hr). rewrite <- E. f_equal. exact C.
Qed.
(** Start-up succeeds on a card that is ready, and leaves every field of the configuration
    with its value and every other register as it was. *)
Theorem C124_configured : forall phys dev m tr out, small m -> card_ready dev m -> runs (after_reset dev) tr out -> keeps phys m tr ->
  out = Some tt /\
  (forall name lo hi field v i, In (name, lo, hi, field, v) configuration -> lo <= i <= hi -> seen (view_after (holding m) tr) dev i name field = Some v) /\
  (forall l, (forall name i a, In name (map (fun x => fst (fst (fst (fst x)))) configuration ++ per_queue) -> at_reg name i a -> l <> Mmio dev a) ->
     view_after (holding m) tr l = Some (m l)).
Proof.
  intros phys dev m tr out Sm Rd R K. destruct (view_agree phys dev m tr Sm Rd out R K) as [-> A]. split; [reflexivity|]. split.
  - exact (check_sound start_writes dev m _ start_checked start_good Sm A).
  - intros l Hl. exact (others_sound start_writes dev m _ l start_addresses A Hl).
Qed.
Print Assumptions C124_configured.

(** For each of the 128 queues, whatever the card answers: the queue is selected, and at once
    its rate is cleared. *)
Definition part (s tr : list event) : Prop := exists t1 t2, tr = t1 ++ s ++ t2.
Lemma part_l : forall s x y, part s x -> part s (x ++ y).
Proof. intros s x y (a & b & ->). exists a, (b ++ y). rewrite <- !app_assoc. reflexivity. Qed.
Lemma part_r : forall s x y, part s y -> part s (x ++ y).
Proof. intros s x y (a & b & ->). exists (x ++ a), b. rewrite <- !app_assoc. reflexivity. Qed.
Lemma runs_for : forall body count lo tr, runs (for_ lo count body) tr (Some tt) -> forall i, lo <= i < lo + N.of_nat count ->
  exists t, part t tr /\ runs (body i) t (Some tt).
Proof.
  induction count as [|c IH]; intros lo tr R i Hi; [lia|]. cbn [for_] in R. apply runs_bind in R as [[_ R]|([] & t1 & t2 & R1 & R2 & ->)]; [discriminate|].
  destruct (N.eq_dec i lo) as [->|Ne]; [exists t1; split; [exists [], t2; reflexivity|exact R1]|]. destruct (IH _ _ R2 i ltac:(lia)) as (u & U1 & U).
  exists u. split; [apply part_r; exact U1|exact U].
Qed.
Theorem C124_rates : forall dev tr q, runs (after_reset dev) tr (Some tt) -> q < 128 ->
  exists a b t1 t2, at_reg "RTTDQSEL" 0 a /\ at_reg "RTTDT1C" 0 b /\ tr = t1 ++ [EWrite (Mmio dev a) q; EWrite (Mmio dev b) 0] ++ t2.
Proof.
  intros dev tr q R Hq. exists REG_RTTDQSEL, REG_RTTDT1C.
  cut (part [EWrite (Mmio dev REG_RTTDQSEL) q; EWrite (Mmio dev REG_RTTDT1C) 0] tr).
  { intros (t1 & t2 & E). exists t1, t2. split; [eexists; split; [reflexivity|inst]|]. split; [eexists; split; [reflexivity|inst]|]. exact E. }
  unfold after_reset in R.
  apply runs_bind in R as [[_ R]|([] & t1 & t2 & _ & R & ->)]; [discriminate|]. apply runs_bind in R as [[_ R]|([] & t3 & t4 & R & _ & ->)]; [discriminate|].
  apply part_r, part_l. unfold init_receive in R. do 14 (apply runs_bind in R as [[_ R]|([] & ? & ? & _ & R & ->)]; [discriminate|]; apply part_r).
  destruct (runs_for _ _ _ _ R q) as (u & P & U); [change (N.of_nat 128) with 128; lia|].
  unfold reg_clear, reg_write in U. cbn [bind] in U. apply runs_write in U as (? & -> & U). apply runs_write in U as (? & -> & U). apply runs_ret in U as [-> _].
  exact P.
Qed.
Print Assumptions C124_rates.

(** Every card that keeps what is written has an execution with each program whose writes
    are allowed. *)
Fixpoint play {A} (phys : object -> N) (m : memory) (p : prog A) : list event * option A :=
  match p with
  | Ret a => ([], Some a)
  | Fatal => ([], None)
  | Read l k => let r := play phys m (k (m l)) in (ERead l (m l) :: fst r, snd r)
  | Write l v k => let r := play phys (fun l' => if loc_eqb l l' then v else m l') k in (EWrite l v :: fst r, snd r)
  | Sleep ns k => let r := play phys m k in (ESleep ns :: fst r, snd r)
  | Map d ph s k => let r := play phys m k in (EMap d ph s :: fst r, snd r)
  | Phys x k => let r := play phys m (k (phys x)) in (EPhys x (phys x) :: fst r, snd r)
  end.
Lemma allowed_small : forall vw l v, allowed vw l v -> v < 2 ^ 32.
Proof.
  assert (L : forall d v, In d registers \/ In d pci_regs -> v < 2 ^ r_len d -> v < 2 ^ 32).
  { intros d v Hd Hv. assert (C : forallb (fun d => r_len d <=? 32) (registers ++ pci_regs) = true) by (vm_compute; reflexivity).
    rewrite forallb_forall in C. specialize (C d). rewrite N.leb_le in C. eapply N.lt_le_trans; [exact Hv|]. apply N.pow_le_mono_r; [discriminate|]. apply C, in_or_app. exact Hd. }
  intros vw [dev a|dev a] v H.
  - destruct H as (d & i & Hd & _ & W & _). eapply L; eauto.
  - destruct H as (d & Hd & _ & W & _). eapply L; eauto.
Qed.
Lemma along_step : forall (P : view -> event -> Prop) vw e tr, P vw e -> along P (see vw e) tr -> along P vw (e :: tr).
Proof. intros P vw e tr H1 H2 [|e' p] f q E; cbn [app] in E; injection E as <- E; [exact H1|]. subst tr. exact (H2 p f q eq_refl). Qed.
Lemma play_ok : forall phys A (p : prog A) vw Q m, (forall x, phys x < 2 ^ 64) -> small m -> safe any0 ok1 p vw Q ->
  runs p (fst (play phys m p)) (snd (play phys m p)) /\
  forall w, (forall l, w l = Some (m l)) -> along (held phys) w (fst (play phys m p)).
Proof.
  intros phys A p. induction p as [a| |l k IH|l v k IH|ns k IH|d ph s k IH|x k IH]; intros vw Q m Hp Sm S; cbn [play fst snd safe] in *.
  - split; [constructor|]. intros w _ p e q E. destruct p; discriminate.
  - split; [constructor|]. intros w _ p e q E. destruct p; discriminate.
  - destruct (S (m l) (Sm l) I) as [_ S']. destruct (IH _ _ _ m Hp Sm S') as [R K]. split; [constructor; [apply Sm|exact R]|].
    intros w Hw. apply along_step; [apply Hw|]. apply K. intros l'. cbn [see]. unfold upd. destruct (loc_eqb l l') eqn:E; [apply loc_eqb_eq in E; subst; reflexivity|apply Hw].
  - destruct S as [O S]. cbn [ok1] in O. assert (Hv : v < 2 ^ 32) by (eapply allowed_small; apply O).
    destruct (IH _ _ (fun l' => if loc_eqb l l' then v else m l') Hp ltac:(intros l'; cbv beta; destruct (loc_eqb l l'); [exact Hv|apply Sm]) S) as [R K].
    split; [constructor; exact R|]. intros w Hw. apply along_step; [exact I|]. apply K. intros l'. cbn [see]. unfold upd. destruct (loc_eqb l l'); [reflexivity|apply Hw].
  - destruct S as [_ S]. destruct (IH _ _ m Hp Sm S) as [R K]. split; [constructor; exact R|]. intros w Hw. apply along_step; [exact I|apply K; exact Hw].
  - destruct S as [_ S]. destruct (IH _ _ m Hp Sm S) as [R K]. split; [constructor; exact R|]. intros w Hw. apply along_step; [exact I|apply K; exact Hw].
  - destruct (S (phys x) (Hp x) I) as [_ S']. destruct (IH _ _ _ m Hp Sm S') as [R K]. split; [constructor; [apply Hp|exact R]|].
    intros w Hw. apply along_step; [reflexivity|apply K; exact Hw].
Qed.

Definition zero_at : object -> N := fun _ => 0.
Definition ready_memory : memory := fun l => ready_card [] l.
Lemma ready_small : small ready_memory.
Proof.
  intros [d a|d a]; unfold ready_memory, ready_card.
  - repeat (destruct a as [|a]; try reflexivity); repeat (try reflexivity; destruct a as [a|a|]; try reflexivity).
  - repeat (destruct a as [|a]; try reflexivity); repeat (try reflexivity; destruct a as [a|a|]; try reflexivity).
Qed.
(** Every ready card has a start-up, and there is one. *)
Example C124_ex_card : (forall m dev, small m -> exists tr out, runs (after_reset dev) tr out /\ keeps zero_at m tr) /\ small ready_memory /\ card_ready 3 ready_memory.
Proof.
  split; [|split; [exact ready_small|repeat split; vm_compute; reflexivity]]. intros m dev Sm.
  assert (S : safe any0 ok1 (after_reset dev) (fun _ => None) (fun _ _ => True)).
  { unfold after_reset. eapply safe_then; [apply general_stage|]. intros [] w _. eapply safe_then; [apply receive_stage|]. intros [] w' _. apply transmit_stage. }
  destruct (play_ok zero_at _ _ _ _ m (fun _ => eq_refl) Sm S) as [R K]. exists (fst (play zero_at m (after_reset dev))), (snd (play zero_at m (after_reset dev))).
  split; [exact R|]. apply K. intros l. reflexivity.
Qed.

(** ** C125: promiscuous mode *)

Notation setsT phys dev := (IxgbeCard.sets phys dev (fun _ => True) (fun _ => True)).
Lemma harmless_T : forall dev m x, (fun _ : memory => True) m -> small m -> good x -> (fun _ : setting => True) x -> (fun _ : memory => True) (put dev m x).
Proof. auto. Qed.
(** All destinations are accepted; the other bits of the register, the enabling of reception
    and all other registers are as before. *)
Theorem C125_promiscuous : forall phys dev m tr out, small m -> runs (set_promiscuous dev) tr out -> keeps phys m tr ->
  let final := view_after (holding m) tr in
  out = Some tt /\ seen final dev 0 "FCTRL" "UPE" = Some 1 /\ seen final dev 0 "FCTRL" "MPE" = Some 1 /\
  exists a, at_reg "FCTRL" 0 a /\ (exists v, final (Mmio dev a) = Some v /\ forall b, b <> 8 -> b <> 9 -> N.testbit v b = N.testbit (m (Mmio dev a)) b) /\
  forall l, l <> Mmio dev a -> final l = Some (m l).
Proof.
  intros phys dev m tr out Sm R K final.
  assert (X : forall xs, Forall good xs -> agree final (puts dev xs m) -> out = Some tt -> xs = [(REG_FCTRL, 9, 9, 1); (REG_FCTRL, 8, 8, 1)] \/
    (N.testbit (m (Mmio dev REG_RXCTRL)) 0 = true /\ xs = [(REG_RXCTRL, 0, 0, 0); (REG_FCTRL, 9, 9, 1); (REG_FCTRL, 8, 8, 1); (REG_RXCTRL, 0, 0, 1)]) ->
    out = Some tt /\ seen final dev 0 "FCTRL" "UPE" = Some 1 /\ seen final dev 0 "FCTRL" "MPE" = Some 1 /\
    exists a, at_reg "FCTRL" 0 a /\ (exists v, final (Mmio dev a) = Some v /\ forall b, b <> 8 -> b <> 9 -> N.testbit v b = N.testbit (m (Mmio dev a)) b) /\
    forall l, l <> Mmio dev a -> final l = Some (m l)).
  { intros xs G A O H. split; [exact O|].
    assert (S : settled REG_FCTRL 9 9 1 xs /\ settled REG_FCTRL 8 8 1 xs).
    { destruct H as [->|[_ ->]].
      - cbn [settled]. split; [right|left; right]; (split; [repeat split; reflexivity|repeat constructor; cbn [leaves]; right; lia]).
      - cbn [settled]. split; [left; right|left; left; right]; (split; [repeat split; reflexivity|]); repeat constructor; cbn [leaves]; unfold REG_RXCTRL, REG_FCTRL; lia. }
    destruct S as [S1 S2].
    split; [cbn -[bits]; unfold seen; cbn -[bits]; rewrite A; cbn [option_map]; f_equal; apply puts_settled; [exact G|exact Sm|lia|exact S1]|].
    split; [cbn -[bits]; unfold seen; cbn -[bits]; rewrite A; cbn [option_map]; f_equal; apply puts_settled; [exact G|exact Sm|lia|exact S2]|].
    exists REG_FCTRL. split; [eexists; split; [reflexivity|inst]|]. split.
    - eexists. split; [apply A|]. intros b Hb8 Hb9.
      assert (B : forall o n v, o < 2 ^ 32 -> n <= 31 -> v < 2 -> n <> b -> N.testbit (field_write o (BITS n n) v) b = N.testbit o b).
      { intros o n v Ho Hn Hv Hne. rewrite testbit_field_write; [|lia|exact Ho|replace (n + 1 - n) with 1 by lia; exact Hv].
        destruct (N.leb_spec n b), (N.leb_spec b n); cbn [andb]; try reflexivity. lia. }
      assert (P : forall m', small m' -> forall n v, n <= 31 -> v < 2 -> n <> b -> N.testbit (put dev m' (REG_FCTRL, n, n, v) (Mmio dev REG_FCTRL)) b = N.testbit (m' (Mmio dev REG_FCTRL)) b).
      { intros m' Sm' n v Hn Hv Hne. cbn [put]. rewrite (proj2 (loc_eqb_eq _ _) eq_refl). apply B; auto. }
      assert (P' : forall m' n v, put dev m' (REG_RXCTRL, n, n, v) (Mmio dev REG_FCTRL) = m' (Mmio dev REG_FCTRL)).
      { intros m' n v. cbn [put]. destruct (loc_eqb _ _) eqn:E; [|reflexivity]. apply loc_eqb_eq in E. discriminate. }
      destruct H as [->|[_ ->]]; cbn [puts fold_left]; inversion G as [|x1 xs1 G1 F1]; subst; inversion F1 as [|x2 xs2 G2 F2]; subst.
      + rewrite !P; try lia; try exact Sm; try reflexivity. apply put_small; assumption.
      + inversion F2 as [|x3 xs3 G3 F3]; subst. rewrite P'. rewrite P; [|repeat apply put_small; assumption|lia|reflexivity|lia].
        rewrite P; [|repeat apply put_small; assumption|lia|reflexivity|lia]. rewrite P'. reflexivity.
    - intros l Hl. rewrite A. f_equal. destruct H as [->|[T ->]].
      + apply puts_other. cbn [In fst]. intros x [<-|[<-|[]]]; cbn [fst]; congruence.
      + destruct (loc_eqb (Mmio dev REG_RXCTRL) l) eqn:E.
        * apply loc_eqb_eq in E. subst l. cbn [puts fold_left put].
          assert (Q1 : loc_eqb (Mmio dev REG_RXCTRL) (Mmio dev REG_RXCTRL) = true) by (apply loc_eqb_eq; reflexivity).
          assert (Q2 : loc_eqb (Mmio dev REG_FCTRL) (Mmio dev REG_RXCTRL) = false).
          { destruct (loc_eqb (Mmio dev REG_FCTRL) (Mmio dev REG_RXCTRL)) eqn:Q; [|reflexivity]. apply loc_eqb_eq in Q. discriminate. }
          rewrite !Q1, !Q2. apply N.bits_inj. intros b. assert (L := Sm (Mmio dev REG_RXCTRL)).
          rewrite testbit_field_write; [|lia|apply field_write_lt; first [exact L|reflexivity|lia]|reflexivity]. rewrite testbit_field_write; [|lia|exact L|reflexivity].
          destruct (N.leb_spec 0 b), (N.leb_spec b 0); cbn [andb]; try reflexivity. assert (b = 0) as -> by lia. symmetry. exact T.
        * apply puts_other. intros x Hx C. cbn [In] in Hx. destruct Hx as [<-|[<-|[<-|[<-|[]]]]]; cbn [fst] in C; try congruence;
          rewrite <- C in E; rewrite (proj2 (loc_eqb_eq _ _) eq_refl) in E; discriminate. }
  assert (G2 : forall xs, xs = [(REG_FCTRL, 9, 9, 1); (REG_FCTRL, 8, 8, 1)] \/ xs = [(REG_RXCTRL, 0, 0, 0); (REG_FCTRL, 9, 9, 1); (REG_FCTRL, 8, 8, 1); (REG_RXCTRL, 0, 0, 1)] -> Forall good xs).
  { intros xs [->| ->]; apply goodb_ok; reflexivity. }
  assert (Y : surely (held phys) (set_promiscuous dev) (holding m) (fun _ w => exists xs, (xs = [(REG_FCTRL, 9, 9, 1); (REG_FCTRL, 8, 8, 1)] \/
    (N.testbit (m (Mmio dev REG_RXCTRL)) 0 = true /\ xs = [(REG_RXCTRL, 0, 0, 0); (REG_FCTRL, 9, 9, 1); (REG_FCTRL, 8, 8, 1); (REG_RXCTRL, 0, 0, 1)])) /\ agree w (puts dev xs m))).
  { unfold set_promiscuous.
    apply (test_at phys dev unit REG_RXCTRL 0 0 true (negb (N.testbit (m (Mmio dev REG_RXCTRL)) 0)) _ m); [lia|intros l; reflexivity|apply bits_clear|].
    intros w Hw. cbv iota. rewrite negb_involutive. destruct (N.testbit (m (Mmio dev REG_RXCTRL)) 0) eqn:T; cbn [when].
    - match goal with |- surely _ ?p w _ => assert (Z : exists xs, setsT phys dev p xs /\ xs = [(REG_RXCTRL, 0, 0, 0); (REG_FCTRL, 9, 9, 1); (REG_FCTRL, 8, 8, 1); (REG_RXCTRL, 0, 0, 1)]) end. { eexists. split.
        apply (sets_then phys dev (fun _ => True) (fun _ => True) (harmless_T dev)); [apply (sets_clear phys dev (fun _ => True) (fun _ => True)); [lia|exact I]|].
        apply (sets_then phys dev (fun _ => True) (fun _ => True) (harmless_T dev)); [apply (sets_set phys dev (fun _ => True) (fun _ => True)); [lia|exact I]|].
        apply (sets_then phys dev (fun _ => True) (fun _ => True) (harmless_T dev)); [apply (sets_set phys dev (fun _ => True) (fun _ => True)); [lia|exact I]|].
        apply (sets_set phys dev (fun _ => True) (fun _ => True)); [lia|exact I]. reflexivity. }
      destruct Z as (zs & Z & ->). eapply surely_mono; [|apply (Z w m Hw Sm I)]. cbv beta. intros _ w' (xs & -> & _ & A). eexists. split; [right; split; reflexivity|exact A].
    - cbn [bind]. match goal with |- surely _ ?p w _ => assert (Z : exists xs, setsT phys dev p xs /\ xs = [(REG_FCTRL, 9, 9, 1); (REG_FCTRL, 8, 8, 1)]) end. { eexists. split.
        apply (sets_then phys dev (fun _ => True) (fun _ => True) (harmless_T dev)); [apply (sets_set phys dev (fun _ => True) (fun _ => True)); [lia|exact I]|].
        apply (sets_then phys dev (fun _ => True) (fun _ => True) (harmless_T dev)); [apply (sets_set phys dev (fun _ => True) (fun _ => True)); [lia|exact I]|].
        apply sets_none. reflexivity. }
      destruct Z as (zs & Z & ->). eapply surely_mono; [|apply (Z w m Hw Sm I)]. cbv beta. intros _ w' (xs & -> & _ & A). eexists. split; [left; reflexivity|exact A]. }
  destruct (surely_sound _ _ _ _ _ R _ _ Y K) as ([] & O & xs & H & A). apply (X xs); auto. apply G2. destruct H as [H|[_ H]]; auto.
Qed.
Print Assumptions C125_promiscuous.
(** Whatever the card answers, the filter is changed only while reception was last seen or
    set disabled. *)
Theorem C125_disabled : forall dev vw tr out, runs (set_promiscuous dev) tr out ->
  along (fun w e => match e with
    | EWrite l _ => forall a b, at_reg "FCTRL" 0 a -> at_reg "RXCTRL" 0 b -> l = Mmio dev a -> exists o, w (Mmio dev b) = Some o /\ N.testbit o 0 = false
    | _ => True end) vw tr.
Proof.
  intros dev vw tr out R.
  destruct (safe_sound any0 (fun w e => match e with
    | EWrite l _ => l = Mmio dev REG_FCTRL -> exists o, w (Mmio dev REG_RXCTRL) = Some o /\ N.testbit o 0 = false | _ => True end) _ _ _ _ R vw (fun _ _ => True)) as [H _].
  - unfold set_promiscuous. eapply safe_then with (R := fun t w => exists v, v < 2 ^ 32 /\ w (Mmio dev REG_RXCTRL) = Some v /\ t = N.testbit v 0).
    { apply (safe_cleared any0 _ dev REG_RXCTRL 0 0 true); [lia|]. intros v Hv _. split; [exact I|]. intros w Hw _. exists v. split; [exact Hv|]. split; [exact Hw|].
      rewrite bits_clear, negb_involutive. reflexivity. }
    intros t w (v & Hv & Hw & ->). set (ok := fun w e => _).
    assert (N1 : Mmio dev REG_FCTRL <> Mmio dev REG_RXCTRL) by (apply neq_reg; vm_compute; discriminate).
    assert (N2 : Mmio dev REG_RXCTRL <> Mmio dev REG_FCTRL) by congruence.
    eapply safe_then with (R := fun _ w => exists o, w (Mmio dev REG_RXCTRL) = Some o /\ N.testbit o 0 = false).
    { destruct (N.testbit v 0) eqn:T; cbn [when]; [|cbn [safe]; exists v; auto]. unfold reg_clear_field, reg_write_field, reg_read, reg_write. cbn [bind safe].
      intros o Ho _. split; [exact I|]. split; [intros C; contradiction|]. eexists. split; [apply upd_same|]. change (BIT 0) with (BITS 0 0).
      rewrite testbit_field_write; [reflexivity|lia|exact Ho|reflexivity]. }
    assert (F : forall n w, (exists o, w (Mmio dev REG_RXCTRL) = Some o /\ N.testbit o 0 = false) ->
      safe any0 ok (reg_set_field dev REG_FCTRL (BIT n)) w (fun _ w => exists o, w (Mmio dev REG_RXCTRL) = Some o /\ N.testbit o 0 = false)).
    { intros n w' (o & Ho & T). unfold reg_set_field, reg_read, reg_write. cbn [bind safe]. intros x Hx _. split; [exact I|].
      split; [intros _|]; exists o; rewrite ?upd_other by assumption; auto. }
    intros [] w1 H1. eapply safe_then; [apply F; exact H1|]. intros [] w2 H2. eapply safe_then; [apply F; exact H2|]. intros [] w3 H3.
    destruct (N.testbit v 0); cbn [when]; [|exact I]. unfold reg_set_field, reg_read, reg_write. cbn [bind safe]. intros x Hx _. split; [exact I|]. split; [intros C; contradiction|exact I].
  - intros p e q _. exact I.
  - eapply along_impl; [|exact H]. intros w [l v|l v|ns|d ph s|x v] K; try exact I. intros a b Ha Hb E. cbv beta iota in K.
    eapply at_reg_inv in Ha; [|reflexivity]. eapply at_reg_inv in Hb; [|reflexivity]. unfold instance in Ha, Hb. cbn [r_addr placed] in Ha, Hb.
    assert (a = REG_FCTRL) as -> by (unfold REG_FCTRL; lia). assert (b = REG_RXCTRL) as -> by (unfold REG_RXCTRL; lia). apply K. exact E.
Qed.
Print Assumptions C125_disabled.
Example C125_ex : (forall m dev, small m -> exists tr out, runs (set_promiscuous dev) tr out /\ keeps zero_at m tr) /\
  wrote_to (Mmio 0 0x5080) (fst (play zero_at (fun _ => 1) (set_promiscuous 0))) = [0x201; 0x301] /\
  wrote_to (Mmio 0 0x3000) (fst (play zero_at (fun _ => 1) (set_promiscuous 0))) = [0; 1].
Proof.
  split; [|split; vm_compute; reflexivity]. intros m dev Sm. destruct (play_ok zero_at _ _ _ _ m (fun _ => eq_refl) Sm (promiscuous_stage dev (fun _ => None))) as [R K].
  do 2 eexists. split; [exact R|]. apply K. intros l. reflexivity.
Qed.

(** ** C130: queues *)

(** One write, and what follows. *)
Lemma write_at : forall phys dev m w r v B (k : unit -> prog B) Q, v < 2 ^ 32 -> small m -> agree w m ->
  (forall w', agree w' (put dev m (r, 0, 31, v)) -> small (put dev m (r, 0, 31, v)) -> surely (held phys) (k tt) w' Q) -> surely (held phys) (bind (reg_write dev r v) k) w Q.
Proof.
  intros phys dev m w r v B k Q Hv Sm Hw H. apply (sets_at phys dev _ [(r, 0, 31, v)] m); try assumption; [apply sets_write; [exact Hv|exact I]|].
  repeat constructor; [lia|lia|exact Hv].
Qed.
Lemma field_at : forall phys dev m w r s e v B (k : unit -> prog B) Q, good (r, s, e, v) -> small m -> agree w m ->
  (forall w', agree w' (put dev m (r, s, e, v)) -> small (put dev m (r, s, e, v)) -> surely (held phys) (k tt) w' Q) -> surely (held phys) (bind (reg_write_field dev r (BITS s e) v) k) w Q.
Proof.
  intros phys dev m w r s e v B k Q Hv Sm Hw H. apply (sets_at phys dev _ [(r, s, e, v)] m); try assumption; [apply sets_field; [exact Hv|exact I]|].
  repeat constructor; apply Hv.
Qed.
Lemma set_at : forall phys dev m w r n B (k : unit -> prog B) Q, n <= 31 -> small m -> agree w m ->
  (forall w', agree w' (put dev m (r, n, n, 1)) -> small (put dev m (r, n, n, 1)) -> surely (held phys) (k tt) w' Q) -> surely (held phys) (bind (reg_set_field dev r (BIT n)) k) w Q.
Proof.
  intros phys dev m w r n B k Q Hn Sm Hw H. apply (sets_at phys dev _ [(r, n, n, 1)] m); try assumption; [apply sets_set; [exact Hn|exact I]|].
  repeat constructor; try lia; replace (n + 1 - n) with 1 by lia; reflexivity.
Qed.
Lemma clear_at : forall phys dev m w r n B (k : unit -> prog B) Q, n <= 31 -> small m -> agree w m ->
  (forall w', agree w' (put dev m (r, n, n, 0)) -> small (put dev m (r, n, n, 0)) -> surely (held phys) (k tt) w' Q) -> surely (held phys) (bind (reg_clear_field dev r (BIT n)) k) w Q.
Proof.
  intros phys dev m w r n B k Q Hn Sm Hw H. apply (sets_at phys dev _ [(r, n, n, 0)] m); try assumption; [apply sets_clear; [exact Hn|exact I]|].
  repeat constructor; try lia; replace (n + 1 - n) with 1 by lia; reflexivity.
Qed.

Definition ring_of (phys : object -> N) : list N := map (fun n => (phys Buffer + N.of_nat n * 2048) mod 2 ^ 64) (seq 0 256).
(** The writes for an output queue. *)
Definition output_writes (ring head q : N) (enable : bool) : list setting :=
  [(REG_TDBAH q, 0, 31, u32 (N.shiftr ring 32)); (REG_TDBAL q, 0, 31, u32 ring); (REG_TDLEN q, 0, 31, 4096);
   (REG_TXDCTL q, 0, 6, 60); (REG_TXDCTL q, 8, 14, 4);
   (REG_TDWBAH q, 0, 31, u32 (N.shiftr head 32)); (REG_TDWBAL q, 0, 31, N.lor (u32 head) 1); (REG_DCATXCTRL q, 11, 11, 0)] ++
  (if enable then [(REG_DMATXCTL, 0, 0, 1)] else []) ++ [(REG_TXDCTL q, 25, 25, 1)].
Lemma u32_small : forall x, u32 x < 2 ^ 32. Proof. intros x. apply u32_lt. Qed.
Lemma lor1_small : forall x, N.lor (u32 x) 1 < 2 ^ 32.
Proof.
  intros x. destruct (N.eq_dec (N.lor (u32 x) 1) 0) as [->|Nz]; [reflexivity|]. apply N.log2_lt_pow2; [lia|]. rewrite N.log2_lor. apply N.max_lub_lt; [|reflexivity].
  destruct (N.eq_dec (u32 x) 0) as [->|N0]; [reflexivity|]. apply N.log2_lt_pow2; [lia|apply u32_lt].
Qed.
Ltac gd := repeat match goal with
  | |- Forall good [] => apply Forall_nil
  | |- Forall good (_ :: _) => apply Forall_cons; [unfold good; split; [lia|first [apply u32_small|apply lor1_small|reflexivity]]|]
  end.
Lemma output_good : forall ring head q b, Forall good (output_writes ring head q b).
Proof.
  intros ring head q b. unfold output_writes. destruct b; cbn [app]; gd.
Qed.
Lemma output_lands : forall phys ag dev d i q m, small m -> nth i (transmit_tails ag) None = None -> q < 128 ->
  bits (m (Mmio dev (REG_TXDCTL q))) 25 25 = 0 -> phys (Head i) mod 16 = 0 ->
  surely (held phys) (add_output ag dev d i q) (holding m) (fun r w =>
    r = (mkAgent (receive_tail ag) (update (rings ag) i (ring_of phys)) (update (transmit_tails ag) i (Some (Mmio dev (REG_TDT q)))), mkDevice (rx_enabled d) true) /\
    agree w (puts dev (output_writes (phys (Ring i)) (phys (Head i)) q (negb (tx_enabled d))) m)).
Proof.
  intros phys ag dev d i q m Sm Ht Hq Hf Hh. unfold add_output. rewrite Ht. cbn [when bind]. rewrite (proj2 (N.leb_gt 128 q) Hq). cbn [when bind].
  change (BIT 25) with (BITS 25 25) at 1. apply (test_at phys dev _ (REG_TXDCTL q) 25 25 false true _ m); [lia|intros l; reflexivity|rewrite Hf; reflexivity|].
  intros w Hw. cbv iota. cbn [negb when bind surely]. intros buf _ E. cbn [held] in E. subst buf. intros ring _ E. cbn [held] in E. subst ring.
  eapply write_at; [apply u32_small|exact Sm|exact Hw|]. clear w Hw. intros w Hw S1.
  eapply write_at; [apply u32_small|exact S1|exact Hw|]. clear w Hw. intros w Hw S2.
  eapply write_at; [reflexivity|exact S2|exact Hw|]. clear w Hw. intros w Hw S3.
  eapply field_at; [split; [lia|reflexivity]|exact S3|exact Hw|]. clear w Hw. intros w Hw S4.
  eapply field_at; [split; [lia|reflexivity]|exact S4|exact Hw|]. clear w Hw. intros w Hw S5.
  cbn [surely]. intros head _ E. cbn [held] in E. subst head. rewrite Hh. cbn [N.eqb negb when bind].
  eapply write_at; [apply u32_small|exact S5|exact Hw|]. clear w Hw. intros w Hw S6.
  eapply write_at; [apply lor1_small|exact S6|exact Hw|]. clear w Hw. intros w Hw S7.
  eapply clear_at; [lia|exact S7|exact Hw|]. clear w Hw. intros w Hw S8.
  match type of S8 with small ?x => set (m8 := x) in * end.
  assert (Z : forall m9 w9, small m9 -> agree w9 m9 -> surely (held phys) (
    reg_set_field dev (REG_TXDCTL q) (BIT 25) ;;
    let! late := if_after_timeout (1000 * 1000) (reg_is_field_cleared dev (REG_TXDCTL q) (BIT 25)) in
    when late Fatal ;;
    Ret (mkAgent (receive_tail ag) (update (rings ag) i (map (fun n => (phys Buffer + N.of_nat n * PACKET_BUFFER_SIZE) mod 2 ^ 64) (seq 0 256)))
               (update (transmit_tails ag) i (Some (Mmio dev (REG_TDT q)))),
       mkDevice (rx_enabled d) true)) w9 (fun r w =>
    r = (mkAgent (receive_tail ag) (update (rings ag) i (ring_of phys)) (update (transmit_tails ag) i (Some (Mmio dev (REG_TDT q)))), mkDevice (rx_enabled d) true) /\
    agree w (put dev m9 (REG_TXDCTL q, 25, 25, 1)))).
  { intros m9 w9 S9 H9. eapply set_at; [lia|exact S9|exact H9|]. intros w' Hw' S10. change (BIT 25) with (BITS 25 25).
    eapply wait_at; [lia|exact Hw'| |].
    - rewrite put_gives with (v' := 1); [discriminate|split; [lia|reflexivity]|exact S9|lia|]. repeat split; lia.
    - intros w'' Hw''. cbn [when bind surely]. split; [reflexivity|exact Hw'']. }
  unfold output_writes. destruct (tx_enabled d) eqn:D; cbn [negb when].
  - cbn [bind]. eapply surely_mono; [|apply (Z m8); assumption]. cbv beta. intros r w' [-> A]. rewrite ?D. split; [reflexivity|]. exact A.
  - eapply set_at; [lia|exact S8|exact Hw|]. intros w' Hw' S9. eapply surely_mono; [|apply (Z _ w' S9 Hw')]. cbv beta. intros r w'' [-> A]. split; [reflexivity|]. exact A.
Qed.

Lemma seen_after : forall name field i d f a vw dev xs m v, find_reg registers name = Some d -> place 0 (r_addr d) i = Some a -> find_field d field = Some f ->
  agree vw (puts dev xs m) -> Forall good xs -> small m -> f_start f <= f_end f -> settled a (f_start f) (f_end f) v xs -> seen vw dev i name field = Some v.
Proof.
  intros name field i d f a vw dev xs m v H1 H2 H3 A G Sm Hs S. rewrite (seen_reg _ _ _ _ _ _ vw dev _ H1 H2 H3 (A _)). f_equal. apply puts_settled; assumption.
Qed.
Lemma place_one : forall b q, q < 128 -> place 0 [(b, 64, 127)] q = Some (b + 64 * q).
Proof. intros b q H. cbn [place N.eqb]. rewrite (proj2 (N.leb_le 0 q)), (proj2 (N.leb_le q 127)) by lia. cbn [andb]. f_equal. lia. Qed.
Lemma bits_high : forall x, x < 2 ^ 64 -> bits (u32 (N.shiftr x 32)) 0 31 = x / 2 ^ 32.
Proof.
  intros x H. rewrite bits_small by apply u32_lt. unfold u32. rewrite N.shiftr_div_pow2. apply N.mod_small. apply N.div_lt_upper_bound; [discriminate|exact H].
Qed.
Lemma bits_low : forall x s, s <= 31 -> bits (u32 x) s 31 = (x mod 2 ^ 32) / 2 ^ s.
Proof.
  intros x s H. unfold bits, u32. apply N.mod_small. apply N.div_lt_upper_bound; [apply N.pow_nonzero; discriminate|]. rewrite <- N.pow_add_r.
  replace (s + (31 + 1 - s)) with 32 by lia. apply N.mod_lt. discriminate.
Qed.
Lemma bits_or1 : forall x s, 1 <= s <= 31 -> bits (N.lor x 1) s 31 = bits x s 31.
Proof.
  intros x s H. apply bits_eq; [lia|]. intros b Hb. rewrite N.lor_spec. replace (N.testbit 1 b) with false; [apply orb_false_r|]. symmetry. apply (N.pow2_bits_false 0 b). lia.
Qed.
Lemma bits_or0 : forall x, bits (N.lor x 1) 0 0 = 1.
Proof. intros x. rewrite bits_one, N.lor_spec. change (N.testbit 1 0) with true. rewrite orb_true_r. reflexivity. Qed.
Ltac gv := cbn [gives]; split; [exact eq_refl|]; split; [lia|]; split; [lia|]; first [reflexivity|assumption].
Ltac lv := repeat (apply Forall_cons; [cbn [leaves]; lia|]); apply Forall_nil.
Ltac settle := cbn [settled]; first [right; split; [gv|lv] | left; settle].
Ltac aft name field i a A G Sm :=
  eapply (seen_after name field i _ _ a); [reflexivity|first [apply place_one; assumption|reflexivity]|reflexivity|exact A|exact G|exact Sm|vm_compute; discriminate|cbn [f_start f_end]].
Ltac regq := unfold output_writes, REG_TDBAH, REG_TDBAL, REG_TDLEN, REG_TXDCTL, REG_TDWBAH, REG_TDWBAL, REG_DCATXCTRL, REG_DMATXCTL in *.
(** An output is set up, on a card that keeps what is written, when its place in the agent
    and its queue are free and its head is at a multiple of 16: the queue then has the
    physical addresses of its ring and its head, 256 descriptors of 16 bytes, its thresholds,
    write-back of its head without relaxed ordering, and is enabled, as is sending; all
    other registers are as they were. *)
Definition output_names : list string := ["TDBAH"; "TDBAL"; "TDLEN"; "TXDCTL"; "TDWBAH"; "TDWBAL"; "DCA_TXCTRL"]%string.
Theorem C130_output : forall phys ag dev d i q m tr out, (forall x, phys x < 2 ^ 64) -> small m ->
  nth i (transmit_tails ag) None = None -> q < 128 -> seen (holding m) dev q "TXDCTL" "ENABLE" = Some 0 -> phys (Head i) mod 16 = 0 ->
  runs (add_output ag dev d i q) tr out -> keeps phys m tr ->
  let final := view_after (holding m) tr in
  (exists ag' d' a, out = Some (ag', d') /\ at_reg "TDT" q a /\ tx_enabled d' = true /\ rx_enabled d' = rx_enabled d /\
     receive_tail ag' = receive_tail ag /\ transmit_tails ag' = update (transmit_tails ag) i (Some (Mmio dev a)) /\
     rings ag' = update (rings ag) i (map (fun n => (phys Buffer + N.of_nat n * 2048) mod 2 ^ 64) (seq 0 256))) /\
  seen final dev q "TDBAH" "TDBAH" = Some (phys (Ring i) / 2 ^ 32) /\ seen final dev q "TDBAL" "TDBAL" = Some (phys (Ring i) mod 2 ^ 32 / 2 ^ 7) /\
  seen final dev q "TDLEN" "LEN" = Some (256 * 16) /\ seen final dev q "TXDCTL" "PTHRESH" = Some 60 /\ seen final dev q "TXDCTL" "HTHRESH" = Some 4 /\
  seen final dev q "TDWBAH" "HeadWB_High" = Some (phys (Head i) / 2 ^ 32) /\ seen final dev q "TDWBAL" "HeadWB_Low" = Some (phys (Head i) mod 2 ^ 32 / 2 ^ 2) /\
  seen final dev q "TDWBAL" "Head_WB_En" = Some 1 /\ seen final dev q "DCA_TXCTRL" "TXdescWBROen" = Some 0 /\ seen final dev q "TXDCTL" "ENABLE" = Some 1 /\
  (tx_enabled d = false -> seen final dev 0 "DMATXCTL" "TE" = Some 1) /\
  (forall l, (forall name a, In name output_names -> at_reg name q a -> l <> Mmio dev a) -> (forall a, at_reg "DMATXCTL" 0 a -> l <> Mmio dev a) -> final l = Some (m l)).
Proof.
  intros phys ag dev d i q m tr out Hp Sm Ht Hq Hf Hh R K final.
  assert (Hf' : bits (m (Mmio dev (REG_TXDCTL q))) 25 25 = 0).
  { rewrite (seen_reg "TXDCTL" "ENABLE" q _ _ _ (holding m) dev _ eq_refl (place_one _ q Hq) eq_refl eq_refl) in Hf. injection Hf as Hf. exact Hf. }
  destruct (surely_sound _ _ _ _ _ R _ _ (output_lands phys ag dev d i q m Sm Ht Hq Hf' Hh) K) as (r & -> & -> & A). fold final in A.
  assert (G := output_good (phys (Ring i)) (phys (Head i)) q (negb (tx_enabled d))).
  split.
  { eexists. eexists. exists (REG_TDT q). split; [reflexivity|]. split; [exists (mkReg "TDT" [(24600, 64, 127)] 32 RW [mkF "TDT" 0 15 (Some 0) RW; mkF "Reserved" 16 31 (Some 0) RO]); split; [reflexivity|unfold REG_TDT; inst]|].
    cbn [tx_enabled rx_enabled receive_tail transmit_tails rings]. repeat split. }
  assert (E1 := bits_high _ (Hp (Ring i))). assert (E2 := bits_low (phys (Ring i)) 7 ltac:(lia)). assert (E3 := bits_high _ (Hp (Head i))).
  assert (E4 : bits (N.lor (u32 (phys (Head i))) 1) 2 31 = phys (Head i) mod 2 ^ 32 / 2 ^ 2) by (rewrite bits_or1 by lia; apply bits_low; lia).
  assert (E5 := bits_or0 (u32 (phys (Head i)))).
  set (ring := phys (Ring i)) in *. set (head := phys (Head i)) in *.
  assert (Z : forall b, b = negb (tx_enabled d) -> agree final (puts dev (output_writes ring head q b) m) -> Forall good (output_writes ring head q b)  ->
  seen final dev q "TDBAH" "TDBAH" = Some (ring / 2 ^ 32) /\ seen final dev q "TDBAL" "TDBAL" = Some (ring mod 2 ^ 32 / 2 ^ 7) /\
  seen final dev q "TDLEN" "LEN" = Some (256 * 16) /\ seen final dev q "TXDCTL" "PTHRESH" = Some 60 /\ seen final dev q "TXDCTL" "HTHRESH" = Some 4 /\
  seen final dev q "TDWBAH" "HeadWB_High" = Some (head / 2 ^ 32) /\ seen final dev q "TDWBAL" "HeadWB_Low" = Some (head mod 2 ^ 32 / 2 ^ 2) /\
  seen final dev q "TDWBAL" "Head_WB_En" = Some 1 /\ seen final dev q "DCA_TXCTRL" "TXdescWBROen" = Some 0 /\ seen final dev q "TXDCTL" "ENABLE" = Some 1 /\
  (tx_enabled d = false -> seen final dev 0 "DMATXCTL" "TE" = Some 1)).
  { clear A G Hf R K Hf'. intros b Hb A G. regq. 
    destruct b; cbn [app] in A, G;
    (split; [aft "TDBAH"%string "TDBAH"%string q (0x6004 + 64 * q) A G Sm; settle|]);
    (split; [aft "TDBAL"%string "TDBAL"%string q (0x6000 + 64 * q) A G Sm; settle|]);
    (split; [aft "TDLEN"%string "LEN"%string q (0x6008 + 64 * q) A G Sm; settle|]);
    (split; [aft "TXDCTL"%string "PTHRESH"%string q (0x6028 + 64 * q) A G Sm; settle|]);
    (split; [aft "TXDCTL"%string "HTHRESH"%string q (0x6028 + 64 * q) A G Sm; settle|]);
    (split; [aft "TDWBAH"%string "HeadWB_High"%string q (0x603C + 64 * q) A G Sm; settle|]);
    (split; [aft "TDWBAL"%string "HeadWB_Low"%string q (0x6038 + 64 * q) A G Sm; settle|]);
    (split; [aft "TDWBAL"%string "Head_WB_En"%string q (0x6038 + 64 * q) A G Sm; settle|]);
    (split; [aft "DCA_TXCTRL"%string "TXdescWBROen"%string q (0x600C + 64 * q) A G Sm; settle|]);
    (split; [aft "TXDCTL"%string "ENABLE"%string q (0x6028 + 64 * q) A G Sm; settle|]); intros D.
    - aft "DMATXCTL"%string "TE"%string 0 0x4A80 A G Sm. settle.
    - rewrite D in Hb. discriminate. }
  destruct (Z _ eq_refl A G) as (Z1 & Z2 & Z3 & Z4 & Z5 & Z6 & Z7 & Z8 & Z9 & Z10 & Z11). clear Z. repeat (split; [assumption|]).
  intros l H1 H2. rewrite A. f_equal. apply puts_other. intros x Hx E.
  assert (In (fst (fst (fst x))) [REG_TDBAH q; REG_TDBAL q; REG_TDLEN q; REG_TXDCTL q; REG_TDWBAH q; REG_TDWBAL q; REG_DCATXCTRL q; REG_DMATXCTL]).
  { unfold output_writes in Hx. apply in_app_or in Hx as [Hx|Hx]; [|apply in_app_or in Hx as [Hx|Hx]; [destruct (negb _)|]]; cbn [In] in Hx |- *;
    repeat (destruct Hx as [<-|Hx]; [cbn [fst]; tauto|]); contradiction. }
  assert (N1 : forall name b, In name output_names -> find_reg registers name <> None -> (forall dd, find_reg registers name = Some dd -> r_addr dd = [(b, 64, 127)]) -> Mmio dev (b + 64 * q) <> l).
  { intros name b Hn Hs Hd C. destruct (find_reg registers name) as [dd|] eqn:F; [|congruence]. apply (H1 name (b + 64 * q) Hn); [|congruence].
    exists dd. split; [exact F|]. unfold instance. rewrite (Hd dd eq_refl). cbn [placed]. lia. }
  revert E. cbn [In] in H.
  assert (NN : forall name b, existsb (String.eqb name) output_names = true -> (match find_reg registers name with Some dd => r_addr dd | None => [] end) = [(b, 64, 127)] -> Mmio dev (b + 64 * q) <> l).
  { intros name b Hn He. apply existsb_exists in Hn as (n' & Hn & Q). apply String.eqb_eq in Q. subst n'. apply (N1 name b Hn).
    - intros C. rewrite C in He. discriminate.
    - intros dd C. rewrite C in He. exact He. }
  destruct H as [<-|[<-|[<-|[<-|[<-|[<-|[<-|[<-|[]]]]]]]]].
  - apply (NN "TDBAH"%string); reflexivity.
  - apply (NN "TDBAL"%string); reflexivity.
  - apply (NN "TDLEN"%string); reflexivity.
  - apply (NN "TXDCTL"%string); reflexivity.
  - apply (NN "TDWBAH"%string); reflexivity.
  - apply (NN "TDWBAL"%string); reflexivity.
  - apply (NN "DCA_TXCTRL"%string); reflexivity.
  - intros C. apply (H2 REG_DMATXCTL); [eexists; split; [reflexivity|inst]|congruence].
Qed.
Print Assumptions C130_output.

(** The writes for the input queue. *)
Definition input_writes (ring : N) (enable : bool) : list setting :=
  [(REG_RDBAH 0, 0, 31, u32 (N.shiftr ring 32)); (REG_RDBAL 0, 0, 31, u32 ring); (REG_RDLEN 0, 0, 31, 4096); (REG_SRRCTL 0, 0, 4, 2); (REG_SRRCTL 0, 28, 28, 1);
   (REG_RXDCTL 0, 25, 25, 1); (REG_RDT 0, 0, 31, 255)] ++
  (if enable then [(REG_SECRXCTRL, 1, 1, 1); (REG_RXCTRL, 0, 0, 1); (REG_SECRXCTRL, 1, 1, 0); (REG_CTRLEXT, 16, 16, 1)] else []) ++ [(REG_DCARXCTRL 0, 12, 12, 0)].
Lemma input_good : forall ring b, Forall good (input_writes ring b).
Proof. intros ring b. unfold input_writes. destruct b; cbn [app]; gd. Qed.
Lemma input_lands : forall phys ag dev d m, small m -> receive_tail ag = None -> nth 0 (transmit_tails ag) None <> None ->
  bits (m (Mmio dev (REG_RXDCTL 0))) 25 25 = 0 -> bits (m (Mmio dev REG_SECRXSTAT)) 0 0 = 1 ->
  surely (held phys) (set_input ag dev d) (holding m) (fun r w =>
    r = (mkAgent (Some (Mmio dev (REG_RDT 0))) (rings ag) (transmit_tails ag), mkDevice true (tx_enabled d)) /\
    agree w (puts dev (input_writes (phys (Ring 0)) (negb (rx_enabled d))) m)).
Proof.
  intros phys ag dev d m Sm Ht H0 Hf Hy. unfold set_input. rewrite Ht. cbn [when bind]. destruct (nth 0 (transmit_tails ag) None); [|congruence]. cbn [when bind].
  change (BIT 25) with (BITS 25 25) at 1. apply (test_at phys dev _ (REG_RXDCTL 0) 25 25 false true _ m); [lia|intros x; reflexivity|rewrite Hf; reflexivity|].
  intros w Hw. cbv iota. cbn [negb when bind surely]. intros ring _ E. cbn [held] in E. subst ring.
  eapply write_at; [apply u32_small|exact Sm|exact Hw|]. clear w Hw. intros w Hw S1.
  eapply write_at; [apply u32_small|exact S1|exact Hw|]. clear w Hw. intros w Hw S2.
  eapply write_at; [reflexivity|exact S2|exact Hw|]. clear w Hw. intros w Hw S3.
  eapply field_at; [split; [lia|reflexivity]|exact S3|exact Hw|]. clear w Hw. intros w Hw S4.
  eapply set_at; [lia|exact S4|exact Hw|]. clear w Hw. intros w Hw S5.
  eapply set_at; [lia|exact S5|exact Hw|]. clear w Hw. intros w Hw S6.
  change (BIT 25) with (BITS 25 25). eapply wait_at; [lia|exact Hw| |].
  { rewrite put_gives with (v' := 1); [discriminate|split; [lia|reflexivity]|exact S5|lia|]. repeat split; lia. }
  clear w Hw. intros w Hw. cbn [when bind].
  eapply write_at; [reflexivity|exact S6|exact Hw|]. clear w Hw. intros w Hw S7.
  match type of S7 with small ?x => set (m7 := x) in * end.
  assert (Y7 : bits (m7 (Mmio dev REG_SECRXSTAT)) 0 0 = 1).
  { rewrite <- Hy. unfold m7. cbn [put]. unfold REG_RDT, REG_RXDCTL, REG_SRRCTL, REG_RDLEN, REG_RDBAL, REG_RDBAH.
    repeat (match goal with |- context [loc_eqb (Mmio dev ?a) (Mmio dev ?b)] => replace (loc_eqb (Mmio dev a) (Mmio dev b)) with false
      by (destruct (loc_eqb (Mmio dev a) (Mmio dev b)) eqn:Q; [apply loc_eqb_eq in Q; discriminate|reflexivity]) end). reflexivity. }
  assert (Z : forall m9 w9, small m9 -> agree w9 m9 -> surely (held phys) (
    reg_clear_field dev (REG_DCARXCTRL 0) (BIT 12) ;;
    Ret (mkAgent (Some (Mmio dev (REG_RDT 0))) (rings ag) (transmit_tails ag), mkDevice true (tx_enabled d))) w9 (fun r w =>
    r = (mkAgent (Some (Mmio dev (REG_RDT 0))) (rings ag) (transmit_tails ag), mkDevice true (tx_enabled d)) /\
    agree w (put dev m9 (REG_DCARXCTRL 0, 12, 12, 0)))).
  { intros m9 w9 S9 H9. eapply clear_at; [lia|exact S9|exact H9|]. intros w' Hw' S10. cbn [surely]. split; [reflexivity|exact Hw']. }
  unfold input_writes. destruct (rx_enabled d) eqn:D; cbn [negb when].
  - cbn [bind]. eapply surely_mono; [|apply (Z m7); assumption]. cbv beta. intros r w' [-> A]. split; [reflexivity|]. exact A.
  - eapply surely_then with (R := fun _ w => agree w (puts dev [(REG_SECRXCTRL, 1, 1, 1); (REG_RXCTRL, 0, 0, 1); (REG_SECRXCTRL, 1, 1, 0); (REG_CTRLEXT, 16, 16, 1)] m7)).
    { eapply set_at; [lia|exact S7|exact Hw|]. intros w1 H1 S8. change (BIT 0) with (BITS 0 0) at 1.
      eapply wait_at; [lia|exact H1| |].
      { rewrite put_leaves with (v' := 1); [discriminate|split; [lia|reflexivity]|exact S7|lia| |exact Y7]. left. vm_compute. discriminate. }
      intros w2 H2. cbn [when bind]. eapply set_at; [lia|exact S8|exact H2|]. intros w3 H3 S9. eapply clear_at; [lia|exact S9|exact H3|]. intros w4 H4 S10.
      assert (X := sets_set phys dev (fun _ => True) (fun _ => True) REG_CTRLEXT 16 ltac:(lia) I w4 _ H4 S10 I). eapply surely_mono; [|exact X].
      cbv beta. intros [] w5 (xs & -> & _ & A). exact A. }
    intros [] w' A. match type of A with agree _ ?x => eapply surely_mono; [|apply (Z x w'); [|exact A]] end.
    + cbv beta. intros r w'' [-> A']. split; [reflexivity|]. exact A'.
    + apply puts_small; [gd|exact S7].
Qed.
Definition input_names : list string := ["RDBAH"; "RDBAL"; "RDLEN"; "SRRCTL"; "RXDCTL"; "RDT"; "SECRXCTRL"; "RXCTRL"; "CTRL_EXT"; "DCA_RXCTRL"]%string.
(** An input is set up likewise, when the agent has an output and no input, and the card has
    drained its security block: queue 0 shares the ring of output 0, accepts packets of
    2048 bytes, drops packets when it has no descriptors, has all but one of its descriptors,
    and is enabled, as is reception, with the security block enabled again. *)
Theorem C130_input : forall phys ag dev d m tr out, (forall x, phys x < 2 ^ 64) -> small m -> receive_tail ag = None -> nth 0 (transmit_tails ag) None <> None ->
  seen (holding m) dev 0 "RXDCTL" "ENABLE" = Some 0 -> seen (holding m) dev 0 "SECRXSTAT" "SECRX_RDY" = Some 1 ->
  runs (set_input ag dev d) tr out -> keeps phys m tr ->
  let final := view_after (holding m) tr in
  (exists ag' d' a, out = Some (ag', d') /\ at_reg "RDT" 0 a /\ rx_enabled d' = true /\ tx_enabled d' = tx_enabled d /\
     receive_tail ag' = Some (Mmio dev a) /\ transmit_tails ag' = transmit_tails ag /\ rings ag' = rings ag) /\
  seen final dev 0 "RDBAH" "RDBAH" = Some (phys (Ring 0) / 2 ^ 32) /\ seen final dev 0 "RDBAL" "RDBAL" = Some (phys (Ring 0) mod 2 ^ 32 / 2 ^ 7) /\
  seen final dev 0 "RDLEN" "LEN" = Some (256 * 16) /\ seen final dev 0 "SRRCTL" "BSIZEPACKET" = Some (2048 / 1024) /\ seen final dev 0 "SRRCTL" "Drop_En" = Some 1 /\
  seen final dev 0 "RXDCTL" "ENABLE" = Some 1 /\ seen final dev 0 "RDT" "RDT" = Some (256 - 1) /\ seen final dev 0 "DCA_RXCTRL" "Special_Reserved" = Some 0 /\
  (rx_enabled d = false -> seen final dev 0 "RXCTRL" "RXEN" = Some 1 /\ seen final dev 0 "SECRXCTRL" "RX_DIS" = Some 0 /\ seen final dev 0 "CTRL_EXT" "NS_DIS" = Some 1) /\
  (forall l, (forall name a, In name input_names -> at_reg name 0 a -> l <> Mmio dev a) -> final l = Some (m l)).
Proof.
  intros phys ag dev d m tr out Hp Sm Ht H0 Hf Hy R K final. injection Hf as Hf. injection Hy as Hy.
  destruct (surely_sound _ _ _ _ _ R _ _ (input_lands phys ag dev d m Sm Ht H0 Hf Hy) K) as (r & -> & -> & A). fold final in A.
  assert (G := input_good (phys (Ring 0)) (negb (rx_enabled d))).
  split.
  { eexists. eexists. exists (REG_RDT 0). split; [reflexivity|]. split; [eexists; split; [reflexivity|unfold REG_RDT; inst]|].
    cbn [tx_enabled rx_enabled receive_tail transmit_tails rings]. repeat split. }
  assert (E1 := bits_high _ (Hp (Ring 0))). assert (E2 := bits_low (phys (Ring 0)) 7 ltac:(lia)). set (ring := phys (Ring 0)) in *.
  assert (Z : forall b, b = negb (rx_enabled d) -> agree final (puts dev (input_writes ring b) m) -> Forall good (input_writes ring b)  ->
  seen final dev 0 "RDBAH" "RDBAH" = Some (ring / 2 ^ 32) /\ seen final dev 0 "RDBAL" "RDBAL" = Some (ring mod 2 ^ 32 / 2 ^ 7) /\
  seen final dev 0 "RDLEN" "LEN" = Some (256 * 16) /\ seen final dev 0 "SRRCTL" "BSIZEPACKET" = Some (2048 / 1024) /\ seen final dev 0 "SRRCTL" "Drop_En" = Some 1 /\
  seen final dev 0 "RXDCTL" "ENABLE" = Some 1 /\ seen final dev 0 "RDT" "RDT" = Some (256 - 1) /\ seen final dev 0 "DCA_RXCTRL" "Special_Reserved" = Some 0 /\
  (rx_enabled d = false -> seen final dev 0 "RXCTRL" "RXEN" = Some 1 /\ seen final dev 0 "SECRXCTRL" "RX_DIS" = Some 0 /\ seen final dev 0 "CTRL_EXT" "NS_DIS" = Some 1)).
  { clear A G Hf R K Hy. intros b Hb A G.
    unfold input_writes, REG_RDBAH, REG_RDBAL, REG_RDLEN, REG_SRRCTL, REG_RXDCTL, REG_RDT, REG_DCARXCTRL, REG_SECRXCTRL, REG_RXCTRL, REG_CTRLEXT in *.
    repeat match type of A with context [rxq ?a ?b 0] => let c := eval vm_compute in (rxq a b 0) in change (rxq a b 0) with c in A, G end.
    destruct b; cbn [app] in A, G;
    (split; [aft "RDBAH"%string "RDBAH"%string 0 0x1004 A G Sm; settle|]);
    (split; [aft "RDBAL"%string "RDBAL"%string 0 0x1000 A G Sm; settle|]);
    (split; [aft "RDLEN"%string "LEN"%string 0 0x1008 A G Sm; settle|]);
    (split; [aft "SRRCTL"%string "BSIZEPACKET"%string 0 0x1014 A G Sm; settle|]);
    (split; [aft "SRRCTL"%string "Drop_En"%string 0 0x1014 A G Sm; settle|]);
    (split; [aft "RXDCTL"%string "ENABLE"%string 0 0x1028 A G Sm; settle|]);
    (split; [aft "RDT"%string "RDT"%string 0 0x1018 A G Sm; settle|]);
    (split; [aft "DCA_RXCTRL"%string "Special_Reserved"%string 0 0x100C A G Sm; settle|]); intros D.
    - split; [|split]; [aft "RXCTRL"%string "RXEN"%string 0 0x3000 A G Sm|aft "SECRXCTRL"%string "RX_DIS"%string 0 0x8D00 A G Sm|aft "CTRL_EXT"%string "NS_DIS"%string 0 0x18 A G Sm]; settle.
    - rewrite D in Hb. discriminate. }
  destruct (Z _ eq_refl A G) as (Z1 & Z2 & Z3 & Z4 & Z5 & Z6 & Z7 & Z8 & Z9). clear Z. repeat (split; [assumption|]).
  intros l H1. rewrite A. f_equal. apply puts_other. intros x Hx E.
  assert (NN : forall name b, existsb (String.eqb name) input_names = true -> (match find_reg registers name with Some dd => placedb 0 (r_addr dd) 0 b | None => false end) = true -> Mmio dev b <> l).
  { intros name b Hn He C. apply existsb_exists in Hn as (n' & Hn & Q). apply String.eqb_eq in Q. subst n'. destruct (find_reg registers name) as [dd|] eqn:F; [|discriminate].
    apply (H1 name b Hn); [|congruence]. exists dd. split; [exact F|]. apply placedb_ok. exact He. }
  revert E. assert (In (fst (fst (fst x))) [REG_RDBAH 0; REG_RDBAL 0; REG_RDLEN 0; REG_SRRCTL 0; REG_RXDCTL 0; REG_RDT 0; REG_SECRXCTRL; REG_RXCTRL; REG_CTRLEXT; REG_DCARXCTRL 0]).
  { unfold input_writes in Hx. apply in_app_or in Hx as [Hx|Hx]; [|apply in_app_or in Hx as [Hx|Hx]; [destruct (negb _)|]]; cbn [In] in Hx |- *;
    repeat (destruct Hx as [<-|Hx]; [cbn [fst]; tauto|]); contradiction. }
  cbn [In] in H. destruct H as [<-|[<-|[<-|[<-|[<-|[<-|[<-|[<-|[<-|[<-|[]]]]]]]]]]].
  - apply (NN "RDBAH"%string); reflexivity.
  - apply (NN "RDBAL"%string); reflexivity.
  - apply (NN "RDLEN"%string); reflexivity.
  - apply (NN "SRRCTL"%string); reflexivity.
  - apply (NN "RXDCTL"%string); reflexivity.
  - apply (NN "RDT"%string); reflexivity.
  - apply (NN "SECRXCTRL"%string); reflexivity.
  - apply (NN "RXCTRL"%string); reflexivity.
  - apply (NN "CTRL_EXT"%string); reflexivity.
  - apply (NN "DCA_RXCTRL"%string); reflexivity.
Qed.
Print Assumptions C130_input.
(** The buffers of a ring's descriptors are 256 separate parts, of 2048 bytes, of the agent's
    buffer, when that does not reach the end of memory. *)
Theorem C130_ring : forall base n n', base + 256 * 2048 <= 2 ^ 64 -> (n < 256)%nat -> (n' < 256)%nat ->
  let ring := map (fun n => (base + N.of_nat n * 2048) mod 2 ^ 64) (seq 0 256) in
  List.length ring = 256%nat /\ base <= nth n ring 0 /\ nth n ring 0 + 2048 <= base + 256 * 2048 /\
  (n <> n' -> nth n ring 0 + 2048 <= nth n' ring 0 \/ nth n' ring 0 + 2048 <= nth n ring 0).
Proof.
  intros base n n' Hb Hn Hn' ring.
  assert (E : forall k, (k < 256)%nat -> nth k ring 0 = base + N.of_nat k * 2048).
  { intros k Hk. unfold ring. rewrite (nth_indep _ 0 ((base + N.of_nat 0 * 2048) mod 2 ^ 64)) by (rewrite map_length, seq_length; exact Hk).
    rewrite (map_nth (fun n => (base + N.of_nat n * 2048) mod 2 ^ 64) (seq 0 256) 0%nat k), seq_nth by exact Hk. apply N.mod_small. cbn [Nat.add].
    assert (N.of_nat k <= 255) by lia. lia. }
  split; [unfold ring; rewrite map_length, seq_length; reflexivity|]. rewrite !E by assumption. lia.
Qed.
Print Assumptions C130_ring.
(** Three cards: the agent of card 1 has its outputs on the others. *)
Definition at_4096 : object -> N := fun _ => 4096.
Example C130_ex : let m l := match l with Mmio _ 0x8D04 => 1 | _ => 0 end in
  (forall ag dev d i q m, small m -> exists tr out, runs (add_output ag dev d i q) tr out /\ keeps at_4096 m tr) /\
  (forall ag dev d m, small m -> exists tr out, runs (set_input ag dev d) tr out /\ keeps at_4096 m tr) /\
  seen (holding m) 1 5 "TXDCTL" "ENABLE" = Some 0 /\ seen (holding m) 1 0 "RXDCTL" "ENABLE" = Some 0 /\ seen (holding m) 1 0 "SECRXSTAT" "SECRX_RDY" = Some 1 /\
  snd (play at_4096 m (set_input (mkAgent None [] [Some (Mmio 0 0x6018)]) 1 fresh)) = Some (mkAgent (Some (Mmio 1 0x1018)) [] [Some (Mmio 0 0x6018)], mkDevice true false).
Proof.
  intros m. split; [|split; [|repeat split; vm_compute; reflexivity]].
  - clear m. intros ag dev d i q m Sm. destruct (play_ok at_4096 _ _ _ _ m (fun _ => eq_refl) Sm (output_stage ag dev d i q (fun _ => None))) as [R K].
    do 2 eexists. split; [exact R|]. apply K. intros l. reflexivity.
  - clear m. intros ag dev d m Sm. destruct (play_ok at_4096 _ _ _ _ m (fun _ => eq_refl) Sm (input_stage ag dev d (fun _ => None))) as [R K].
    do 2 eexists. split; [exact R|]. apply K. intros l. reflexivity.
Qed.
