(** * PCI configuration through I/O ports

    Models tool/kalm/plugins/pci.py and the port instructions of tool/kalm/engine.py 11-29. *)

From Coq Require Import NArith List Bool Lia.
From Verif Require Import Expr Solver Regs RegFacts.
Import ListNotations.
Open Scope N_scope.

(** The address tuple: bus, device, function, register. *)
Definition bdfr := (bv * bv * bv * bv)%type.
(** PciPlugin's [_address] and [_flushed], pci.py 6-11. *)
Record pci := mkPci { p_address : option bdfr; p_flushed : bool }.
Definition pci_init : pci := mkPci None false.
(** What the handlers are called with: a read of an address, a write of a value to it. *)
Inductive access_event := PRead (a : bdfr) | PWrite (a : bdfr) (data : bv).

(** _parse_address, pci.py 54-60.  [simplify] keeps the value and is left out.  The
    exclusive or needs 32 bits on both sides. *)
Definition parse_address (data : bv) : res bdfr :=
  if negb (width data =? 32) then Err
  else let data := BvXor data (BVV 32 0x80000000) in
  Ok (BvExtract 23 16 data, BvExtract 15 11 data, BvExtract 10 8 data, BvExtract 7 0 data).

(** handle_in, pci.py 31-37; the size is not looked at. *)
Definition handle_in (p : pci) (port size : N) : res access_event :=
  if negb (port =? 0xCFC) then Err
  else if negb (p_flushed p) then Err
  else match p_address p with Some a => Ok (PRead a) | None => Err end.
(** handle_out, pci.py 39-51. *)
Definition handle_out (p : pci) (port : N) (data : bv) (size : N) : res (pci * option access_event) :=
  if port =? 0xCF8 then do a <- parse_address data ; Ok (mkPci (Some a) false, None)
  else if port =? 0x80 then
    Ok (match p_address p with Some a => mkPci (Some a) true | None => p end, None)
  else if port =? 0xCFC then
    if negb (p_flushed p) then Err
    else match p_address p with Some a => Ok (p, Some (PWrite a data)) | None => Err end
  else Err.

(** The instructions, engine.py 11-29: an [out] passes the low [size] bytes of a 32-bit
    value; the port and the size are concrete. *)
Inductive instr := In_ (port size : N) | Out_ (port : N) (data : bv) (size : N).
Definition step (p : pci) (i : instr) : res (pci * option access_event) :=
  match i with
  | In_ port size => do e <- handle_in p port size ; Ok (p, Some e)
  | Out_ port data size => do d <- slice data (size * 8 - 1) 0 ; handle_out p port d size
  end.
Fixpoint run (p : pci) (is : list instr) : res (pci * list access_event) :=
  match is with
  | [] => Ok (p, [])
  | i :: is =>
      do r <- step p i ;
      do r' <- run (fst r) is ;
      Ok (fst r', match snd r with Some e => e :: snd r' | None => snd r' end)
  end.

(** merge, pci.py 17-22: the address is forgotten. *)
Definition pci_merge (_ : pci) : pci := pci_init.

(** ** What the ports mean *)

(** The last value written to the address port, and whether port 0x80 was written since,
    in a sequence of instructions with the latest first. *)
Fixpoint last_address (is : list instr) : option bv :=
  match is with
  | [] => None
  | Out_ 0xCF8 data _ :: _ => Some data
  | _ :: is => last_address is
  end.
Fixpoint flushed_since (is : list instr) : bool :=
  match is with
  | [] => false
  | Out_ 0xCF8 _ _ :: _ => false
  | Out_ 0x80 _ _ :: is => match last_address is with Some _ => true | None => false end
  | _ :: is => flushed_since is
  end.
Definition event_address (e : access_event) : bdfr := match e with PRead a => a | PWrite a _ => a end.
(** The bus, device, function and register of a configuration address:
    bits 23-16, 15-11, 10-8 and 7-0. *)
Definition decodes (r : env) (a : bdfr) (v : N) : Prop :=
  match a with (b, d, f, g) =>
    ev r b = v / 2 ^ 16 mod 2 ^ 8 /\ ev r d = v / 2 ^ 11 mod 2 ^ 5 /\ ev r f = v / 2 ^ 8 mod 2 ^ 3 /\ ev r g = v mod 2 ^ 8
  end.

Lemma xor_low : forall v n w, n + w <= 31 -> N.lxor v 0x80000000 / 2 ^ n mod 2 ^ w = v / 2 ^ n mod 2 ^ w.
Proof.
  intros v n w H. apply N.bits_inj. intros i. change (?a mod 2 ^ ?w) with (wrap w a). rewrite !testbit_wrap, !N.div_pow2_bits, N.lxor_spec.
  destruct (N.ltb_spec i w) as [Hi|Hi]; [|reflexivity]. cbn [andb]. change 0x80000000 with (2 ^ 31).
  rewrite N.pow2_bits_false by lia. apply xorb_false_r.
Qed.
Lemma parse_spec : forall data a, parse_address data = Ok a -> width data = 32 /\ forall r, decodes r a (ev r data).
Proof.
  intros data a H. unfold parse_address in H. destruct (N.eqb_spec (width data) 32) as [E|E]; [|discriminate]. cbn [negb] in H.
  split; [exact E|]. injection H as <-. intros r. cbn [decodes evalv width]. rewrite E.
  assert (W : forall v n w, n + w <= 31 -> wrap w (wrap 32 (N.lxor v (wrap 32 0x80000000)) / 2 ^ n) = v / 2 ^ n mod 2 ^ w).
  { intros v n w Hn. change (wrap 32 0x80000000) with 0x80000000. rewrite <- (xor_low v n w Hn).
    apply N.bits_inj. intros i. change (?a mod 2 ^ w) with (wrap w a). rewrite !testbit_wrap, !N.div_pow2_bits, testbit_wrap.
    destruct (N.ltb_spec i w); [|reflexivity]. rewrite (proj2 (N.ltb_lt _ _)) by lia. reflexivity. }
  split; [apply (W _ 16 8); lia|]. split; [apply (W _ 11 5); lia|]. split; [apply (W _ 8 3); lia|].
  change (7 + 1 - 0) with 8. rewrite (W (ev r data) 0 8) by lia. rewrite N.pow_0_r, N.div_1_r. reflexivity.
Qed.

(** The state after a history (latest first). *)
Definition inv (is : list instr) (p : pci) : Prop :=
  (forall a, p_address p = Some a -> exists data, last_address is = Some data /\ forall r, decodes r a (ev r data)) /\
  (p_address p = None -> last_address is = None) /\
  p_flushed p = flushed_since is /\ (p_flushed p = true -> p_address p <> None).

Lemma slice_full : forall e n e', slice e (n * 8 - 1) 0 = Ok e' -> width e = 32 -> width e' = 32 -> forall r, ev r e' = ev r e.
Proof.
  intros e n e' H We We'. apply slice_inv in H as (_ & H & ->). cbn [width] in We'. intros r. cbn [evalv].
  replace (n * 8 - 1 + 1 - 0) with 32 by lia. rewrite N.div_1_r. apply wrap_small. rewrite <- We. apply evalv_lt.
Qed.
(** Data values have 32 bits, as the instruction's operand. *)
Definition instr_ok (i : instr) : Prop := match i with In_ _ _ => True | Out_ _ d _ => width d = 32 end.

Lemma step_inv : forall is p i p' e, inv is p -> instr_ok i -> step p i = Ok (p', e) -> inv (i :: is) p'.
Proof.
  intros is p i p' e (I1 & I2 & I3 & I4) Hi H. destruct i as [port size|port data size]; cbn [step] in H.
  - apply bindr_ok in H as (ev' & H1 & H2). assert (p = p') by congruence. subst p'. split; [|split; [|split]]; auto.
  - apply bindr_ok in H as (d & H1 & H). unfold handle_out in H.
    destruct (N.eqb_spec port 0xCF8) as [->|N1].
    + apply bindr_ok in H as (a & Ha & Hr). assert (p' = mkPci (Some a) false) by congruence. subst p'.
      destruct (parse_spec _ _ Ha) as [Wd Hd]. split; [|split; [|split]]; cbn [p_address p_flushed]; try congruence; [|reflexivity].
      intros a' Q. assert (a = a') by congruence. subst a'. exists data. split; [reflexivity|]. intros r.
      rewrite <- (slice_full _ _ _ H1 Hi Wd r). apply Hd.
    + assert (LA : last_address (Out_ port data size :: is) = last_address is).
      { cbn [last_address]. destruct port as [|q]; [reflexivity|].
        repeat (destruct q as [q|q|]; try reflexivity; try (exfalso; apply N1; reflexivity)). }
      destruct (N.eqb_spec port 0x80) as [->|N2].
      * assert (p' = match p_address p with Some a => mkPci (Some a) true | None => p end) by congruence. subst p'.
        unfold inv. rewrite LA. cbn [flushed_since]. destruct (p_address p) as [a|] eqn:Ea.
        -- cbn [p_address p_flushed]. destruct (I1 a eq_refl) as (da & Hda & _). rewrite Hda. split; [|split; [|split]]; try congruence.
           intros a' Q. rewrite <- Hda. apply I1. congruence.
        -- rewrite Ea. rewrite (I2 eq_refl). split; [|split; [|split]]; try congruence.
           ++ rewrite I3. specialize (I2 eq_refl). clear -I2 I3 I4. destruct (p_flushed p) eqn:Ef; [|congruence].
              exfalso. apply (I4 eq_refl). reflexivity.
           ++ intros Q. exfalso. apply (I4 Q). reflexivity.
      * assert (FS : flushed_since (Out_ port data size :: is) = flushed_since is).
        { cbn [flushed_since]. destruct port as [|q]; [reflexivity|].
          repeat (destruct q as [q|q|]; try reflexivity; try (exfalso; apply N1; reflexivity); try (exfalso; apply N2; reflexivity)). }
        destruct (N.eqb_spec port 0xCFC) as [->|N3]; [|discriminate].
        destruct (p_flushed p) eqn:Ef; [|discriminate]. cbn [negb] in H. destruct (p_address p) as [a|] eqn:Ea; [|discriminate].
        assert (p = p') by congruence. subst p'. unfold inv. rewrite LA, FS, Ea, Ef. auto.
Qed.
Lemma run_inv : forall is h p p' es, inv h p -> Forall instr_ok is -> run p is = Ok (p', es) -> inv (rev is ++ h) p'.
Proof.
  induction is as [|i is IH]; intros h p p' es Hp Hi H; cbn [run] in H.
  - assert (p = p') by congruence. subst. exact Hp.
  - apply bindr_ok in H as ([p1 e] & H1 & H). apply bindr_ok in H as ([p2 es'] & H2 & H3). cbn [fst snd] in *.
    inversion Hi; subst. assert (p' = p2) by congruence. subst.
    cbn [rev]. rewrite <- app_assoc. cbn [app]. eapply IH; [eapply step_inv; eauto|assumption|exact H2].
Qed.
Lemma inv_init : inv [] pci_init.
Proof. split; [|split; [|split]]; cbn; congruence. Qed.

Theorem pci_addressed : forall is p es i p' e, Forall instr_ok is -> run pci_init is = Ok (p, es) -> step p i = Ok (p', Some e) ->
  exists data, last_address (rev is) = Some data /\ flushed_since (rev is) = true /\ forall r, decodes r (event_address e) (ev r data).
Proof.
  intros is p es i p' e Hi Hr Hs. pose proof (run_inv is [] _ _ _ inv_init Hi Hr) as (I1 & I2 & I3 & I4). rewrite app_nil_r in *.
  assert (G : p_flushed p = true /\ exists a, p_address p = Some a /\ event_address e = a).
  { destruct i as [port size|port data size]; cbn [step] in Hs.
    - apply bindr_ok in Hs as (e' & H1 & H2). assert (e' = e) by congruence. subst e'. unfold handle_in in H1.
      destruct (negb (port =? 0xCFC)); [discriminate|]. destruct (p_flushed p); [|discriminate]. cbn [negb] in H1.
      destruct (p_address p) as [a|]; [|discriminate]. injection H1 as <-. eauto.
    - apply bindr_ok in Hs as (d & H1 & H). unfold handle_out in H.
      destruct (port =? 0xCF8); [apply bindr_ok in H as (a & Ha & Hr'); congruence|].
      destruct (port =? 0x80); [congruence|]. destruct (port =? 0xCFC); [|discriminate].
      destruct (p_flushed p); [|discriminate]. cbn [negb] in H. destruct (p_address p) as [a|]; [|discriminate].
      injection H as <- <-. eauto. }
  destruct G as (Gf & a & Ga & ->). destruct (I1 a Ga) as (data & Hl & Hd). exists data. split; [exact Hl|]. split; [congruence|exact Hd].
Qed.
(** Accesses that are refused. *)
Theorem pci_rejects : forall is p es, Forall instr_ok is -> run pci_init is = Ok (p, es) ->
  (flushed_since (rev is) = false -> (forall size, step p (In_ 0xCFC size) = Err) /\
     forall data size, step p (Out_ 0xCFC data size) = Err) /\
  (forall port size, port <> 0xCFC -> step p (In_ port size) = Err) /\
  (forall port data size, port <> 0xCFC -> port <> 0xCF8 -> port <> 0x80 -> step p (Out_ port data size) = Err) /\
  (forall data size, size <> 4 -> step p (Out_ 0xCF8 data size) = Err).
Proof.
  intros is p es Hi Hr. pose proof (run_inv is [] _ _ _ inv_init Hi Hr) as (I1 & I2 & I3 & I4). rewrite app_nil_r in *.
  split.
  - intros Hf. rewrite <- I3 in Hf. split; [intros size|intros data size]; cbn [step].
    + unfold handle_in. rewrite Hf. reflexivity.
    + unfold slice. destruct (_ && _); [|reflexivity]. cbn [bindr]. unfold handle_out. rewrite Hf. reflexivity.
  - split; [intros port size Hp; cbn [step]; unfold handle_in; rewrite (proj2 (N.eqb_neq _ _) Hp); reflexivity|]. split.
    + intros port data size H1 H2 H3. cbn [step]. unfold slice. destruct (_ && _); [|reflexivity]. cbn [bindr].
      unfold handle_out. rewrite (proj2 (N.eqb_neq _ _) H1), (proj2 (N.eqb_neq _ _) H2), (proj2 (N.eqb_neq _ _) H3). reflexivity.
    + intros data size Hs. cbn [step]. unfold slice. destruct (_ && _) eqn:E; [|reflexivity]. cbn [bindr].
      unfold handle_out. rewrite N.eqb_refl. unfold parse_address. cbn [width].
      destruct (N.eqb_spec (size * 8 - 1 + 1 - 0) 32); [lia|]. reflexivity.
Qed.
