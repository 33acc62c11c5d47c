(** * The packet loop with a network function's handler (tinynf/main.c 52-62 on top of ixgbe.c) *)

From Coq Require Import NArith List Bool Lia Arith.
From Verif Require Import IndexPool Bridge NetEnv TinyNF TinyNFFacts.
Import ListNotations.
Open Scope N_scope.

Section Wire.
Context {X : Type}.
Variable macs : N -> N -> N.
Variable devices : nat.   (* devices_count *)
Variable ingress : N.     (* the agent's index *)
(** nf_handle: what it does with a packet of some contents and length. Its state [X] includes the
    clock. *)
Variable nf_handle : X -> (N -> N) -> N -> X * list cact.

(** tinynf/main.c 52-62: the packet structure is made from the buffer and the length, and the
    array of output lengths is the agent's. An access outside that array has no meaning; here
    it leaves the array as it was, and the theorems exclude it. *)
Definition tn_handler (x : X) (data : N -> N) (len : N) (out : list N) : X * (N -> N) * list N :=
  let '(x', acts) := nf_handle x data len in
  match tn_steps macs devices ingress (mkTn len data out) acts with
  | Some s => (x', tn_data s, tn_out s)
  | None => (x', data, out)
  end.

(** ** Specification: the frames of successive packets, each as C97 has them *)

Definition tn_packet (x : X) (data : N -> N) (len : N) : list (N * N * (N -> N)) :=
  match tn_handle macs devices ingress len data (snd (nf_handle x data len)) with Some fs => fs | None => [] end.
Fixpoint tn_packets (x : X) (ps : list ((N -> N) * N)) : list (N * N * (N -> N)) :=
  match ps with
  | [] => []
  | (data, len) :: rest => (tn_packet x data len ++ tn_packets (fst (nf_handle x data len)) rest)%list
  end.
(** Those that leave on one device, as the card sends them. *)
Definition on_device (d : N) (fs : list (N * N * (N -> N))) : list ((N -> N) * N * N) :=
  map (fun f => (snd f, snd (fst f), 768)) (filter (fun f => fst (fst f) =? d) fs).

(** The network function keeps lengths within 16 bits, and does not write outside the array. *)
Definition len_ok (a : cact) : Prop := match a with CSetLen v => v < 65536 | _ => True end.
Definition nf_safe : Prop := forall x data len, len < 65536 ->
  Forall len_ok (snd (nf_handle x data len)) /\ tn_handle macs devices ingress len data (snd (nf_handle x data len)) <> None.

Lemma tn_set_nth_length : forall (l : list N) i v, length (IndexPool.set_nth l i v) = length l.
Proof. induction l as [|a l IH]; intros [|i] v; cbn; auto. Qed.
Lemma tn_set_nth_forall : forall (P : N -> Prop) l i v, P v -> Forall P l -> Forall P (IndexPool.set_nth l i v).
Proof. intros P. induction l as [|a l IH]; intros [|i] v V F; cbn; auto; inversion_clear F; constructor; auto. Qed.

Definition tn_good (s : tnst) : Prop := tn_len s < 65536 /\ length (tn_out s) = (devices - 1)%nat /\ Forall (fun v => v < 65536) (tn_out s).
Lemma tn_step_good : forall s a s', tn_good s -> len_ok a -> tn_step macs devices ingress s a = Some s' -> tn_good s'.
Proof.
  intros s a s' (L & O & F) A H. destruct a as [v|d|d f|f|dis f]; cbn [tn_step len_ok] in *.
  - injection H as <-. repeat split; assumption.
  - injection H as <-. repeat split; assumption.
  - unfold tn_transmit in H. destruct (_ <? _)%nat; [|discriminate]. injection H as <-. split; [exact L|]. cbn [tn_out].
    split; [rewrite tn_set_nth_length; exact O|]. apply tn_set_nth_forall; assumption.
  - injection H as <-. split; [exact L|]. cbn [tn_out]. unfold tn_flood. split; [apply repeat_length|].
    apply Forall_forall. intros v V. apply repeat_spec in V. subst v. exact L.
  - injection H as <-. split; [exact L|]. cbn [tn_out]. unfold tn_flood_except. split; [rewrite map_length, seq_length; reflexivity|].
    apply Forall_forall. intros v V. apply in_map_iff in V as (i & <- & _). destruct (dis _); [lia|exact L].
Qed.
Lemma tn_steps_good : forall l s s', tn_good s -> Forall len_ok l -> tn_steps macs devices ingress s l = Some s' -> tn_good s'.
Proof.
  induction l as [|a l IH]; intros s s' G F H; cbn [tn_steps] in H; [injection H as <-; exact G|].
  destruct (tn_step macs devices ingress s a) as [s1|] eqn:E; [|discriminate]. inversion_clear F.
  eapply IH; [|eassumption|exact H]. eapply tn_step_good; eassumption.
Qed.
Lemma tn_handler_sane : (forall x data len, len < 65536 -> Forall len_ok (snd (nf_handle x data len))) ->
  sane_handler tn_handler (devices - 1).
Proof.
  intros A x d len l L ->. unfold tn_handler. specialize (A x d len L). destruct (nf_handle x d len) as [x' acts]. cbn [snd] in A.
  assert (G : tn_good (mkTn len d (repeat 0 (devices - 1)))).
  { split; [exact L|]. cbn [tn_out]. split; [apply repeat_length|]. apply Forall_forall. intros v V. apply repeat_spec in V. subst v. lia. }
  destruct (tn_steps macs devices ingress _ acts) as [s|] eqn:E; cbn [snd].
  - destruct (tn_steps_good _ _ _ G A E) as (_ & B & C). auto.
  - destruct G as (_ & B & C). auto.
Qed.

(** The frames of one packet on output [k] are those of the array's entry [k]. *)
Lemma index_of_device : forall k, index_from_device ingress (device_from_index ingress k) = k.
Proof. intros k. unfold index_from_device, device_from_index. destruct (N.ltb_spec k ingress). { destruct (N.ltb_spec ingress k); lia. } destruct (N.ltb_spec ingress (k + 1)); lia. Qed.
Lemma seq_filter_one : forall (p : nat -> bool) k n a, (a <= k < a + n)%nat -> (forall i, p i = true -> i = k) ->
  filter p (seq a n) = if p k then [k] else [].
Proof.
  intros p k. induction n as [|n IH]; intros a R U; [lia|]. cbn [seq filter].
  destruct (Nat.eq_dec a k) as [->|NE].
  - assert (E : filter p (seq (S k) n) = []).
    { clear IH R. generalize (Nat.lt_succ_diag_r k). generalize (S k). induction n as [|n IHn]; intros b B; [reflexivity|]. cbn [seq filter].
      destruct (p b) eqn:P; [apply U in P; lia|]. apply IHn. lia. }
    rewrite E. destruct (p k); reflexivity.
  - destruct (p a) eqn:P; [apply U in P; contradiction|]. apply IH; [lia|exact U].
Qed.
Lemma filter_filter : forall (A : Type) (p q : A -> bool) l, filter p (filter q l) = filter (fun a => q a && p a) l.
Proof. intros A p q. induction l as [|a l IH]; [reflexivity|]. cbn [filter]. destruct (q a); cbn [filter andb]; [destruct (p a); rewrite IH; reflexivity|exact IH]. Qed.
Lemma on_device_wire : forall s k, (k < length (tn_out s))%nat ->
  on_device (device_from_index ingress (N.of_nat k)) (tn_wire ingress s) = to_send k [(tn_data s, tn_out s)].
Proof.
  intros s k K. unfold on_device, tn_wire, tn_sent. cbn [to_send].
  rewrite <- (map_map (fun i => i) (fun i => (device_from_index ingress (N.of_nat i)))). rewrite map_id.
  assert (E : filter (fun f : N * N * (N -> N) => fst (fst f) =? device_from_index ingress (N.of_nat k))
     (map (fun d => (d, nth (N.to_nat (index_from_device ingress d)) (tn_out s) 0, tn_data s))
        (map (fun i : nat => device_from_index ingress (N.of_nat i)) (filter (fun i : nat => negb (nth i (tn_out s) 0 =? 0)) (seq 0 (length (tn_out s))))))
     = map (fun i : nat => (device_from_index ingress (N.of_nat i), nth i (tn_out s) 0, tn_data s))
         (filter (fun i : nat => device_from_index ingress (N.of_nat i) =? device_from_index ingress (N.of_nat k))
            (filter (fun i : nat => negb (nth i (tn_out s) 0 =? 0)) (seq 0 (length (tn_out s)))))).
  { generalize (filter (fun i : nat => negb (nth i (tn_out s) 0 =? 0)) (seq 0 (length (tn_out s)))). induction l as [|i l IH]; [reflexivity|].
    cbn [map filter fst]. rewrite index_of_device, Nat2N.id. destruct (_ =? device_from_index ingress (N.of_nat k)); cbn [map]; rewrite IH; reflexivity. }
  rewrite E, filter_filter. rewrite (seq_filter_one _ k); [|lia|].
  - rewrite N.eqb_refl, andb_true_r. destruct (nth k (tn_out s) 0 =? 0); reflexivity.
  - intros i H. apply andb_true_iff in H as [_ H]. apply N.eqb_eq in H. apply (f_equal (index_from_device ingress)) in H. rewrite !index_of_device in H. lia.
Qed.
Lemma to_send_cons : forall (D : Type) k (a : D * list N) l, to_send k (a :: l) = (to_send k [a] ++ to_send k l)%list.
Proof. intros D k [d l0] l. cbn [to_send]. destruct (nth k l0 0 =? 0); reflexivity. Qed.
Lemma on_device_app : forall d a b, on_device d (a ++ b) = (on_device d a ++ on_device d b)%list.
Proof. intros d a b. unfold on_device. rewrite filter_app, map_app. reflexivity. Qed.

Lemma tn_packets_sent : (forall x data len, len < 65536 -> Forall len_ok (snd (nf_handle x data len))) ->
  forall k, (k < devices - 1)%nat ->
  forall ps x, Forall (fun p => snd p < 65536) ps ->
  to_send k (snd (nf_run tn_handler (devices - 1) x ps)) = on_device (device_from_index ingress (N.of_nat k)) (tn_packets x ps).
Proof.
  intros A k K. induction ps as [|[data len] ps IH]; intros x F; [reflexivity|]. inversion_clear F as [|? ? L F']. cbn [snd] in L.
  cbn [nf_run tn_packets]. unfold tn_handler at 1. specialize (A x data len L).
  unfold tn_packet, tn_handle. destruct (nf_handle x data len) as [x' acts]. cbn [fst snd] in *.
  assert (G : tn_good (mkTn len data (repeat 0 (devices - 1)))).
  { split; [exact L|]. cbn [tn_out]. split; [apply repeat_length|]. apply Forall_forall. intros v V. apply repeat_spec in V. subst v. lia. }
  rewrite on_device_app, <- IH by exact F'.
  destruct (tn_steps macs devices ingress _ acts) as [s|] eqn:E; cbn [option_map].
  - destruct (tn_steps_good _ _ _ G A E) as (_ & B & _). destruct (nf_run tn_handler (devices - 1) x' ps) as [x'' os]. cbn [snd].
    rewrite to_send_cons, on_device_wire by lia. reflexivity.
  - destruct (nf_run tn_handler (devices - 1) x' ps) as [x'' os]. cbn [snd to_send]. rewrite nth_repeat. reflexivity.
Qed.

Lemma tn_packets_app : forall a b x, exists c, tn_packets x (a ++ b) = (tn_packets x a ++ c)%list.
Proof.
  induction a as [|[d len] a IH]; intros b x; [exists (tn_packets x b); reflexivity|]. cbn [app tn_packets].
  destruct (IH b (fst (nf_handle x d len))) as [c ->]. exists c. rewrite app_assoc. reflexivity.
Qed.

Lemma rx_len16 : forall acts s s', Forall (fun p : (N -> N) * N => snd p < 65536) (rx s) ->
  run tn_handler (devices - 1) s acts = Some s' -> Forall (fun p => snd p < 65536) (rx s').
Proof.
  induction acts as [|a acts IH]; intros s s' F H; cbn [run] in H; [injection H as <-; exact F|].
  destruct (step tn_handler (devices - 1) a s) as [s1|] eqn:E; [|discriminate]. eapply IH; [|exact H]. clear IH H.
  destruct a as [|d m|n|n k]; cbn [step] in E.
  - injection E as <-. unfold cpu. destruct (apc s); cbn [rx]; try (destruct (_ <? _)%nat); try exact F.
    + destruct (tn_handler _ _ _ _) as [[x d] l]. exact F.
    + destruct (if _ <=? _ then _ else _) as [e m]. exact F.
  - destruct (_ || _ || _); [discriminate|]. injection E as <-. cbn [rx]. apply Forall_app. split; [exact F|]. constructor; [|constructor]. cbn [snd]. apply len16.
  - destruct (_ || _); [discriminate|]. injection E as <-. exact F.
  - destruct (_ || _); [discriminate|]. injection E as <-. exact F.
Qed.

Lemma sent_on_device : nf_safe -> (2 <= devices)%nat -> ingress < N.of_nat devices -> forall x0 junk acts s d,
  run tn_handler (devices - 1) (started (devices - 1) x0 junk) acts = Some s -> d < N.of_nat devices -> d <> ingress ->
  let k := N.to_nat (index_from_device ingress d) in
  prefix (tx s k) (on_device d (tn_packets x0 (rx s))) /\
  (apc s = Poll 0 -> length (handled s) = length (rx s) -> tdh s k = tdt s k -> tx s k = on_device d (tn_packets x0 (rx s))).
Proof.
  intros SAFE D2 IN x0 junk acts s d H Dd Di k.
  assert (A : forall x data len, len < 65536 -> Forall len_ok (snd (nf_handle x data len))) by (intros x data len L; apply (SAFE x data len L)).
  pose proof (tn_handler_sane A) as HS.
  assert (OP : (0 < devices - 1)%nat) by lia.
  assert (F : Forall (fun p : (N -> N) * N => snd p < 65536) (rx s)) by (eapply rx_len16; [|exact H]; constructor).
  assert (K : (k < devices - 1)%nat) by (unfold k, index_from_device; destruct (N.ltb_spec ingress d); lia).
  assert (KD : device_from_index ingress (N.of_nat k) = d) by (unfold k; rewrite N2Nat.id; apply device_index; exact Di).
  assert (I : Inv tn_handler (devices - 1) x0 s) by (eapply Inv_reached; eassumption).
  assert (O : handled s = snd (nf_run tn_handler (devices - 1) x0 (firstn (length (handled s)) (rx s))) /\ (length (handled s) <= length (rx s))%nat /\
    forall n, (n < devices - 1)%nat -> prefix (tx s n) (to_send n (handled s)) /\ (apc s = Poll 0 -> tdh s n = tdt s n -> tx s n = to_send n (handled s))).
  { eapply Inv_order; [assumption|exact I]. }
  destruct O as (E1 & E2 & E3).
  destruct (E3 k K) as (P & Q).
  assert (T : to_send k (handled s) = on_device d (tn_packets x0 (firstn (length (handled s)) (rx s)))).
  { rewrite E1 at 1. rewrite tn_packets_sent; [rewrite KD; reflexivity|exact A|exact K|].
    rewrite <- (firstn_skipn (length (handled s)) (rx s)) in F. apply Forall_app in F as [F _]. exact F. }
  split.
  - destruct P as [c P]. destruct (tn_packets_app (firstn (length (handled s)) (rx s)) (skipn (length (handled s)) (rx s)) x0) as [c' P'].
    rewrite firstn_skipn in P'. rewrite P', on_device_app, <- T, P. exists (c ++ on_device d c')%list. rewrite app_assoc. reflexivity.
  - intros PC LE TE. rewrite (Q PC TE), T, LE, firstn_all. reflexivity.
Qed.
End Wire.
