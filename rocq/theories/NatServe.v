(** * What the NAT does for the flows it knows (nf/nat) *)

From Coq Require Import NArith List Bool Lia Arith.
From Verif Require Import IndexPool HashMap Table Firewall Packet NatNF.
Import ListNotations.
Open Scope nat_scope.

Section Serve.
Variable hash : bytes -> N.
Variables base loc wan ext_addr start_port : N.
Variable cap : nat.
Variable exp : N.
Hypothesis L : layout_ok FLOW_SIZE base loc cap.
Hypothesis Hcap : (N.of_nat cap <= 65536)%N.
Hypothesis Hstart : (start_port < 65536)%N.
Hypothesis Haddr : (ext_addr < 2 ^ 32)%N.
Notation hist := (nat_hist hash base loc wan ext_addr start_port cap exp).
Notation handle := (nat_handle hash base loc wan ext_addr start_port).
Notation port i := (index_port start_port i).
Notation tlearn' := (tlearn hash FLOW_SIZE base loc).

Lemma HC : (N.of_nat cap <= 2 ^ 63)%N.
Proof. lia. Qed.

(** A packet on port [q], in either direction, whether it was forwarded or not. *)
Definition touches (q : N) (e : nevent) : Prop :=
  given_port wan e = Some q \/ (inside wan e = false /\ is_ipv4 (parse (fst e)) && is_tcpudp (parse (fst e)) = true /\ l4_dst (parse (fst e)) = q).

Lemma nat_touched : forall h tb, hist h tb ->
  (forall e q, In e h -> given_port wan e = Some q -> exists i, i < cap /\ q = port i) /\
  (forall i k t, view tb i = Some (k, t) -> exists e, In e h /\ p_time (parse (fst e)) = t /\ touches (port i) e).
Proof.
  intros h tb H. induction H as [|h tb r o tb' H [IH1 IH2] Hr E].
  { split; [intros e q []|]. intros i k t Q. rewrite talloc_view in Q. discriminate. }
  destruct (nat_inv hash base loc wan ext_addr start_port cap exp L HC Hstart Haddr h tb H) as [IHo _].
  pose proof (parse_ok r Hr) as Hp. set (p := parse r) in *.
  assert (Ht : (p_time p < TIME_MAX)%N) by (unfold pkt_ok in Hp; tauto).
  assert (Old : forall o' i k t, view tb i = Some (k, t) -> exists e, In e ((r, o') :: h) /\ p_time (parse (fst e)) = t /\ touches (port i) e).
  { intros o' i k t Hv. destruct (IH2 i k t Hv) as (e & Q1 & Q2). exists e. split; [right; exact Q1|exact Q2]. }
  assert (Nog : forall o', given_port wan (r, o') = None -> forall e q, In e ((r, o') :: h) -> given_port wan e = Some q -> exists i, i < cap /\ q = port i).
  { intros o' G e q [<-|Hin] Q; [congruence|eauto]. }
  assert (GN : given_port wan (r, None) = None) by (unfold given_port; destruct (inside _ _); reflexivity).
  unfold nat_handle in E. fold p in E. destruct (is_ipv4 p && is_tcpudp p) eqn:G; cbn [negb] in E.
  2:{ injection E as <- <-. split; [apply Nog; exact GN|apply Old]. }
  destruct (p_device p =? wan)%N eqn:Dv.
  - assert (NG : forall o', given_port wan (r, o') = None) by (intros o'; unfold given_port, inside; cbn [fst]; fold p; rewrite Dv; reflexivity).
    split; [apply Nog; apply NG|].
    pose proof (used_spec hash FLOW_SIZE base loc cap exp tb (p_time p) (port_index start_port (l4_dst p)) IHo) as US.
    set (index := port_index start_port (l4_dst p)) in *.
    destruct (pool_used (tpool tb) (p_time p) index); cbn [negb] in E; [|injection E as <- <-; apply Old].
    destruct (proj1 US eq_refl) as (k0 & t0 & Hv0 & _).
    destruct (refresh_ok hash FLOW_SIZE base loc cap exp tb index (p_time p) IHo Ht (ex_intro _ _ Hv0)) as [Ho' V].
    assert (Etb : tb' = mkTab (keys tb) (tmap tb) (pool_refresh (tpool tb) (p_time p) index)) by (destruct (_ || _ || _) in E; congruence).
    subst tb'. intros i k t Hv. rewrite V in Hv. destruct (Nat.eqb_spec i index) as [->|]; [|eapply Old; exact Hv].
    apply some_pair in Hv as [_ <-]. exists (r, o). split; [left; reflexivity|]. split; [reflexivity|]. right.
    split; [unfold inside; cbn [fst]; fold p; rewrite Dv; reflexivity|]. split; [exact G|]. cbn [fst]. fold p. unfold index. symmetry.
    apply (index_port_index ext_addr start_port cap HC Hstart Haddr). unfold pkt_ok in Hp. tauto.
  - pose proof (learn_spec hash FLOW_SIZE base loc cap exp L tb (p_time p) (flow_bytes (pkt_flow p)) IHo (flow_bytes_length _) Ht) as LS.
    destruct (tlearn' tb (p_time p) (flow_bytes (pkt_flow p))) as [[i0|] tb1]; destruct LS as [Ho' LS].
    + assert (Eo : o = Some ((1 - p_device p)%N, rewrite_src (r_data r) ext_addr (port i0))) by congruence.
      assert (Etb : tb' = tb1) by congruence. subst o tb'. clear E. destruct LS as (Hi & Hd & V).
      pose proof (given_out wan ext_addr start_port Haddr r i0 Hr Dv) as GO. fold p in GO. split.
      * intros e q [<-|Hin] Q; [rewrite GO in Q; exists i0; split; [exact Hi|congruence]|eauto].
      * intros i k t Hv. rewrite V in Hv. destruct (Nat.eqb_spec i i0) as [->|]; [|eapply Old; exact Hv].
        apply some_pair in Hv as [_ <-]. eexists. split; [left; reflexivity|]. split; [reflexivity|]. left. exact GO.
    + injection E as <- <-. destruct LS as (_ & _ & V). split; [apply Nog; exact GN|]. intros i k t Hv. rewrite V in Hv. eapply Old. exact Hv.
Qed.

(** The owner of a port is in the table, at the port's index. *)
Lemma owner_given : forall q h f, owner wan q h = Some f -> exists e, In e h /\ given_port wan e = Some q.
Proof.
  intros q. induction h as [|e h IH]; intros f E; [discriminate|]. cbn [owner] in E. destruct (given_port wan e) as [q'|] eqn:G.
  - destruct (N.eqb_spec q' q) as [->|]; [exists e; split; [left; reflexivity|exact G]|]. destruct (IH f E) as (e' & Q & Q'). exists e'. split; [right; exact Q|exact Q'].
  - destruct (IH f E) as (e' & Q & Q'). exists e'. split; [right; exact Q|exact Q'].
Qed.
Lemma owner_view : forall h tb T q f, hist h tb -> times_ok T h -> owner wan q h = Some f ->
  exists i t, i < cap /\ q = port i /\ view tb i = Some (flow_bytes f, t) /\ flow_ok f /\
    forall e, In e h -> uses wan q e -> (p_time (parse (fst e)) <= t)%N.
Proof.
  intros h tb T q f H HT O. destruct (owner_given q h f O) as (e & Hin & G).
  destruct (nat_touched h tb H) as [A _]. destruct (A e q Hin G) as (i & Hi & ->).
  destruct (uses_inv hash base loc wan ext_addr start_port cap exp L HC Hstart Haddr Hcap h tb H T HT) as [_ U].
  destruct (U e i Hin (or_introl G) Hi) as (k & t & Hv & _).
  destruct (nat_inv hash base loc wan ext_addr start_port cap exp L HC Hstart Haddr h tb H) as [_ Hinv].
  destruct (Hinv i k t Hv) as (f' & _ & Hf & Hk & _ & _ & _ & Ho). specialize (Ho Hcap). rewrite O in Ho. injection Ho as <-. subst k.
  exists i, t. repeat split; try assumption; try apply Hf. intros e' Hin' Hu. destruct (U e' i Hin' Hu Hi) as (k' & t' & Hv' & Hle).
  rewrite Hv in Hv'. apply some_pair in Hv' as [_ <-]. exact Hle.
Qed.

(** A flow that owns a port goes on using it. *)
Lemma nat_keeps : forall h tb T r q, hist h tb -> times_ok T h -> rpkt_ok r ->
  is_ipv4 (parse r) && is_tcpudp (parse r) = true -> p_device (parse r) <> wan -> owner wan q h = Some (pkt_flow (parse r)) ->
  exists d', fst (handle tb r) = Some ((1 - p_device (parse r))%N, d') /\ ld32 d' (IP + 12) = ext_addr /\ ld16 d' L4 = q.
Proof.
  intros h tb T r q H HT Hr G Dv O. destruct (owner_view h tb T q _ H HT O) as (i & t & Hi & -> & Hv & Hf & _).
  destruct (nat_inv hash base loc wan ext_addr start_port cap exp L HC Hstart Haddr h tb H) as [Ho _].
  unfold nat_handle. cbv zeta. rewrite G, (proj2 (N.eqb_neq _ _) Dv). cbn [negb]. unfold tlearn.
  rewrite (proj2 (find_spec hash FLOW_SIZE base loc cap exp L tb (flow_bytes (pkt_flow (parse r))) Ho (flow_bytes_length _) i) (ex_intro _ t Hv)).
  cbn [fst]. eexists. split; [reflexivity|].
  destruct (rewrite_src_fields (r_data r) ext_addr (port i)) as (_ & D1 & D2 & _); [apply Hr|exact Haddr|apply index_port_lt|]. auto.
Qed.
(** A reply to a flow that was active not long ago is let in. *)
Lemma nat_lets_in : forall h tb T r f e, hist h tb -> times_ok T h -> rpkt_ok r ->
  is_ipv4 (parse r) && is_tcpudp (parse r) = true -> p_device (parse r) = wan -> owner wan (l4_dst (parse r)) h = Some f ->
  f_dst f = ip_src (parse r) -> f_dport f = l4_src (parse r) -> f_proto f = ip_proto (parse r) ->
  In e h -> uses wan (l4_dst (parse r)) e -> (p_time (parse r) <= p_time (parse (fst e)) + exp)%N ->
  exists d', fst (handle tb r) = Some ((1 - wan)%N, d') /\ ld32 d' (IP + 16) = f_src f /\ ld16 d' (L4 + 2) = f_sport f.
Proof.
  intros h tb T r f e H HT Hr G Dv O F1 F2 F3 Hin Hu Hy. destruct (owner_view h tb T _ f H HT O) as (i & t & Hi & Eq & Hv & Hf & Hle).
  destruct (nat_inv hash base loc wan ext_addr start_port cap exp L HC Hstart Haddr h tb H) as [Ho _]. specialize (Hle e Hin Hu).
  unfold nat_handle. cbv zeta. rewrite G, (proj2 (N.eqb_eq _ _) Dv). cbn [negb]. rewrite Eq.
  rewrite (port_index_port ext_addr start_port cap HC Hstart Haddr i) by lia.
  rewrite (proj2 (used_spec hash FLOW_SIZE base loc cap exp tb (p_time (parse r)) i Ho)) by (exists (flow_bytes f), t; split; [exact Hv|unfold young; lia]).
  cbn [negb]. rewrite <- (view_key _ _ _ _ Hv), unflow_bytes by exact Hf. rewrite F1, F2, F3, !N.eqb_refl. cbn [negb orb fst]. rewrite Dv.
  eexists. split; [reflexivity|]. destruct (rewrite_dst_fields (r_data r) (f_src f) (f_sport f)) as (_ & D1 & D2 & _); [apply Hr|apply Hf|apply Hf|]. auto.
Qed.
(** A packet from inside is dropped only if all ports are in use. *)
Lemma nat_refuses : forall h tb r, hist h tb -> rpkt_ok r ->
  is_ipv4 (parse r) && is_tcpudp (parse r) = true -> p_device (parse r) <> wan -> fst (handle tb r) = None ->
  forall i, i < cap -> exists f e, owner wan (port i) h = Some f /\ In e h /\ touches (port i) e /\
    (p_time (parse r) <= p_time (parse (fst e)) + exp)%N /\ f <> pkt_flow (parse r).
Proof.
  intros h tb r H Hr G Dv E i Hi. destruct (nat_inv hash base loc wan ext_addr start_port cap exp L HC Hstart Haddr h tb H) as [Ho Hinv].
  destruct (nat_touched h tb H) as [_ B]. pose proof (parse_ok r Hr) as Hp. unfold nat_handle in E. cbv zeta in E. rewrite G, (proj2 (N.eqb_neq _ _) Dv) in E. cbn [negb] in E.
  set (p := parse r) in *. assert (Ht : (p_time p < TIME_MAX)%N) by (unfold pkt_ok in Hp; tauto).
  pose proof (learn_spec hash FLOW_SIZE base loc cap exp L tb (p_time p) (flow_bytes (pkt_flow p)) Ho (flow_bytes_length _) Ht) as LS.
  destruct (tlearn' tb (p_time p) (flow_bytes (pkt_flow p))) as [[i0|] tb1]; [discriminate|]. destruct LS as (_ & LS & Nf & _).
  destruct (LS i Hi) as (k & t & Hv & Hy). destruct (Hinv i k t Hv) as (f & _ & Hf & Hk & _ & _ & _ & Hown). destruct (B i k t Hv) as (e & Hin & Et & Tc).
  exists f, e. split; [apply Hown; exact Hcap|]. split; [exact Hin|]. split; [exact Tc|]. split; [unfold young in Hy; lia|].
  intros ->. apply (Nf i t). rewrite Hv, Hk. reflexivity.
Qed.
End Serve.
