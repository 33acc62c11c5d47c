(** Property theorems C150: bridges in a network. *)

From Coq Require Import NArith List Bool Lia Arith.
From Verif Require Import IndexPool HashMap Table Firewall Packet TimedSet Bridge Ixgbe BridgeNet.
Import ListNotations.
Open Scope N_scope.

Lemma run_app : forall conf peer es1 es2 st st', run conf peer st (es1 ++ es2) st' -> exists st1, run conf peer st es1 st1 /\ run conf peer st1 es2 st'.
Proof.
  intros conf peer. induction es1 as [|e es1 IH]; intros es2 st st' R; cbn [app] in R; [exists st; split; [apply r_nil|exact R]|].
  inversion_clear R as [|? ? sta ? ? H R']. apply IH in R' as (stb & R1 & R2). exists stb. split; [eapply r_cons; eauto|exact R2].
Qed.
Lemma sane_run : forall conf peer, good conf peer -> forall st es st', run conf peer st es st' -> quiet es -> Forall (calm conf) es -> sane conf st -> sane conf st'.
Proof.
  intros conf peer G st es st' R. induction R as [|st e st1 es st2 H R IH]; intros Q C SA; [exact SA|]. apply quiet_cons in Q as [Q1 Q2]. inversion_clear C as [|? ? C1 C2].
  apply IH; auto. eapply sane_happens; eauto.
Qed.
Lemma quiet_app : forall a b, quiet (a ++ b) -> quiet a /\ quiet b.
Proof. intros a b Q. split; intros f F; apply Q; apply in_or_app; auto. Qed.

(** For all bridges, over either driver, all states and all frames: the frame goes out on exactly the ports the bridge chose, and there it has
    its length and its bytes; or, if the bridge took it for the spanning tree, the bridge's root, cost and identity, and TinyNF (not DPDK)
    shortens it to them. *)
Theorem C150_wire : forall conf st f t out, let c := conf (f_br f) in let b := brs st (f_br f) in
  f_port f < N.of_nat (c_n c) -> f_len f <> 0 -> sends conf st f t = Some out ->
  (forall p, In p (map (fun x => fst (fst x)) out) <-> In p (fst (br_handle (c_hash c) (c_base c) (c_loc c) (c_n c) b (received f t)))) /\
  forall x, In x out -> match fst (stp_handle (c_n c) (bstp b) (received f t)) with
    | Some (_, Some (rt, cost, se)) => snd (fst x) = (match c_drv c with TinyNF => if due (bstp b) (received f t) then 34 else f_len f | Dpdk => f_len f end) /\
        (rt < 2 ^ 64 -> cost < 2 ^ 32 -> se < 2 ^ 64 -> bpdu_root (snd x) = rt /\ bpdu_cost (snd x) = cost /\ ld64 (snd x) 26 = se)
    | _ => snd (fst x) = f_len f /\ snd x = f_data f end.
Proof. exact sends_all. Qed.
Print Assumptions C150_wire.

(** And what it then announces is the root and the cost it believes in from then on, and its own identity. *)
Theorem C150_announces : forall conf st f t out ds bp, let c := conf (f_br f) in let s := bstp (brs st (f_br f)) in let s' := bstp (becomes conf st f t) in
  f_port f < N.of_nat (c_n c) -> f_len f <> 0 -> root s' < 2 ^ 64 -> root_cost s' < 2 ^ 32 -> self_id s < 2 ^ 64 ->
  fst (stp_handle (c_n c) s (received f t)) = Some (ds, Some bp) -> sends conf st f t = Some out ->
  forall x, In x out -> bpdu_root (snd x) = root s' /\ bpdu_cost (snd x) = root_cost s' /\ ld64 (snd x) 26 = self_id s.
Proof.
  intros conf st f t out ds bp c s s' P L R C I E W x X. destruct (stp_handle (c_n c) s (received f t)) as [o s1] eqn:H. cbn [fst] in E. subst o.
  destruct (stp_announces _ _ _ _ _ _ H) as [-> SI]. assert (Q : s' = s1) by (unfold s', becomes, br_handle; cbv zeta; fold c; change (bstp (brs st (f_br f))) with s; rewrite H; reflexivity).
  destruct (sends_all conf st f t out P L W) as [_ A]. specialize (A x X). fold c in A. change (bstp (brs st (f_br f))) with s in A. rewrite H in A. cbn [fst] in A. destruct A as [_ A].
  rewrite Q in *. rewrite <- SI. apply A; auto. rewrite SI. exact I.
Qed.
Print Assumptions C150_announces.

(** For all networks of bridges, over either driver, all cables, and all executions in which no host speaks the spanning tree's protocol: two
    bridges never agree on the root, whatever they send each other (the driver replaces the address by which they would know it). *)
Theorem C150_roots_refuted : forall conf peer, (forall b, driver_macs (c_drv (conf b)) (c_macs (conf b))) ->
  forall st0 es st, start conf st0 -> run conf peer st0 es st -> quiet es ->
  forall b b', c_self (conf b) <> c_self (conf b') -> root (bstp (brs st b)) <> root (bstp (brs st b')).
Proof.
  intros conf peer M st0 es st S R Q b b' NE. destruct (untouched_run conf peer M _ _ _ R Q (start_untouched conf st0 S)) as [A _].
  destruct (A b) as (_ & -> & _). destruct (A b') as (_ & -> & _). exact NE.
Qed.
Print Assumptions C150_roots_refuted.
(** And no port is ever blocked. *)
Theorem C150_no_port_blocked : forall conf peer, (forall b, driver_macs (c_drv (conf b)) (c_macs (conf b))) ->
  forall st0 es st, start conf st0 -> run conf peer st0 es st -> quiet es -> forall b p, is_disabled (bstp (brs st b)) p = false.
Proof.
  intros conf peer M st0 es st S R Q b p. destruct (untouched_run conf peer M _ _ _ R Q (start_untouched conf st0 S)) as [A _].
  eapply alone_enabled. apply A.
Qed.
Print Assumptions C150_no_port_blocked.

(** For all networks with a way that comes back on itself ([w] goes on for ever without turning back), all frames to a group address sent
    by a host at its beginning, and all executions without losses in which no update is due: a copy of the frame is in flight, always. *)
Theorem C150_circulates_refuted : forall conf peer, good conf peer ->
  forall len d, N.odd (ld48 d 0) = true -> len <> 0 ->
  forall w : nat -> stop, (forall i, through conf (w i) /\ linked peer (w i) (w (S i))) ->
  forall st0 es1 es2 st, start conf st0 -> run conf peer st0 (es1 ++ Host (coming len d (w O)) :: es2) st ->
  quiet (es1 ++ Host (coming len d (w O)) :: es2) -> Forall (calm conf) (es1 ++ es2) ->
  exists i, In (coming len d (w i)) (flight st).
Proof.
  intros conf peer G len d GRP LEN w W st0 es1 es2 st S R Q C. apply run_app in R as (st1 & R1 & R2). apply quiet_app in Q as [Q1 Q2]. apply Forall_app in C as [C1 C2].
  pose proof (sane_run conf peer G _ _ _ R1 Q1 C1 (start_sane conf _ S)) as SA. inversion_clear R2 as [|? ? st2 ? ? H R]. apply quiet_cons in Q2 as [Q2 Q3].
  assert (SA2 : sane conf st2) by (eapply sane_happens; eauto; exact Logic.I).
  eapply (circulates conf peer G len d GRP LEN w W); eauto. exists O. inversion_clear H. left. reflexivity.
Qed.
Print Assumptions C150_circulates_refuted.

(** The same without a loop: for all ways that do not turn back, if the network is at rest again, the frame has left on the last port. *)
Theorem C150_reaches_partial : forall conf peer, good conf peer ->
  forall len d, N.odd (ld48 d 0) = true -> len <> 0 ->
  forall (w : nat -> stop) k, (forall i, (i <= k)%nat -> through conf (w i)) -> (forall i, (i < k)%nat -> linked peer (w i) (w (S i))) ->
  forall st0 es1 es2 st, start conf st0 -> run conf peer st0 (es1 ++ Host (coming len d (w O)) :: es2) st ->
  quiet (es1 ++ Host (coming len d (w O)) :: es2) -> Forall (calm conf) (es1 ++ es2) ->
  flight st = [] -> In (leaving len d (w k)) (sent st).
Proof.
  intros conf peer G len d GRP LEN w k W1 W2 st0 es1 es2 st S R Q C F. apply run_app in R as (st1 & R1 & R2). apply quiet_app in Q as [Q1 Q2]. apply Forall_app in C as [C1 C2].
  pose proof (sane_run conf peer G _ _ _ R1 Q1 C1 (start_sane conf _ S)) as SA. inversion_clear R2 as [|? ? st2 ? ? H R]. apply quiet_cons in Q2 as [Q2 Q3].
  assert (SA2 : sane conf st2) by (eapply sane_happens; eauto; exact Logic.I).
  destruct (reaches conf peer G len d GRP LEN w k W1 W2 _ _ _ R Q3 C2 SA2) as [(i & _ & I)|I]; [|rewrite F in I; destruct I|exact I].
  left. exists O. split; [lia|]. inversion_clear H. left. reflexivity.
Qed.
Print Assumptions C150_reaches_partial.

(** For all networks without loops ([rank] bounds the length of what is left of a way), of bridges with at most [m] ports, and all executions,
    whatever was sent and whoever sent it: once hosts stop sending, frames arrive only so often. *)
Theorem C150_ends_partial : forall conf peer rank m, tree peer rank -> (forall b, (c_n (conf b) <= m)%nat) ->
  forall st es st', run conf peer st es st' -> existsb host es = false -> (length (filter arrival es) <= weigh rank m (flight st))%nat.
Proof. intros conf peer rank m T M st es st' R H. pose proof (weigh_run conf peer rank m M st es st' T R H). lia. Qed.
Print Assumptions C150_ends_partial.

(** Bridges with three ports: a host at port 0, others at ports 1 and 2. *)
Definition ex_macs (dev i : N) : N := if i <? 6 then nth (N.to_nat i) (endpoint_mac dev) 0 else 2.
Definition ex_conf (b : nat) : bconf := mkConf (fun _ => 0) 4096 8192 3 2 100 (N.of_nat b) 1000 TinyNF ex_macs.
(** Two cables between two bridges. *)
Definition ex_double (b : nat) (p : N) : option (nat * N) :=
  match b with O => if (p =? 1) || (p =? 2) then Some (1%nat, p) else None | 1%nat => if (p =? 1) || (p =? 2) then Some (O, p) else None | _ => None end.
(** One cable. *)
Definition ex_single (b : nat) (p : N) : option (nat * N) :=
  match b with O => if p =? 1 then Some (1%nat, 1) else None | 1%nat => if p =? 1 then Some (O, 1) else None | _ => None end.
Lemma ex_macs_ok : driver_macs TinyNF ex_macs.
Proof.
  intros dev i. unfold ex_macs. split.
  - destruct (i <? 6); [|reflexivity]. unfold endpoint_mac. assert (X : forall k, N.shiftr dev k mod 256 < 256) by (intros k; apply N.mod_upper_bound; discriminate).
    destruct (N.to_nat i) as [|[|[|[|[|[|n]]]]]]; cbn [nth]; auto; try reflexivity. destruct n; reflexivity.
  - intros I. rewrite (proj2 (N.ltb_lt i 6) I). reflexivity.
Qed.
Lemma ex_good : forall peer, peer = ex_double \/ peer = ex_single -> good ex_conf peer.
Proof.
  intros peer P. constructor.
  - intros b. split; [|vm_compute; discriminate]. unfold layout_ok. split; [unfold MAC_SIZE; lia|]. split; [discriminate|]. split; [discriminate|]. right. vm_compute. discriminate.
  - intros b. reflexivity.
  - intros b. exact ex_macs_ok.
  - intros b p b' p' E. cbn [ex_conf c_n]. destruct P as [-> | ->]; destruct b as [|[|b]]; cbn in E; try discriminate;
      destruct (N.eqb_spec p 1) as [->|?]; cbn in E; try discriminate; try (destruct (N.eqb_spec p 2) as [->|?]; cbn in E; try discriminate); injection E as <- <-; reflexivity.
Qed.
(** A frame from 2 to everybody. *)
Definition ex_data (i : N) : N := if i <? 6 then 255 else if i =? 6 then 2 else 0.
Definition ex_st : net := mkNet (fun b => mkBr (talloc MAC_SIZE 2 100) (repeat 0 2%nat) (stp_init 3 (N.of_nat b) 1000)) (fun _ => 0) [] [].
Lemma ex_start : start ex_conf ex_st.
Proof. repeat split. Qed.
(** An execution, by giving which frame in flight arrives next and when. *)
Fixpoint exec (conf : nat -> bconf) (peer : nat -> N -> option (nat * N)) (st : net) (l : list (nat * N)) : option (list event * net) :=
  match l with
  | [] => Some ([], st)
  | (k, t) :: l' =>
      match nth_error (flight st) k with
      | Some f => if (now st (f_br f) <=? t) && (t <? TIME_MAX) && (t <=? c_upd (conf (f_br f))) then match sends conf st f t with
          | Some out => match exec conf peer (mkNet
              (fun b => if Nat.eqb b (f_br f) then becomes conf st f t else brs st b) (fun b => if Nat.eqb b (f_br f) then t else now st b)
              (firstn k (flight st) ++ skipn (S k) (flight st) ++ arrivals peer (f_br f) out) (departures (f_br f) out ++ sent st)) l' with
            | Some (es, st') => Some (Arrive f t :: es, st') | None => None end
          | None => None end else None
      | None => None
      end
  end.
Lemma exec_run : forall conf peer l st es st', exec conf peer st l = Some (es, st') -> run conf peer st es st' /\ existsb host es = false /\ length (filter arrival es) = length l /\ Forall (calm conf) es.
Proof.
  intros conf peer. induction l as [|[k t] l IH]; intros st es st' E; cbn [exec] in E; [injection E as <- <-; repeat split; try apply r_nil; constructor|].
  destruct (nth_error (flight st) k) as [f|] eqn:F; [|discriminate]. destruct ((now st (f_br f) <=? t) && (t <? TIME_MAX) && (t <=? c_upd (conf (f_br f)))) eqn:T; [|discriminate].
  destruct (sends conf st f t) as [out|] eqn:SE; [|discriminate]. destruct (exec _ _ _ l) as [[es1 st1]|] eqn:X; [|discriminate]. injection E as <- <-.
  apply IH in X as (R & H & A & C). apply andb_true_iff in T as [T T3]. apply andb_true_iff in T as [T1 T2]. apply N.leb_le in T1, T3. apply N.ltb_lt in T2.
  split; [|split; [exact H|split; [cbn; rewrite A; reflexivity|constructor; [exact T3|exact C]]]]. eapply r_cons; [|exact R].
  apply h_arrive; auto. clear -F. revert k F. induction (flight st) as [|x q IH]; intros [|k] F; try discriminate; cbn in *; [injection F as ->; reflexivity|]. rewrite <- (IH k F). reflexivity.
Qed.
Definition ports (fs : list frame) : list (nat * N) := map (fun f => (f_br f, f_port f)) fs.
Definition same_ports (a b : list (nat * N)) : bool := if list_eq_dec (fun x y : nat * N => match Nat.eq_dec (fst x) (fst y), N.eq_dec (snd x) (snd y) with left E, left F => left (eq_trans (surjective_pairing x) (eq_trans (f_equal2 pair E F) (eq_sym (surjective_pairing y)))) | right n, _ => right (fun H => n (f_equal fst H)) | _, right n => right (fun H => n (f_equal snd H)) end) a b then true else false.
Lemma same_ports_eq : forall a b, same_ports a b = true -> a = b.
Proof. intros a b. unfold same_ports. destruct list_eq_dec; [auto|discriminate]. Qed.
Lemma exec_example : forall conf peer st f l fl se,
  f_port f < N.of_nat (c_n (conf (f_br f))) -> peer (f_br f) (f_port f) = None -> data_ok (f_data f) ->
  match exec conf peer (mkNet (brs st) (now st) (f :: flight st) (sent st)) l with Some (_, st') => same_ports (ports (flight st')) fl && same_ports (ports (sent st')) se | None => false end = true ->
  exists es st', run conf peer st (Host f :: es) st' /\ existsb host es = false /\ length (filter arrival es) = length l /\ Forall (calm conf) es /\ ports (flight st') = fl /\ ports (sent st') = se.
Proof.
  intros conf peer st f l fl se P N D E. destruct (exec _ _ _ l) as [[es st']|] eqn:X; [|discriminate]. apply andb_true_iff in E as [E1 E2]. apply same_ports_eq in E1, E2.
  apply exec_run in X as (R & H & A & C). exists es, st'. split; [|auto]. eapply r_cons; [|exact R]. apply h_host; auto.
Qed.
(** From the host at bridge 0 to bridge 1 by the first cable, back by the second, and again: the frame its host sent comes back to it. *)
Definition ex_way (i : nat) : stop := match i with O => mkStop 0 0 1 | S i' => if Nat.even i' then mkStop 1 1 2 else mkStop 0 2 1 end.
Lemma ex_data_ok : data_ok ex_data.
Proof. intros o. unfold ex_data. destruct (o <? 6), (o =? 6); reflexivity. Qed.
Example C150_circulates_example :
  (forall i, through ex_conf (ex_way i) /\ linked ex_double (ex_way i) (ex_way (S i))) /\ good ex_conf ex_double /\ start ex_conf ex_st /\ N.odd (ld48 ex_data 0) = true /\ ld48 ex_data 0 <> STP_ADDR /\
  exists es st, run ex_conf ex_double ex_st (Host (coming 60 ex_data (ex_way 0)) :: es) st /\ existsb host es = false /\ length (filter arrival es) = 4%nat /\ Forall (calm ex_conf) es /\
    ports (flight st) = [(0%nat, 2); (1%nat, 2)] /\ In (0%nat, 0) (ports (sent st)) /\ In (1%nat, 0) (ports (sent st)).
Proof.
  split; [|split; [apply ex_good; auto|split; [apply ex_start|split; [reflexivity|split; [discriminate|]]]]].
  - intros i. destruct i as [|i]; [split; [split|]; cbn; try reflexivity; discriminate|]. unfold ex_way, linked. rewrite Nat.even_succ, <- Nat.negb_even. destruct (Nat.even i); cbn [negb]; (split; [split|]; cbn; try reflexivity; discriminate).
  - destruct (exec_example ex_conf ex_double ex_st (coming 60 ex_data (ex_way 0)) [(0%nat, 5); (0%nat, 6); (0%nat, 7); (1%nat, 8)] [(0%nat, 2); (1%nat, 2)] [(0%nat, 0); (0%nat, 2); (1%nat, 0); (1%nat, 1); (1%nat, 0); (1%nat, 2); (0%nat, 1); (0%nat, 2)]) as (es & st & R & H & A & C & F & E);
      [reflexivity|reflexivity|exact ex_data_ok|vm_compute; reflexivity|].
    exists es, st. repeat (split; [assumption|]). rewrite E. cbn. tauto.
Qed.
(** A tree: one cable. *)
Definition ex_rank (b : nat) (p : N) : nat := if p =? 1 then 0%nat else 1%nat.
Example C150_ends_example : tree ex_single ex_rank /\ (forall b, (c_n (ex_conf b) <= 3)%nat) /\ weigh ex_rank 3 [coming 60 ex_data (ex_way 0)] = 4%nat.
Proof.
  split; [|split; [intros b; cbn; lia|reflexivity]]. intros b p q b' p' NE E. unfold ex_rank.
  assert (Q : q = 1 /\ p' = 1).
  { destruct b as [|[|b]]; cbn in E; try discriminate; (destruct (N.eqb_spec q 1) as [->|?]; [|discriminate]); injection E as <- <-; auto. }
  destruct Q as [-> ->]. cbn. destruct (N.eqb_spec p 1); [congruence|lia].
Qed.
(** With one cable everything comes to rest, and the host at bridge 1 has got the frame. *)
Example C150_reaches_example : let w i := match i with O => mkStop 0 0 1 | _ => mkStop 1 1 0 end in
  (forall i, (i <= 1)%nat -> through ex_conf (w i)) /\ (forall i, (i < 1)%nat -> linked ex_single (w i) (w (S i))) /\ good ex_conf ex_single /\
  exists es st, run ex_conf ex_single ex_st (Host (coming 60 ex_data (w O)) :: es) st /\ existsb host es = false /\ length (filter arrival es) = 2%nat /\ Forall (calm ex_conf) es /\ flight st = [] /\
    ports (sent st) = [(1%nat, 0); (1%nat, 2); (0%nat, 1); (0%nat, 2)].
Proof.
  intros w. split; [intros [|i] _; split; cbn; try reflexivity; discriminate|]. split; [intros i I; destruct i; [reflexivity|lia]|]. split; [apply ex_good; auto|].
  destruct (exec_example ex_conf ex_single ex_st (coming 60 ex_data (w O)) [(0%nat, 5); (0%nat, 6)] [] [(1%nat, 0); (1%nat, 2); (0%nat, 1); (0%nat, 2)]) as (es & st & R & H & A & C & F & E);
    [reflexivity|reflexivity|exact ex_data_ok|vm_compute; reflexivity|].
  exists es, st. repeat (split; [assumption|]). split; [destruct (flight st); [reflexivity|discriminate F]|exact E].
Qed.
(** An update: 34 bytes on both other ports, with the bridge's root and identity, but not to the address the other bridges look for. *)
Example C150_wire_example : match sends ex_conf ex_st (mkF 1 0 60 ex_data) 2000 with
  | Some out => map (fun x => (fst x, bpdu_root (snd x), bpdu_cost (snd x), ld64 (snd x) 26, ld48 (snd x) 0 =? STP_ADDR)) out = [((1, 34), 1, 0, 1, false); ((2, 34), 1, 0, 1, false)]
  | None => False end.
Proof. vm_compute. reflexivity. Qed.
