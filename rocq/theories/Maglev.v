(** * The load balancer (nf/maglev) *)

From Coq Require Import NArith ZArith Znumtheory List Bool Lia Arith.
From Verif Require Import Solver IndexPool HashMap Cht Table Firewall ExpSet.
Import ListNotations.
Open Scope nat_scope.

Record balancer := mkBal {
  flows : table;              (* flow_indices, flow_heap, flow_pool *)
  flow_backends : list N;
  backend_pool : pool;
  cht_data : list nat }.
Local Opaque flow_bytes.

(** env/include/structs/cht.h: MAX_CHT_HEIGHT. *)
Definition MAX_CHT_HEIGHT : N := 40000.

Section Maglev.
Variable hash : bytes -> N.
Variables base loc : N.
Variable n : nat.                 (* devices_count *)
Variable cht_height : nat.
Variable cap : nat.               (* "flow capacity" *)
Variables fexp bexp : N.          (* expiration times *)
Notation tlearn' := (tlearn hash FLOW_SIZE base loc).
Notation tfind' := (tfind hash FLOW_SIZE base loc).

(** maglev.c 12-38 and balancer.h 32-42, once the configuration is read. *)
Definition mg_init : option balancer :=
  if n <? 2 then None
  else if (cht_height =? 0) || (MAX_CHT_HEIGHT <=? N.of_nat cht_height)%N then None
  else if cht_height <=? n - 1 then None
  else option_map (mkBal (talloc FLOW_SIZE cap fexp) (repeat 0%N cap) (pool_alloc (n - 1) bexp))
                  (cht_alloc cht_height (n - 1)).

(** balancer.h 62-79: [tlearn] looks the flow up again, but line 48 did not find it or
    lines 58-59 removed it. *)
Definition get_new_backend (b : balancer) (f : flow) (time : N) : option N * balancer :=
  match cht_find (cht_data b) cht_height (n - 1) (N.to_nat (hash (flow_bytes f))) (backend_pool b) time with
  | None => (None, b)
  | Some backend =>
      (Some (N.of_nat backend),
       mkBal (snd (tlearn' (flows b) time (flow_bytes f))) (flow_backends b) (backend_pool b) (cht_data b))
  end.
(** balancer.h 44-80. *)
Definition get_backend (b : balancer) (f : flow) (time : N) : option N * balancer :=
  match tfind' (flows b) (flow_bytes f) with
  | Some index =>
      let backend := nth index (flow_backends b) 0%N in
      if pool_used (backend_pool b) time (N.to_nat backend) then
        (Some backend,
         mkBal (mkTab (keys (flows b)) (tmap (flows b)) (pool_refresh (tpool (flows b)) time index))
               (flow_backends b) (backend_pool b) (cht_data b))
      else
        get_new_backend (mkBal (tdrop hash FLOW_SIZE base loc (flows b) (flow_bytes f) index)
                               (flow_backends b) (backend_pool b) (cht_data b)) f time
  | None => get_new_backend b f time
  end.
(** maglev.c 40-61, with balancer.h 82 for heartbeats: the device the packet is sent to. *)
Definition mg_handle (b : balancer) (p : pkt) : option N * balancer :=
  if negb (is_ipv4 p && is_tcpudp p) then (None, b)
  else if (p_device p <? N.of_nat (n - 1))%N then
    (None, mkBal (flows b) (flow_backends b)
                 (pool_refresh (backend_pool b) (p_time p) (N.to_nat (p_device p))) (cht_data b))
  else get_backend b (pkt_flow p) (p_time p).

(** ** Specification over histories (latest first) *)

(** The packets that count, spec.py 13: TCP or UDP over IPv4. *)
Definition is_ip_tcpudp (p : pkt) : bool := is_ipv4 p && is_tcpudp p.
Definition mpkt_ok (p : pkt) : Prop :=
  (p_device p < N.of_nat n /\ p_time p < TIME_MAX)%N /\ flow_ok (pkt_flow p).
Inductive mg_hist : list (pkt * option N) -> balancer -> Prop :=
| mh_nil : forall b, mg_init = Some b -> mg_hist [] b
| mh_cons : forall h b p o b', mg_hist h b -> mpkt_ok p -> mg_handle b p = (o, b') -> mg_hist ((p, o) :: h) b'.

(** The last heartbeat of a backend. *)
Fixpoint last_beat (d : N) (h : list (pkt * option N)) : option N :=
  match h with
  | [] => None
  | (p, _) :: h' => if is_ip_tcpudp p && (p_device p =? d)%N then Some (p_time p) else last_beat d h'
  end.
(** The backend gave a sign of life within the expiration time. *)
Definition backend_alive (d time : N) (h : list (pkt * option N)) : Prop :=
  (d < N.of_nat (n - 1))%N /\ exists t, last_beat d h = Some t /\ (time <= t + bexp)%N.

Definition for_backends (p : pkt) : bool := is_ip_tcpudp p && (p_device p =? N.of_nat (n - 1))%N.

Record mg_inv (h : list (pkt * option N)) (b : balancer) : Prop := mkMI {
  mi_pool : pool_wf (n - 1) (backend_pool b);
  mi_exp : expiry (backend_pool b) = bexp;
  mi_beat : forall d, (d < N.of_nat (n - 1))%N -> pool_abs (backend_pool b) (N.to_nat d) = last_beat d h;
  mi_zero : forall i, nth i (flow_backends b) 0%N = 0%N;
  mi_cht : cht_alloc cht_height (n - 1) = Some (cht_data b) }.

Lemma get_backend_keeps : forall b f t o b', get_backend b f t = (o, b') ->
  flow_backends b' = flow_backends b /\ backend_pool b' = backend_pool b /\ cht_data b' = cht_data b.
Proof.
  intros b f t o b' E. unfold get_backend, get_new_backend in E.
  repeat match type of E with
         | context [match tfind' ?a ?k with _ => _ end] => destruct (tfind' a k)
         | context [if ?c then _ else _] => destruct c
         | context [match cht_find ?a ?c ?d ?e ?f ?g with _ => _ end] => destruct (cht_find a c d e f g)
         end; injection E as _ <-; auto.
Qed.

Lemma mg_hist_inv : forall h b, mg_hist h b -> mg_inv h b.
Proof.
  intros h b H. induction H as [b E|h b p o b' H IH Hp E].
  - unfold mg_init in E. destruct (n <? 2); [discriminate|]. destruct (_ || _); [discriminate|].
    destruct (cht_height <=? n - 1); [discriminate|]. destruct (cht_alloc cht_height (n - 1)) eqn:C; [|discriminate].
    injection E as <-. constructor; cbn [backend_pool flow_backends cht_data].
    + apply pool_alloc_wf.
    + reflexivity.
    + intros d Hd. cbn [last_beat]. apply pool_alloc_abs.
    + intros i. destruct (Nat.lt_ge_cases i cap); [apply nth_repeat|apply nth_overflow; rewrite repeat_length; lia].
    + exact C.
  - destruct IH as [A B C D E0]. destruct Hp as ((Hd & Ht) & _). unfold mg_handle in E; fold (is_ip_tcpudp p) in E.
    destruct (is_ip_tcpudp p) eqn:I; cbn [negb] in E.
    + destruct (N.ltb_spec (p_device p) (N.of_nat (n - 1))) as [Hlt|Hge].
      * injection E as _ <-. assert (Hlt' : N.to_nat (p_device p) < n - 1) by lia.
        pose proof (pool_step_spec (n - 1) (backend_pool b) (ORefresh (p_time p) (N.to_nat (p_device p))) A) as S.
        cbn [pop_ok pool_step spec_step] in S. rewrite (proj2 (N.ltb_lt _ _) Ht), (proj2 (Nat.ltb_lt _ _) Hlt') in S.
        destruct (S eq_refl) as (Hwf & He & Hm). clear S.
        constructor; cbn [backend_pool flow_backends cht_data]; [exact Hwf|congruence| |exact D|exact E0].
        intros d Hd'. rewrite Hm. unfold pupd. cbn [last_beat]. rewrite I. cbn [andb].
        destruct (N.eqb_spec (p_device p) d) as [Q|Q].
        -- subst d. rewrite Nat.eqb_refl. reflexivity.
        -- destruct (Nat.eqb_spec (N.to_nat d) (N.to_nat (p_device p))) as [R|R]; [lia|]. apply C. exact Hd'.
      * destruct (get_backend_keeps _ _ _ _ _ E) as (K1 & K2 & K3). constructor; rewrite ?K1, ?K2, ?K3; auto.
        intros d Hd'. cbn [last_beat]. destruct (N.eqb_spec (p_device p) d) as [Q|Q]; [lia|]. rewrite andb_false_r. apply C. exact Hd'.
    + injection E as _ <-. constructor; auto. intros d Hd'. cbn [last_beat]. rewrite I. cbn. apply C. exact Hd'.
Qed.

Lemma avail_alive : forall h b, mg_inv h b -> forall time d, d < n - 1 ->
  (avail (backend_pool b) time d <-> backend_alive (N.of_nat d) time h).
Proof.
  intros h b I time d Hd. unfold avail, backend_alive. pose proof (mi_beat _ _ I (N.of_nat d) ltac:(lia)) as E.
  rewrite Nat2N.id in E. rewrite E, (mi_exp _ _ I). split.
  - intros (v & Q & Y). split; [lia|]. exists v. split; [exact Q|]. unfold young in Y. lia.
  - intros (_ & v & Q & Y). exists v. split; [exact Q|]. unfold young. lia.
Qed.

(** ** Packets go to live backends *)
Definition chosen (b : balancer) (p : pkt) : option nat :=
  cht_find (cht_data b) cht_height (n - 1) (N.to_nat (hash (flow_bytes (pkt_flow p)))) (backend_pool b) (p_time p).

Lemma mg_out : forall h b p, mg_hist h b -> for_backends p = true ->
  fst (mg_handle b p) =
  match tfind' (flows b) (flow_bytes (pkt_flow p)) with
  | Some _ => if pool_used (backend_pool b) (p_time p) 0 then Some 0%N else option_map N.of_nat (chosen b p)
  | None => option_map N.of_nat (chosen b p)
  end.
Proof.
  intros h b p Hh F. pose proof (mg_hist_inv _ _ Hh) as I. unfold for_backends in F. apply andb_true_iff in F as [F1 F2].
  apply N.eqb_eq in F2. unfold mg_handle; fold (is_ip_tcpudp p). rewrite F1, F2, N.ltb_irrefl. cbn [negb].
  unfold get_backend, get_new_backend. cbn [cht_data backend_pool flow_backends flows]. unfold chosen.
  destruct (tfind' (flows b) (flow_bytes (pkt_flow p))) as [i|].
  - rewrite (mi_zero _ _ I i). change (N.to_nat 0) with 0. destruct (pool_used (backend_pool b) (p_time p) 0); [reflexivity|].
    destruct (cht_find _ _ _ _ _ _); reflexivity.
  - destruct (cht_find _ _ _ _ _ _); reflexivity.
Qed.

Hypothesis Hprime : prime (Z.of_nat cht_height).

Lemma chosen_spec : forall h b p, mg_inv h b ->
  match chosen b p with
  | Some d => d < n - 1 /\ first_avail (backend_pool b) (p_time p) (cht_row (n - 1) (cht_data b) (N.to_nat (hash (flow_bytes (pkt_flow p))) mod cht_height)) d
  | None => forall d, d < n - 1 -> ~ avail (backend_pool b) (p_time p) d
  end.
Proof.
  intros h b p I. destruct (cht_find_complete cht_height (n - 1) Hprime) as (data & E & S).
  rewrite (mi_cht _ _ I) in E. injection E as <-. apply S.
Qed.

(** Traffic goes to a live backend, and is dropped only if there is none. *)
Theorem mg_live : forall h b p, mg_hist h b -> for_backends p = true ->
  match fst (mg_handle b p) with
  | Some d => backend_alive d (p_time p) h
  | None => forall d, ~ backend_alive d (p_time p) h
  end.
Proof.
  intros h b p Hh F. rewrite (mg_out h b p Hh F). pose proof (mg_hist_inv _ _ Hh) as I. pose proof (chosen_spec h b p I) as C.
  assert (G : match option_map N.of_nat (chosen b p) with
    | Some d => backend_alive d (p_time p) h | None => forall d, ~ backend_alive d (p_time p) h end).
  { destruct (chosen b p) as [d|]; cbn [option_map].
    - destruct C as (Hd & _ & _ & _ & A & _). apply (avail_alive h b I); assumption.
    - intros d Hal. assert (Hd : (d < N.of_nat (n - 1))%N) by apply Hal. apply (C (N.to_nat d)); [lia|].
      apply (avail_alive h b I); [lia|]. rewrite N2Nat.id. exact Hal. }
  destruct (tfind' (flows b) (flow_bytes (pkt_flow p))); [|exact G].
  destruct (pool_used (backend_pool b) (p_time p) 0) eqn:U; [|exact G].
  apply pool_used_avail in U. assert (Hn : 0 < n - 1).
  { destruct U as (v & U & _). unfold pool_abs in U. destruct (mi_pool _ _ I) as [HL _]. rewrite HL in U.
    destruct (0 <? n - 1) eqn:Q; [apply Nat.ltb_lt in Q; exact Q|discriminate]. }
  apply (avail_alive h b I (p_time p) 0 Hn) in U. exact U.
Qed.

(** Nothing else is forwarded. *)
Theorem mg_only : forall b p, for_backends p = false -> (p_device p < N.of_nat n)%N -> fst (mg_handle b p) = None.
Proof.
  intros b p F Hd. unfold for_backends in F. unfold mg_handle; fold (is_ip_tcpudp p). destruct (is_ip_tcpudp p); [|reflexivity]. cbn [negb andb] in *.
  apply N.eqb_neq in F. destruct (N.ltb_spec (p_device p) (N.of_nat (n - 1))); [reflexivity|]. lia.
Qed.

(** A flow stays on its backend if no backend came up since and backend 0 is not alive. *)
Theorem mg_sticky : forall h1 b1 p1 d h2 b2 p2, mg_hist h1 b1 -> for_backends p1 = true ->
  fst (mg_handle b1 p1) = Some d ->
  mg_hist h2 b2 -> for_backends p2 = true -> pkt_flow p2 = pkt_flow p1 ->
  backend_alive d (p_time p2) h2 ->
  (forall x, backend_alive x (p_time p2) h2 -> backend_alive x (p_time p1) h1) ->
  ~ backend_alive 0 (p_time p2) h2 ->
  fst (mg_handle b2 p2) = Some d.
Proof.
  intros h1 b1 p1 d h2 b2 p2 H1 F1 E1 H2 F2 Ef Hal Hno H0.
  pose proof (mg_hist_inv _ _ H1) as I1. pose proof (mg_hist_inv _ _ H2) as I2.
  pose proof (chosen_spec h1 b1 p1 I1) as C1. pose proof (chosen_spec h2 b2 p2 I2) as C2. rewrite Ef in C2.
  assert (Hcd : cht_data b1 = cht_data b2).
  { pose proof (mi_cht _ _ I1). pose proof (mi_cht _ _ I2). congruence. }
  rewrite <- Hcd in C2. clear Hcd.
  assert (U0 : forall h b t, mg_inv h b -> ~ backend_alive 0 t h -> pool_used (backend_pool b) t 0 = false).
  { intros h b t I Hn. destruct (pool_used (backend_pool b) t 0) eqn:U; [|reflexivity]. exfalso.
    apply pool_used_avail in U. assert (Hn' : 0 < n - 1).
    { destruct U as (v & U & _). unfold pool_abs in U. destruct (mi_pool _ _ I) as [HL _]. rewrite HL in U.
      destruct (0 <? n - 1) eqn:Q; [apply Nat.ltb_lt in Q; exact Q|discriminate]. }
    apply Hn. apply (avail_alive h b I t 0 Hn') in U. exact U. }
  assert (D0 : d <> 0%N) by (intros ->; contradiction).
  rewrite (mg_out h1 b1 p1 H1 F1) in E1. rewrite (mg_out h2 b2 p2 H2 F2).
  assert (E1' : option_map N.of_nat (chosen b1 p1) = Some d).
  { destruct (tfind' (flows b1) (flow_bytes (pkt_flow p1))); [|exact E1].
    destruct (pool_used (backend_pool b1) (p_time p1) 0); [congruence|exact E1]. }
  rewrite (U0 h2 b2 (p_time p2) I2 H0).
  assert (G : option_map N.of_nat (chosen b2 p2) = Some d); [|destruct (tfind' (flows b2) (flow_bytes (pkt_flow p2))); exact G].
  destruct (chosen b1 p1) as [d1|]; [|discriminate]. cbn in E1'. injection E1' as <-.
  destruct C1 as (Hd1 & bef & aft & Er & A1 & N1).
  destruct (chosen b2 p2) as [d2|].
  - destruct C2 as (Hd2 & bef2 & aft2 & Er2 & A2 & N2). cbn. f_equal. f_equal.
    destruct (cht_rows_prime cht_height (n - 1) Hprime) as (data & Ed & Hlen & Hrows).
    rewrite (mi_cht _ _ I1) in Ed. injection Ed as <-.
    assert (Hh : cht_height <> 0) by (pose proof (prime_ge_2 _ Hprime); lia).
    pose proof (Hrows (N.to_nat (hash (flow_bytes (pkt_flow p1))) mod cht_height) (Nat.mod_upper_bound _ cht_height Hh)) as P.
    set (row := cht_row (n - 1) (cht_data b1) (N.to_nat (hash (flow_bytes (pkt_flow p1))) mod cht_height)) in *.
    assert (Inr : forall x, In x row -> x < n - 1) by (intros x Hx; apply (Permutation.Permutation_in _ P) in Hx; apply in_seq in Hx; lia).
    assert (Hal2 : avail (backend_pool b2) (p_time p2) d1) by (apply (avail_alive h2 b2 I2); assumption).
    assert (Av1 : avail (backend_pool b1) (p_time p1) d2).
    { apply (avail_alive h1 b1 I1); [exact Hd2|]. apply Hno. apply (avail_alive h2 b2 I2); assumption. }
    (* both are the first available of the same list *)
    clear -Er Er2 N1 N2 Hal2 Av1. rewrite Er in Er2. clear Er.
    revert bef2 Er2 N2. induction bef as [|x bef IH]; intros [|y bef2] E N2; cbn in E; injection E as E1 E2.
    + congruence.
    + exfalso. subst y. apply (N2 d1); [left; reflexivity|exact Hal2].
    + exfalso. subst x. apply (N1 d2); [left; reflexivity|exact Av1].
    + subst y. apply (IH (fun z Hz => N1 z (or_intror Hz)) bef2 E2). intros z Hz. apply N2. right. exact Hz.
  - exfalso. apply (C2 d1 Hd1). apply (avail_alive h2 b2 I2); assumption.
Qed.

(** ** Flows known to the table *)
Hypothesis L : layout_ok FLOW_SIZE base loc cap.
Hypothesis HC : (N.of_nat cap <= 2 ^ 63)%N.

Lemma mg_table_step : forall b p o b', table_ok hash FLOW_SIZE base loc cap fexp (flows b) -> mpkt_ok p ->
  mg_handle b p = (o, b') ->
  table_ok hash FLOW_SIZE base loc cap fexp (flows b') /\
  (for_backends p = true -> o <> None ->
   (exists i, view (flows b') i = Some (flow_bytes (pkt_flow p), p_time p)) \/
   (forall i, i < cap -> exists k t, view (flows b) i = Some (k, t) /\ young (p_time p) fexp t)).
Proof.
  intros b p o b' Hok ((Hd & Ht) & Hf) E. unfold mg_handle in E; fold (is_ip_tcpudp p) in E. unfold for_backends.
  destruct (is_ip_tcpudp p); cbn [negb andb] in *; [|injection E as <- <-; split; [exact Hok|discriminate]].
  destruct (N.ltb_spec (p_device p) (N.of_nat (n - 1))) as [Hlt|Hge].
  { injection E as <- <-. split; [exact Hok|]. intros Q. apply N.eqb_eq in Q. lia. }
  set (k := flow_bytes (pkt_flow p)) in *.
  pose proof (find_spec hash FLOW_SIZE base loc cap fexp L (flows b) k Hok (flow_bytes_length _)) as FS.
  assert (New : forall tb1, table_ok hash FLOW_SIZE base loc cap fexp tb1 ->
    get_new_backend (mkBal tb1 (flow_backends b) (backend_pool b) (cht_data b)) (pkt_flow p) (p_time p) = (o, b') ->
    table_ok hash FLOW_SIZE base loc cap fexp (flows b') /\
    (o <> None -> (exists i, view (flows b') i = Some (k, p_time p)) \/
       (forall i, i < cap -> exists k t, view tb1 i = Some (k, t) /\ young (p_time p) fexp t))).
  { intros tb1 Ho1 E1. unfold get_new_backend in E1. cbn [flows cht_data backend_pool flow_backends] in E1.
    destruct (cht_find _ _ _ _ _ _); [|assert (b' = mkBal tb1 (flow_backends b) (backend_pool b) (cht_data b)) by congruence; assert (o = None) by congruence; subst; split; [exact Ho1|congruence]].
    fold k in E1. pose proof (learn_spec hash FLOW_SIZE base loc cap fexp L tb1 (p_time p) k Ho1 (flow_bytes_length _) Ht) as LS.
    destruct (tlearn' tb1 (p_time p) k) as [r tb2]. destruct LS as [Ho2 LS].
    assert (Eb : flows b' = tb2) by (cbn [snd] in E1; apply (f_equal (fun x => flows (snd x))) in E1; cbn [snd flows] in E1; congruence).
    rewrite Eb. split; [exact Ho2|]. intros _. destruct r as [i|].
    - left. exists i. destruct LS as (_ & _ & V). rewrite V, Nat.eqb_refl. reflexivity.
    - right. apply LS. }
  unfold get_backend in E. fold k in E. destruct (tfind' (flows b) k) as [i|] eqn:F.
  - destruct (proj1 (FS i) eq_refl) as [t Hv]. destruct (pool_used _ _ _).
    + injection E as <- <-. cbn [flows].
      destruct (refresh_ok hash FLOW_SIZE base loc cap fexp (flows b) i (p_time p) Hok Ht (ex_intro _ _ Hv)) as [Ho V].
      split; [exact Ho|]. intros _ _. left. exists i. rewrite V, Nat.eqb_refl, <- (view_key _ _ _ _ Hv). reflexivity.
    + destruct (drop_spec hash FLOW_SIZE base loc cap fexp L (flows b) k i k t Hok Hv) as [Ho V].
      destruct (New _ Ho E) as [Q1 Q2]. split; [exact Q1|]. intros _ Q. destruct (Q2 Q) as [R|R]; [left; exact R|].
      exfalso. destruct (R i (view_lt hash FLOW_SIZE base loc cap fexp _ _ _ Hok Hv)) as (k' & t' & R' & _).
      rewrite V, Nat.eqb_refl in R'. discriminate.
  - assert (Eb : mkBal (flows b) (flow_backends b) (backend_pool b) (cht_data b) = b) by (destruct b; reflexivity).
    specialize (New (flows b) Hok). rewrite Eb in New. destruct (New E) as [Q1 Q2]. split; [exact Q1|]. intros _. exact Q2.
Qed.

Lemma mg_table_ok : forall h b, mg_hist h b -> table_ok hash FLOW_SIZE base loc cap fexp (flows b).
Proof.
  intros h b H. induction H as [b E|h b p o b' H IH Hp E].
  - unfold mg_init in E. destruct (n <? 2); [discriminate|]. destruct (_ || _); [discriminate|].
    destruct (cht_height <=? n - 1); [discriminate|]. destruct (cht_alloc cht_height (n - 1)); [|discriminate].
    injection E as <-. cbn [flows]. apply talloc_ok; assumption.
  - apply (mg_table_step b p o b' IH Hp E).
Qed.

(** A packet of a known flow goes to backend 0 when backend 0 is alive, wherever the
    flow was sent before. *)
Theorem mg_known_to_zero : forall h b p1 o1 b1 p2, mg_hist h b -> mpkt_ok p1 -> for_backends p1 = true ->
  mg_handle b p1 = (Some o1, b1) ->
  (exists i, i < cap /\ forall k t, view (flows b) i = Some (k, t) -> ~ young (p_time p1) fexp t) ->
  mpkt_ok p2 -> for_backends p2 = true -> pkt_flow p2 = pkt_flow p1 ->
  backend_alive 0 (p_time p2) ((p1, Some o1) :: h) ->
  fst (mg_handle b1 p2) = Some 0%N.
Proof.
  intros h b p1 o1 b1 p2 Hh Hp1 F1 E1 (i0 & Hi0 & Hroom) Hp2 F2 Ef Hal.
  pose proof (mg_table_ok _ _ Hh) as Hok. destruct (mg_table_step b p1 _ b1 Hok Hp1 E1) as [Hok1 K].
  destruct (K F1) as [[i Hv]|Hfull]; [discriminate| |destruct (Hfull i0 Hi0) as (k & t & Q & Y); exfalso; exact (Hroom k t Q Y)].
  pose proof (mh_cons h b p1 (Some o1) b1 Hh Hp1 E1) as Hh1. rewrite (mg_out _ b1 p2 Hh1 F2), Ef.
  rewrite (proj2 (find_spec hash FLOW_SIZE base loc cap fexp L (flows b1) _ Hok1 (flow_bytes_length _) i) (ex_intro _ _ Hv)).
  pose proof (mg_hist_inv _ _ Hh1) as I. assert (Hn : 0 < n - 1) by (destruct Hal as [Q _]; lia).
  rewrite (proj2 (pool_used_avail _ _ _)); [reflexivity|]. apply (avail_alive _ _ I); assumption.
Qed.

(** ** The specification, nf/maglev/spec.py 12-39

    [old] and [new] are the set of flows before and after; [backends] is the map of
    backends to times after. The assertion on the data (line 36) is not modelled: no code
    of the load balancer writes to the packet. *)
Definition mg_spec_py (old new : eset) (backends : N -> option N) (p : pkt) (sent : option N) : res bool :=
  if negb (is_ip_tcpudp p) then Ok (match sent with None => true | Some _ => false end)
  else if (p_device p =? N.of_nat (n - 1))%N then
    match sent with
    | None => Ok (forallb (fun d => match backends (N.of_nat d) with None => true | Some _ => false end) (seq 0 (n - 1)))
    | Some _ =>
        do known <- es_contains new (flow_bytes (pkt_flow p));
        Ok (known || es_full old)
    end
  else Ok (match backends (p_device p) with Some t => (t =? p_time p)%N | None => false end).
Definition beats (b : balancer) (d : N) : option N :=
  if (d <? N.of_nat (n - 1))%N then pool_abs (backend_pool b) (N.to_nat d) else None.

Theorem mg_meets_spec : forall h b p o b', mg_hist h b -> mpkt_ok p -> mg_handle b p = (o, b') ->
  (o = None -> for_backends p = true -> forall d, (d < N.of_nat (n - 1))%N -> last_beat d h = None) ->
  mg_spec_py (observe FLOW_SIZE base loc fexp cap (p_time p) (flows b))
             (observe FLOW_SIZE base loc fexp cap (p_time p) (flows b')) (beats b') p o = Ok true.
Proof.
  intros h b p o b' Hh Hp E Hnone. pose proof (mg_table_ok _ _ Hh) as Hok. destruct (mg_table_step b p o b' Hok Hp E) as [Hok' K].
  pose proof (mh_cons h b p o b' Hh Hp E) as Hh'. pose proof (mg_hist_inv _ _ Hh') as I'.
  unfold mg_spec_py. destruct Hp as ((Hd & Ht) & _). unfold for_backends in *.
  destruct (is_ip_tcpudp p) eqn:IP; cbn [negb andb] in *.
  2:{ unfold mg_handle in E; fold (is_ip_tcpudp p) in E. rewrite IP in E. cbn in E. injection E as <- _. reflexivity. }
  destruct (N.eqb_spec (p_device p) (N.of_nat (n - 1))) as [Q|Q].
  - destruct o as [o|].
    + destruct (contains_spec FLOW_SIZE base loc hash cap fexp L (flows b') (p_time p) (flow_bytes (pkt_flow p)) Hok') as (x & -> & Hx). cbn [bindr].
      destruct (K eq_refl) as [[i Hv]|Hfull]; [discriminate| |].
      * assert (x = true) as ->; [|reflexivity]. apply Hx. exists i, (p_time p). split; [exact Hv|]. unfold young. lia.
      * rewrite (proj2 (full_spec FLOW_SIZE base loc hash cap fexp (flows b) (p_time p) Hok) Hfull), orb_true_r. reflexivity.
    + f_equal. apply forallb_forall. intros d Hin. apply in_seq in Hin. unfold beats.
      destruct (N.ltb_spec (N.of_nat d) (N.of_nat (n - 1))); [|reflexivity]. rewrite (mi_beat _ _ I') by assumption.
      cbn [last_beat]. rewrite IP, Q. destruct (N.eqb_spec (N.of_nat (n - 1)) (N.of_nat d)); [lia|]. cbn [andb].
      rewrite (Hnone eq_refl eq_refl _ H). reflexivity.
  - unfold beats. destruct (N.ltb_spec (p_device p) (N.of_nat (n - 1))); [|lia]. rewrite (mi_beat _ _ I') by assumption.
    cbn [last_beat]. rewrite IP, N.eqb_refl. cbn [andb]. rewrite N.eqb_refl. reflexivity.
Qed.
End Maglev.
