(** Property theorems C152, C153, C157 and C160: the policer and its exact specification, and budgets per address. *)

From Coq Require Import NArith ZArith List Bool Lia Arith.
From Verif Require Import IndexPool HashMap Table Firewall Policer TimedSet PolicerExact.
Import ListNotations.
Open Scope nat_scope.

(** For all hash functions, placements of the keys, WAN devices, rates, bursts whose time to live fits in 64 bits, capacities, and all histories of
    packets in the order of time: the policer forwards exactly the packets that nf/policer/spec-exact.py forwards, to the same devices, provided
    that no packet as long as the burst is for an address that was used before and has expired.
    Partial: such packets are treated differently, see below. *)
Theorem C152_exact_partial : forall hash base loc wan rate burst cap st ps, layout_ok ADDR_SIZE base loc cap -> (N.of_nat cap <= 2 ^ 63)%N ->
  pol_init rate burst cap = Some st -> (10 ^ 9 * burst < 2 ^ 64)%N -> Forall pol_pkt_ok ps -> ordered 0 ps ->
  large_ok wan rate burst cap [] ex_init ps ->
  fst (pol_run hash base loc wan rate burst st ps) = ex_run wan rate burst cap ex_init ps.
Proof.
  intros hash base loc wan rate burst cap st ps L HC E B P O G.
  apply (ex_sim_run hash base loc wan rate burst cap) with (T := 0%N) (seen := []); try assumption.
  - unfold pol_init in E. destruct (N.eqb_spec rate 0); [discriminate|assumption].
  - apply ex_start; assumption.
Qed.
Print Assumptions C152_exact_partial.
(** In particular when all packets from the WAN are shorter than the burst. *)
Theorem C152_small_partial : forall hash base loc wan rate burst cap st ps, layout_ok ADDR_SIZE base loc cap -> (N.of_nat cap <= 2 ^ 63)%N ->
  pol_init rate burst cap = Some st -> (10 ^ 9 * burst < 2 ^ 64)%N -> Forall pol_pkt_ok ps -> ordered 0 ps ->
  (forall p, In p ps -> is_ipv4 p = true -> p_device p = wan -> (p_length p < burst)%N) ->
  fst (pol_run hash base loc wan rate burst st ps) = ex_run wan rate burst cap ex_init ps.
Proof.
  intros hash base loc wan rate burst cap st ps L HC E B P O S. apply C152_exact_partial; try assumption.
  clear E P O. generalize ex_init as es. generalize (@nil N) as seen. induction ps as [|p ps IH]; intros seen es; cbn [large_ok]; [exact I|]. split.
  - intros W Le. apply andb_true_iff in W as [W1 W2]. apply N.eqb_eq in W2. pose proof (S p (or_introl eq_refl) W1 W2). lia.
  - apply IH. intros q Hq. apply S. right. exact Hq.
Qed.
Print Assumptions C152_small_partial.

Definition x_hash (b : bytes) : N := (fold_right (fun x acc => x + 3 * acc) 0 b mod 2 ^ 32)%N.
Definition x_pkt (dst time len : N) : pkt := mkPkt 1 time len 0 0 8 17 5 dst 1 2.
(** The verdicts of the program and of the specification, for a rate of 10, a burst of 50 and room for [cap] addresses. *)
Definition x_both (cap : nat) (ps : list pkt) : list (option N) * list (option N) :=
  match pol_init 10 50 cap with
  | Some st => (fst (pol_run x_hash 4096 64 1 10 50 st ps), ex_run 1 10 50 cap ex_init ps)
  | None => ([], [])
  end.
(** Two addresses within their budgets and beyond, a third one for which there is no room until the others expire after 5 seconds, one that comes back
    when it has expired, a packet from the LAN, and one that is not IPv4. *)
Definition x_history : list pkt :=
  [x_pkt 7 1 40; x_pkt 7 1 20; x_pkt 8 2 50; x_pkt 7 2 10; x_pkt 7 2 10; x_pkt 9 3 10; x_pkt 9 5000000004 10; x_pkt 8 5000000005 49;
   mkPkt 0 5000000006 1000 0 0 8 17 5 7 1 2; mkPkt 1 5000000006 10 0 0 9 17 5 7 1 2; x_pkt 8 5000000007 50]%N.
Example C152_exact_example :
  layout_ok ADDR_SIZE 4096 64 2 /\ Forall pol_pkt_ok x_history /\ ordered 0 x_history /\ large_ok 1 10 50 2 [] ex_init x_history /\
  x_both 2 x_history = let o := [Some 0; None; Some 0; Some 0; None; None; Some 0; Some 0; Some 1; None; None]%N in (o, o).
Proof.
  split; [unfold layout_ok, ADDR_SIZE; lia|]. split; [repeat constructor|]. split; [repeat split; vm_compute; discriminate|].
  split; [|vm_compute; reflexivity]. unfold x_history. cbn [large_ok].
  repeat split; intros W Le; first [discriminate W|exfalso; revert Le; vm_compute; intros Le; apply Le; reflexivity|left; vm_compute; reflexivity|right; vm_compute; lia].
Qed.

(** The exact specification is not met in general: an address whose entry has expired starts anew in the specification, with a first packet as
    long as the burst allowed. The program finds the old entry, and wants the packet to be shorter than the burst. *)
Theorem C152_exact_refuted : exists ps, Forall pol_pkt_ok ps /\ ordered 0 ps /\ (forall p, In p ps -> (p_length p <= 50)%N) /\
  fst (x_both 2 ps) <> snd (x_both 2 ps).
Proof.
  exists [x_pkt 7 0 10; x_pkt 7 5000000001 50]%N. split; [repeat constructor|]. split; [repeat split; vm_compute; discriminate|]. split; [|vm_compute; discriminate].
  intros p [<-|[<-|[]]]; vm_compute; discriminate.
Qed.
Print Assumptions C152_exact_refuted.
(** And a packet longer than the burst, which must be dropped, keeps the entry of an expired address alive in the program only:
    an address that the specification has room for is then denied. *)
Theorem C152_kept_refuted : exists p q r, ordered 0 [p; q; r] /\ Forall pol_pkt_ok [p; q; r] /\ ip_dst p = ip_dst q /\
  x_both 1 [p; q; r] = ([Some 0%N; None; None], [Some 0%N; None; Some 0%N]).
Proof.
  exists (x_pkt 7 0 10), (x_pkt 7 5000000001 51), (x_pkt 8 5000000002 10). split; [repeat split; vm_compute; discriminate|]. split; [repeat constructor|].
  split; [reflexivity|vm_compute; reflexivity].
Qed.
Print Assumptions C152_kept_refuted.

(** For all histories of packets in the order of time to no more addresses than the policer has room for, all shorter than the burst: what becomes
    of the packets to one address is what would have become of them had no other packet come.
    Partial: packets as long as the burst, see below. *)
Theorem C153_apart_partial : forall hash base loc wan rate burst cap st ps who a, layout_ok ADDR_SIZE base loc cap -> (N.of_nat cap <= 2 ^ 63)%N ->
  pol_init rate burst cap = Some st -> (10 ^ 9 * burst < 2 ^ 64)%N -> Forall pol_pkt_ok ps -> ordered 0 ps ->
  (forall p, In p ps -> is_ipv4 p = true -> p_device p = wan -> (p_length p < burst)%N /\ In (ip_dst p) who) -> length who <= cap ->
  In a who -> (a < 2 ^ 32)%N ->
  let mine p := is_ipv4 p && (p_device p =? wan)%N && (ip_dst p =? a)%N in
  fates mine ps (fst (pol_run hash base loc wan rate burst st ps)) = fst (pol_run hash base loc wan rate burst st (filter mine ps)).
Proof.
  intros hash base loc wan rate burst cap st ps who a L HC E B P O S Hw Ha Hl mine. rewrite !C152_small_partial with (cap := cap); try assumption.
  - change mine with (to_addr wan a). apply (ex_apart wan rate burst cap who Hw a) with (T := 0%N); try assumption.
    + intros p Hp W. apply andb_true_iff in W as [W1 W2]. apply N.eqb_eq in W2. apply (S p Hp W1 W2).
    + split; [constructor|intros x []].
    + split; [constructor|intros x []].
    + split; reflexivity.
  - apply incl_Forall with (l1 := ps); [apply incl_filter|exact P].
  - apply ordered_filter. exact O.
  - intros p Hp H1 H2. apply filter_In in Hp as [Hp _]. apply (S p Hp H1 H2).
  - intros p Hp H1 H2. apply (S p Hp H1 H2).
Qed.
Print Assumptions C153_apart_partial.
(** The hypotheses are met, and the other address exceeds its budget. *)
Example C153_example : let ps := [x_pkt 7 1 40; x_pkt 8 1 49; x_pkt 8 1 49; x_pkt 7 2 30; x_pkt 7 2 10; x_pkt 8 3 49]%N in
  Forall pol_pkt_ok ps /\ ordered 0 ps /\
  (forall p, In p ps -> is_ipv4 p = true -> p_device p = 1%N -> (p_length p < 50)%N /\ In (ip_dst p) [7; 8]%N) /\
  fst (x_both 2 ps) = [Some 0; Some 0; None; None; Some 0; None]%N.
Proof.
  cbv zeta. split; [repeat constructor|]. split; [repeat split; vm_compute; discriminate|]. split; [|vm_compute; reflexivity].
  intros p Hp _ _. repeat destruct Hp as [<-|Hp]; try (cbn; split; [lia|auto]). destruct Hp.
Qed.
(** Not in general: when another address takes the place of an expired one, a packet as long as the burst passes that would have been dropped. *)
Theorem C153_apart_refuted : exists ps who a, Forall pol_pkt_ok ps /\ ordered 0 ps /\ (forall p, In p ps -> In (ip_dst p) who) /\ length who = 2 /\ In a who /\
  let mine p := is_ipv4 p && (p_device p =? 1)%N && (ip_dst p =? a)%N in
  fates mine ps (fst (x_both 2 ps)) = [Some 0; Some 0]%N /\ fst (x_both 2 (filter mine ps)) = [Some 0; None]%N.
Proof.
  exists [x_pkt 7 0 10; x_pkt 8 5000000001 10; x_pkt 7 5000000002 50]%N, [7; 8]%N, 7%N. split; [repeat constructor|]. split; [repeat split; vm_compute; discriminate|].
  split; [intros p Hp; repeat destruct Hp as [<-|Hp]; try (cbn; auto; fail); destruct Hp|]. split; [reflexivity|]. split; [left; reflexivity|].
  split; vm_compute; reflexivity.
Qed.
Print Assumptions C153_apart_refuted.
(** Nor when there is no room: one address then keeps another out. *)
Theorem C153_room_refuted : exists ps a, Forall pol_pkt_ok ps /\ ordered 0 ps /\ (forall p, In p ps -> (p_length p < 50)%N) /\
  let mine p := is_ipv4 p && (p_device p =? 1)%N && (ip_dst p =? a)%N in
  fates mine ps (fst (x_both 1 ps)) = [None] /\ fst (x_both 1 (filter mine ps)) = [Some 0%N].
Proof.
  exists [x_pkt 7 0 10; x_pkt 8 1 10]%N, 8%N. split; [repeat constructor|]. split; [repeat split; vm_compute; discriminate|].
  split; [intros p Hp; repeat destruct Hp as [<-|Hp]; try (cbn; lia); destruct Hp|]. split; vm_compute; reflexivity.
Qed.
Print Assumptions C153_room_refuted.

(** For all histories as for C153: if the packets to an address keep to their budget (in every interval between two of them fewer bytes than the
    burst and the rate times the duration, and each shorter than the burst), none of them is dropped, whatever the others do. *)
Theorem C157_conforming : forall hash base loc wan rate burst cap st ps who a, layout_ok ADDR_SIZE base loc cap -> (N.of_nat cap <= 2 ^ 63)%N ->
  pol_init rate burst cap = Some st -> (10 ^ 9 * burst < 2 ^ 64)%N -> Forall pol_pkt_ok ps -> ordered 0 ps ->
  (forall p, In p ps -> is_ipv4 p = true -> p_device p = wan -> (p_length p < burst)%N /\ In (ip_dst p) who) -> length who <= cap ->
  In a who -> (a < 2 ^ 32)%N ->
  let mine p := is_ipv4 p && (p_device p =? wan)%N && (ip_dst p =? a)%N in
  (forall x p y q z, filter mine ps = x ++ p :: y ++ q :: z -> (lens (p :: y ++ [q]) < burst + rate * (p_time q - p_time p))%N) ->
  Forall (fun o => o = Some (1 - wan)%N) (fates mine ps (fst (pol_run hash base loc wan rate burst st ps))).
Proof.
  intros hash base loc wan rate burst cap st ps who a L HC E B P O S Hw Ha Hl mine C. unfold mine.
  rewrite (C153_apart_partial hash base loc wan rate burst cap st ps who a) by assumption. fold mine.
  assert (S' : forall p, In p (filter mine ps) -> is_ipv4 p = true -> p_device p = wan -> (p_length p < burst)%N).
  { intros p Hp H1 H2. apply filter_In in Hp as [Hp _]. apply (S p Hp H1 H2). }
  rewrite C152_small_partial with (cap := cap); try assumption.
  - assert (Hcap : 0 < cap) by (destruct who; [destruct Ha|cbn in Hw; lia]).
    apply (conforming wan rate burst cap Hcap a (filter mine ps) [] 0%N).
    + apply ordered_filter. exact O.
    + intros q Hq. apply filter_In in Hq as [_ Hq]. exact Hq.
    + split; [|exact C]. cbn [rev app]. intros p Hp. pose proof Hp as Hp'. apply filter_In in Hp' as [_ M]. unfold mine in M.
      apply andb_true_iff in M as [M _]. apply andb_true_iff in M as [M1 M2]. apply N.eqb_eq in M2. apply S'; assumption.
    + split; [constructor|intros x []].
    + reflexivity.
  - apply incl_Forall with (l1 := ps); [apply incl_filter|exact P].
  - apply ordered_filter. exact O.
Qed.
Print Assumptions C157_conforming.
(** A conforming address beside one that is not: three packets whose bytes come to just less than the burst and what has come in. *)
Example C157_example : let ps := [x_pkt 7 1 40; x_pkt 8 1 49; x_pkt 8 1 49; x_pkt 7 2 19; x_pkt 7 3 10; x_pkt 8 3 49]%N in
  let mine p := is_ipv4 p && (p_device p =? 1)%N && (ip_dst p =? 7)%N in
  (forall x p y q z, filter mine ps = x ++ p :: y ++ q :: z -> (lens (p :: y ++ [q]) < 50 + 10 * (p_time q - p_time p))%N) /\
  fates mine ps (fst (x_both 2 ps)) = [Some 0; Some 0; Some 0]%N.
Proof.
  cbv zeta. split; [|vm_compute; reflexivity].
  change (filter _ _) with [x_pkt 7 1 40; x_pkt 7 2 19; x_pkt 7 3 10]%N. intros x p y q z E.
  destruct x as [|x1 [|x2 [|x3 x]]]; cbn in E; injection E as; subst; try (destruct x; discriminate);
    destruct y as [|y1 [|y2 y]]; cbn in *; try discriminate;
    repeat match goal with H : _ :: _ = _ :: _ |- _ => injection H as; subst end; try discriminate; try (cbn; lia).
  all: try (destruct y; discriminate). all: try (destruct x; discriminate).
Qed.
(** A byte more, and the last packet is dropped: the bound of the theorem cannot be "at most". *)
Theorem C157_bound_tight : exists ps, Forall pol_pkt_ok ps /\ ordered 0 ps /\ (forall p, In p ps -> (p_length p < 50)%N) /\
  (forall p q, ps = [p; q] -> lens ps = (50 + 10 * (p_time q - p_time p))%N) /\ fst (x_both 2 ps) = [Some 0%N; None].
Proof.
  exists [x_pkt 7 1 40; x_pkt 7 2 20]%N. split; [repeat constructor|]. split; [repeat split; vm_compute; discriminate|].
  split; [intros p [<-|[<-|[]]]; vm_compute; reflexivity|]. split; [intros p q E; injection E as <- <-; vm_compute; reflexivity|vm_compute; reflexivity].
Qed.
Print Assumptions C157_bound_tight.

(** For all histories as for C153: if a packet to an address is dropped, then there is an earlier packet to it such that the bytes that have gone out to
    the address from that packet on, and those of the dropped one, come to the burst and the rate times the time since. *)
Theorem C160_justified : forall hash base loc wan rate burst cap st ps who a, layout_ok ADDR_SIZE base loc cap -> (N.of_nat cap <= 2 ^ 63)%N ->
  pol_init rate burst cap = Some st -> (10 ^ 9 * burst < 2 ^ 64)%N -> Forall pol_pkt_ok ps -> ordered 0 ps ->
  (forall p, In p ps -> is_ipv4 p = true -> p_device p = wan -> (p_length p < burst)%N /\ In (ip_dst p) who) -> length who <= cap ->
  In a who -> (a < 2 ^ 32)%N ->
  let mine p := is_ipv4 p && (p_device p =? wan)%N && (ip_dst p =? a)%N in
  forall x q z, combine (filter mine ps) (fates mine ps (fst (pol_run hash base loc wan rate burst st ps))) = x ++ (q, None) :: z ->
  exists x1 p o x2, x = x1 ++ (p, Some o) :: x2 /\
  let out := filter (fun e => match snd e with Some _ => true | None => false end) ((p, Some o) :: x2) in
  (burst + rate * (p_time q - p_time p) <= lens (map fst out) + p_length q)%N.
Proof.
  intros hash base loc wan rate burst cap st ps who a L HC E B P O S Hw Ha Hl mine x q z. unfold mine.
  rewrite (C153_apart_partial hash base loc wan rate burst cap st ps who a) by assumption. fold mine.
  assert (S' : forall p, In p (filter mine ps) -> is_ipv4 p = true -> p_device p = wan -> (p_length p < burst)%N).
  { intros p Hp H1 H2. apply filter_In in Hp as [Hp _]. apply (S p Hp H1 H2). }
  rewrite C152_small_partial with (cap := cap); try assumption.
  - assert (Hcap : 0 < cap) by (destruct who; [destruct Ha|cbn in Hw; lia]). intros Q.
    destruct (justified wan rate burst cap Hcap a (filter mine ps) [] 0%N ex_init (ordered_filter _ _ _ O)) with (3 := eq_refl (@nil (bytes * N))) (4 := Q) as (l1 & p & o & l2 & E1 & E2).
    + intros r Hr. split; [apply filter_In in Hr as [_ Hr]; exact Hr|]. pose proof Hr as M. apply filter_In in M as [_ M]. unfold mine in M.
      apply andb_true_iff in M as [M _]. apply andb_true_iff in M as [M1 M2]. apply N.eqb_eq in M2. apply S'; assumption.
    + split; [constructor|intros y []].
    + rewrite app_nil_r in E1. exists (rev l2), p, o, (rev l1). split.
      * rewrite <- (rev_involutive x), E1, rev_app_distr. cbn [rev]. rewrite <- app_assoc. reflexivity.
      * cbv zeta. rewrite <- went_lens. rewrite went_app in E2. cbn [went] in *. rewrite went_rev. lia.
  - apply incl_Forall with (l1 := ps); [apply incl_filter|exact P].
  - apply ordered_filter. exact O.
Qed.
Print Assumptions C160_justified.
(** The fourth packet is dropped: 40 and 19 bytes went out, and its 11 come to what the burst of 50 and two nanoseconds allow; the one before it, too long, does not count. *)
Example C160_example : let ps := [x_pkt 7 1 40; x_pkt 7 2 19; x_pkt 7 2 30; x_pkt 7 3 11; x_pkt 7 3 10]%N in
  fst (x_both 2 ps) = [Some 0; Some 0; None; None; Some 0]%N /\ (50 + 10 * (3 - 1) = 40 + 19 + 11)%N.
Proof. cbv zeta. split; vm_compute; reflexivity. Qed.
