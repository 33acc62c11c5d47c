(** * Property theorems: the network functions as users of the data structures' contracts (C132) *)

From Coq Require Import NArith List Bool Lia Arith.
From Verif Require Import IndexPool HashMap Table Cht Contracts Firewall Packet NatNF Policer Bridge Maglev.
From Verif Require Import NfProg NfTable NfSafe NfLink.
Import ListNotations.
Open Scope nat_scope.

(** ** C132 *)

(** What is true of every execution on the contracts is true of the execution with the C
    map and the C pools, whatever the hash function, where the arrays are in memory, and the
    lookup of backends, if it finds only backends of the pool. *)
Theorem C132_contracts_enough : forall A (p : nprog A) z zero (Q : A -> Prop) hash base loc find,
  layout_ok (z_key z) base loc (z_cap z) -> (N.of_nat (z_cap z) <= 2 ^ 63)%N ->
  (forall k pl t b, pool_wf (z_pool z Backends) pl -> find k pl t = Some b -> b < z_backends z /\ pool_abs pl b <> None) ->
  ok z p (cstart z zero) (fun a _ => Q a) -> Q (fst (run_c hash (z_key z) base loc find p (xstart z zero))).
Proof.
  intros A p z zero Q hash base loc find L HC F H.
  pose proof (run_ok z hash base loc find L F A p _ _ _ (agrees_start z hash base loc zero HC) H) as R.
  destruct (run_c _ _ _ _ _ p _) as [a x]. destruct R as (st & _ & Ha). exact Ha.
Qed.
Print Assumptions C132_contracts_enough.

(** The firewall calls the structures only as their contracts require, for all packets, and
    with every behaviour they allow it is the firewall of C61. *)
Theorem C132_firewall : forall cap exp external ps, Forall pkt_ok ps ->
  ok (fw_sizes cap exp) (nrun (fw_prog external) ps) (cstart (fw_sizes cap exp) [])
    (fun os _ => ordered 0 ps -> os = fst (fw_spec_run external exp cap [] ps)).
Proof.
  intros cap exp external ps H. eapply ok_mono; [|exact (fw_run_ok cap exp external ps 0 _ [] (cinv_start _ _) H)].
  intros os st Q Ho. apply Q; [exact Ho|]. apply (fv_ext cap exp 0 (fun _ => None)); [intros i; apply cview_start|apply fw_view_start].
Qed.
Print Assumptions C132_firewall.

(** The other functions call the structures only as their contracts require. *)
Theorem C132_nat : forall cap exp wan ext_addr start_port rs, Forall rpkt_fits rs ->
  ok (fw_sizes cap exp) (nrun (nat_prog wan ext_addr start_port) rs) (cstart (fw_sizes cap exp) []) (fun _ _ => True).
Proof.
  intros cap exp wan ea sp rs H. eapply ok_mono; [|apply (ok_run (fw_sizes cap exp) _ _ _ rpkt_fits (cinv (fw_sizes cap exp))); [|exact H|apply cinv_start]]; [auto|].
  intros r st Hr I. apply nat_step_ok; assumption.
Qed.
Print Assumptions C132_nat.
Theorem C132_policer : forall cap exp wan rate burst ps, Forall ptime_ok ps ->
  ok (pol_sizes cap exp) (nrun (pol_prog wan rate burst) ps) (cstart (pol_sizes cap exp) [0; 0]%N) (fun _ _ => True).
Proof.
  intros cap exp wan rate burst ps H. eapply ok_mono; [|apply (ok_run (pol_sizes cap exp) _ _ _ ptime_ok (cinv (pol_sizes cap exp))); [|exact H|apply cinv_start]]; [auto|].
  intros r st Hr I. apply pol_step_ok; assumption.
Qed.
Print Assumptions C132_policer.
Theorem C132_bridge : forall cap n exp s rs, 0 < n -> Forall (fun r => (r_device r < N.of_nat n)%N /\ (r_time r < TIME_MAX)%N) rs ->
  ok (br_sizes cap n exp) (br_whole n s rs) (cstart (br_sizes cap n exp) [0%N]) (fun _ _ => True).
Proof.
  intros cap n exp s rs Hn H. eapply ok_mono; [|apply (br_whole_ok cap n exp rs s _ Hn H); apply br_start; exact Hn]. auto.
Qed.
Print Assumptions C132_bridge.
Theorem C132_balancer : forall cap n fexp bexp ps, Forall (mg_fits n) ps ->
  ok (mg_sizes cap n fexp bexp) (nrun (mg_prog n) ps) (cstart (mg_sizes cap n fexp bexp) [0%N]) (fun _ _ => True).
Proof.
  intros cap n fexp bexp ps H. eapply ok_mono; [|apply (ok_run (mg_sizes cap n fexp bexp) _ _ _ (mg_fits n) (cinv (mg_sizes cap n fexp bexp))); [|exact H|apply cinv_start]]; [auto|].
  intros r st Hr I. apply mg_step_ok; assumption.
Qed.
Print Assumptions C132_balancer.

Lemma map_repeat : forall A B (f : A -> B) a n, map f (repeat a n) = repeat (f a) n.
Proof. induction n; cbn; congruence. Qed.
(** The programs are the functions of C60 to C67: on the C structures they do the same. *)
Theorem C132_programs : forall hash base loc,
  (forall cap exp external ps, fst (run_c hash FLOW_SIZE base loc no_find (nrun (fw_prog external) ps) (xstart (fw_sizes cap exp) [])) =
     fst (fw_run hash base loc external (talloc FLOW_SIZE cap exp) ps)) /\
  (forall cap exp wan ea sp rs, fst (run_c hash FLOW_SIZE base loc no_find (nrun (nat_prog wan ea sp) rs) (xstart (fw_sizes cap exp) [])) =
     nat_outs hash base loc wan ea sp (talloc FLOW_SIZE cap exp) rs) /\
  (forall cap wan rate burst st ps, layout_ok ADDR_SIZE base loc cap -> (N.of_nat cap <= 2 ^ 63)%N -> pol_init rate burst cap = Some st -> Forall ptime_ok ps ->
     fst (run_c hash ADDR_SIZE base loc no_find (nrun (pol_prog wan rate burst) ps) (xstart (pol_sizes cap (pol_exp rate burst)) [0; 0]%N)) =
     fst (pol_run hash base loc wan rate burst st ps)) /\
  (forall cap n exp self_bid upd b rs, layout_ok MAC_SIZE base loc cap -> (N.of_nat cap <= 2 ^ 63)%N -> br_init n cap exp self_bid upd = Some b ->
     Forall (fun r => (r_device r < N.of_nat n)%N /\ (r_time r < TIME_MAX)%N) rs ->
     fst (run_c hash MAC_SIZE base loc no_find (br_whole n (bstp b) rs) (xstart (br_sizes cap n exp) [0%N])) = br_outs hash base loc n b rs) /\
  (forall cap n h fexp bexp b ps, layout_ok FLOW_SIZE base loc cap -> (N.of_nat cap <= 2 ^ 63)%N -> mg_init n h cap fexp bexp = Some b -> Forall (mg_fits n) ps ->
     fst (run_c hash FLOW_SIZE base loc (mg_find hash h n (cht_data b)) (nrun (mg_prog n) ps) (xstart (mg_sizes cap n fexp bexp) [0%N])) = mg_outs hash base loc n h b ps).
Proof.
  intros hash base loc. split; [|split; [|split; [|split]]].
  - intros cap exp external ps. pose proof (fw_run_c hash base loc no_find external ps (xstart (fw_sizes cap exp) [])) as H.
    destruct (run_c _ _ _ _ _ _ _) as [os x]. change (tab (xstart (fw_sizes cap exp) [])) with (talloc FLOW_SIZE cap exp) in H. rewrite H. reflexivity.
  - intros cap exp wan ea sp rs. exact (nat_run_c hash base loc no_find wan ea sp rs (xstart (fw_sizes cap exp) [])).
  - intros cap wan rate burst st ps L HC HI Hp. unfold pol_init in HI. destruct (_ || _); [discriminate HI|]. injection HI as <-.
    apply (pol_run_c hash base loc cap (pol_exp rate burst) wan rate burst L ps _ _ (cstart (pol_sizes cap (pol_exp rate burst)) [0; 0]%N)).
    + apply (agrees_start (pol_sizes cap (pol_exp rate burst))). exact HC.
    + apply cinv_start.
    + exact Hp.
    + split; [reflexivity|]. cbn [xstart x_dat pol_sizes z_data buckets]. rewrite map_repeat. reflexivity.
    + apply repeat_length.
  - intros cap n exp sb upd b rs L HC HI Hp. unfold br_init in HI. destruct (Nat.ltb_spec n 2) as [|Hn]; [discriminate HI|]. injection HI as <-.
    apply (br_run_c hash base loc cap n exp L ltac:(lia) rs _ _ (cstart (br_sizes cap n exp) [0%N])).
    + apply (agrees_start (br_sizes cap n exp)). exact HC.
    + apply br_start. lia.
    + exact Hp.
    + split; [reflexivity|]. cbn [xstart x_dat br_sizes z_data bdevs]. rewrite map_repeat. reflexivity.
    + apply repeat_length.
  - intros cap n h fexp bexp b ps L HC HI Hp. unfold mg_init in HI. destruct (n <? 2); [discriminate HI|]. destruct (_ || _); [discriminate HI|]. destruct (h <=? n - 1); [discriminate HI|].
    destruct (cht_alloc h (n - 1)) as [data|]; [|discriminate HI]. injection HI as <-.
    apply (mg_run_c hash base loc cap n fexp bexp h data L ps _ _ (cstart (mg_sizes cap n fexp bexp) [0%N])).
    + apply (agrees_start (mg_sizes cap n fexp bexp)). exact HC.
    + apply cinv_start.
    + exact Hp.
    + split; [reflexivity|]. split; [|split; reflexivity]. cbn [xstart x_dat mg_sizes z_data flow_backends]. rewrite map_repeat. reflexivity.
    + apply repeat_length.
Qed.
Print Assumptions C132_programs.

(** Packets that meet the hypotheses, and their outcome on the C structures: two flows for
    one place, the second when the first has expired. *)
Definition flow_pkt (device time src dst sport dport : N) : pkt := mkPkt device time 60 0 0 8 6 src dst sport dport.
Definition some_packets : list pkt := [flow_pkt 0 10 1 2 3 4; flow_pkt 1 20 2 1 4 3; flow_pkt 0 200 7 2 3 4; flow_pkt 1 210 2 1 4 3; flow_pkt 1 220 2 7 4 3]%N.
Example C132_ex : Forall pkt_ok some_packets /\ ordered 0 some_packets /\ Forall ptime_ok some_packets /\ Forall (mg_fits 3) some_packets /\
  fst (run_c (fun _ => 5%N) FLOW_SIZE 4096 64 no_find (nrun (fw_prog 1) some_packets) (xstart (fw_sizes 1 100) [])) = [Some 1; Some 0; Some 1; None; Some 0]%N /\
  layout_ok FLOW_SIZE 4096 64 1.
Proof.
  split; [|split; [|split; [|split; [|split]]]].
  - repeat constructor.
  - vm_compute. repeat split; discriminate.
  - repeat constructor.
  - repeat constructor.
  - vm_compute. reflexivity.
  - unfold layout_ok, FLOW_SIZE. split; [lia|]. split; [discriminate|]. split; [discriminate|]. left. lia.
Qed.

(** Wrong programs are refused.  Without map_remove before a place is used again: *)
Definition put_forgetful (time : N) (k : bytes) : nprog (option nat) :=
  NPool Flows (OBorrow time) (fun out =>
    match out with
    | RBorrow (Some (index, _)) => NWrite index k (NSet index index (NRet (Some index)))
    | _ => NRet None
    end).
Lemma ok_unbind : forall z A B (p : nprog A) (f : A -> nprog B) st (Q : B -> cstate -> Prop),
  ok z (nbind p f) st Q -> ok z p st (fun a st' => ok z (f a) st' Q).
Proof. intros z A B p f. induction p; intros st Q; cbn [nbind ok]; try (intuition eauto; fail); auto. Qed.
Lemma put_forgetful_at : forall z st t k B (f : option nat -> nprog B) (Q : B -> cstate -> Prop) u m,
  spec_step (z_pool z Flows) (z_exp z Flows) (its st Flows) (OBorrow t) (RBorrow (Some (0, u))) m -> ok z (nbind (put_forgetful t k) f) st Q ->
  own st 0 = 4 /\ exists st', own st' 0 = 3 /\ its st' Flows = m /\ ok z (f (Some 0)) st' Q.
Proof.
  intros z st t k B f Q u m S H. cbn [put_forgetful nbind ok] in H. destruct H as [_ H]. specialize (H _ _ S). cbn [nbind ok] in H.
  destruct H as (_ & Ho & _ & H). cbn [ok own ckey vals adr clen its cdat] in *. destruct H as (_ & _ & _ & _ & _ & H). split; [exact Ho|]. eexists. split; [|split; [|exact H]].
  - cbn [own]. unfold upd. cbn [Nat.eqb]. rewrite Ho. reflexivity.
  - reflexivity.
Qed.
Example C132_forgets_remove : ~ ok (fw_sizes 1 100) (nrun (fun tk => put_forgetful (fst tk) (snd tk)) [(0%N, repeat 1%N 16); (200%N, repeat 2%N 16)]) (cstart (fw_sizes 1 100) []) (fun _ _ => True).
Proof.
  cbn [nrun fst snd]. intros H.
  apply (put_forgetful_at _ _ _ _ _ _ _ false (fun i => if Nat.eqb i 0 then Some 0%N else None)) in H.
  2: { cbn. split; [lia|]. split; [|reflexivity]. intros j. unfold pupd. destruct (Nat.eqb j 0); reflexivity. }
  destruct H as (_ & st & Ho & Hm & H).
  change (ok (fw_sizes 1 100) (nbind (nbind (put_forgetful 200 (repeat 2%N 16)) (fun a => NRet [a])) (fun l => NRet (Some 0 :: l))) st (fun _ _ => True)) in H.
  apply ok_unbind in H. rename H into H'.
  apply (put_forgetful_at _ _ _ _ _ _ _ true (fun i => if Nat.eqb i 0 then Some 200%N else None)) in H'.
  2: { rewrite Hm. cbn. split; [lia|]. split; [intros j; unfold pupd; destruct (Nat.eqb j 0); reflexivity|]. exists 0%N. split; [reflexivity|]. unfold young. lia. }
  rewrite Ho in H'. destruct H' as [H' _]. discriminate H'.
Qed.
(** With the key written after it is in the map: *)
Example C132_late_write : forall k, ~ ok (fw_sizes 1 100)
  (NSet 0 0 (NWrite 0 k (NRet tt))) (cstart (fw_sizes 1 100) []) (fun _ _ => True).
Proof. intros k H. cbn [ok] in H. destruct H as (_ & _ & _ & _ & _ & _ & H & _). cbn in H. discriminate H. Qed.
(** Without asking whether a found flow's place is in range, for a device that is not there,
    or with a key twice in the map: *)
Example C132_wrong_calls :
  ~ ok (fw_sizes 1 100) (NPool Flows (ORefresh 0 1) (fun _ => NRet tt)) (cstart (fw_sizes 1 100) []) (fun _ _ => True) /\
  ~ ok (fw_sizes 1 100) (NSend 2 (NRet tt)) (cstart (fw_sizes 1 100) []) (fun _ _ => True) /\
  ~ ok (fw_sizes 2 100) (NSet 0 0 (NSet 1 1 (NRet tt))) (cstart (fw_sizes 2 100) []) (fun _ _ => True) /\
  ~ ok (fw_sizes 1 100) (NRemove 0 (NRet tt)) (cstart (fw_sizes 1 100) []) (fun _ _ => True).
Proof.
  split; [|split; [|split]]; cbn [ok].
  - intros [H _]. vm_compute in H. discriminate H.
  - intros [H _]. vm_compute in H. discriminate H.
  - intros (_ & _ & _ & _ & _ & H). destruct H as (_ & _ & _ & H & _). cbn [vals ckey cstart] in H. unfold kupd in H. rewrite (proj2 (beqb_eq _ _) eq_refl) in H. discriminate H.
  - intros (_ & _ & H & _). apply H. reflexivity.
Qed.

(** ** What the functions allocate when they start *)

(** memory.h 29, map.h 19, index_pool.h 18. *)
Inductive acall := AMem (count size : N) | AMap (capacity : N) | APool (size : N).
Definition acall_pre (a : acall) : Prop :=
  match a with AMem c s => (c * s <= 2 ^ 64 - 1)%N | AMap c => (c * 64 <= 2 ^ 64 - 1)%N | APool s => (s * 8 <= 2 ^ 64 - 1)%N end.
(** nf/firewall/flow_table.h 27-34 (and nf/nat/flow_table.h), policer.c 37-40, bridge.c
    30-34 (without stp_init), balancer.h 33-43 (without cht_alloc), with the configured
    capacity: nothing is checked before. *)
Definition table_allocs (cap : N) : list acall := [AMem 1 24; AMem cap 16; AMap cap; APool cap].
Definition pol_allocs (cap : N) : list acall := [AMem cap 16; AMem cap 4; AMap cap; APool cap].
Definition br_allocs (cap : N) : list acall := [AMem cap 6; AMem cap 2; AMap cap; APool cap].
Definition mg_allocs (cap backends : N) : list acall := [AMem 1 48; AMap cap; APool cap; AMem cap 16; AMem cap 2; APool backends].
Theorem C132_init_partial : forall cap backends, (cap * 64 <= 2 ^ 64 - 1)%N -> (backends < 2 ^ 16)%N ->
  Forall acall_pre (table_allocs cap) /\ Forall acall_pre (pol_allocs cap) /\ Forall acall_pre (br_allocs cap) /\ Forall acall_pre (mg_allocs cap backends).
Proof. intros cap backends H Hb. repeat split; repeat (apply Forall_cons; [cbn [acall_pre]; lia|]); apply Forall_nil. Qed.
Print Assumptions C132_init_partial.
(** A configured capacity that fits in a size_t is enough to break the contracts. *)
Theorem C132_init_refuted : exists cap, (cap < 2 ^ 64)%N /\
  ~ Forall acall_pre (table_allocs cap) /\ ~ Forall acall_pre (pol_allocs cap) /\ ~ Forall acall_pre (br_allocs cap) /\ ~ Forall acall_pre (mg_allocs cap 1).
Proof.
  exists (2 ^ 58)%N. split; [reflexivity|]. repeat split; intros H; rewrite Forall_forall in H; (assert (X : acall_pre (AMap (2 ^ 58))) by (apply H; cbn; auto)); vm_compute in X; apply X; reflexivity.
Qed.
Print Assumptions C132_init_refuted.
