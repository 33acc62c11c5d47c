(** Property theorems C87, over histories: the spanning tree as a function of the frames alone. *)

From Coq Require Import NArith List Bool Lia Arith.
From Verif Require Import IndexPool HashMap Table Firewall ExpSet Packet Bridge Stp.
Import ListNotations.
Local Open Scope N_scope.

(** After any history of frames, the bridge's way to the root is the best of its own (itself, at no cost) and those in the BPDUs it read. It
    reads those that do not arrive when an update is due, which the times of the frames decide. *)
Theorem C87_best_partial : forall hash base loc n cap exp self upd h b, br_hist hash base loc n cap exp self upd h b ->
  best_of (root (bstp b), root_cost (bstp b), root_port (bstp b)) ((self, 0, 0) :: offers upd (map ev_frame h)).
Proof. intros hash base loc n cap exp self upd h b H. destruct (hist_state _ _ _ _ _ _ _ _ _ _ H) as (_ & _ & _ & _ & B). exact B. Qed.
Print Assumptions C87_best_partial.

Lemma offers_all : forall upd h, (forall h1 r h2, h = h1 ++ r :: h2 -> ld48 (r_data r) 0 = STP_ADDR -> due_after upd h2 r = false) ->
  forall r, In r h -> ld48 (r_data r) 0 = STP_ADDR -> In (offer r) (offers upd h).
Proof.
  intros upd h. induction h as [|x h IH]; intros D r I A; [destruct I|]. cbn [offers].
  assert (D' : forall h1 r h2, h = h1 ++ r :: h2 -> ld48 (r_data r) 0 = STP_ADDR -> due_after upd h2 r = false) by (intros h1 y h2 E; apply (D (x :: h1)); cbn; congruence).
  destruct I as [->|I].
  - unfold heard_after. rewrite (D [] r h eq_refl A), A, N.eqb_refl. left. reflexivity.
  - destruct (heard_after upd h x); [right|]; apply IH; auto.
Qed.
Lemma offers_from : forall upd h x, In x (offers upd h) -> exists r, In r h /\ ld48 (r_data r) 0 = STP_ADDR /\ x = offer r.
Proof.
  intros upd h x. induction h as [|y h IH]; [intros []|]. cbn [offers]. destruct (heard_after upd h y) eqn:E.
  - intros [<-|I]; [|destruct (IH I) as (r & ? & ? & ?); exists r; split; [right|]; auto].
    exists y. unfold heard_after in E. apply andb_true_iff in E as [_ E]. apply N.eqb_eq in E. split; [left|]; auto.
  - intros I. destruct (IH I) as (r & ? & ? & ?). exists r. split; [right|]; auto.
Qed.
(** If no BPDU arrives when an update is due, the root is the smallest of the bridge's own identity and those in all BPDUs received, as
    claimed. *)
Theorem C87_smallest_partial : forall hash base loc n cap exp self upd h b, br_hist hash base loc n cap exp self upd h b ->
  (forall h1 e h2, h = h1 ++ e :: h2 -> dst_mac (ev_frame e) = STP_ADDR -> due_after upd (map ev_frame h2) (ev_frame e) = false) ->
  (root (bstp b) = self \/ exists e, In e h /\ dst_mac (ev_frame e) = STP_ADDR /\ root (bstp b) = bpdu_root (r_data (ev_frame e))) /\
  root (bstp b) <= self /\ forall e, In e h -> dst_mac (ev_frame e) = STP_ADDR -> root (bstp b) <= bpdu_root (r_data (ev_frame e)).
Proof.
  intros hash base loc n cap exp self upd h b H D. destruct (C87_best_partial _ _ _ _ _ _ _ _ _ _ H) as [B1 B2].
  assert (D' : forall h1 r h2, map ev_frame h = h1 ++ r :: h2 -> ld48 (r_data r) 0 = STP_ADDR -> due_after upd h2 r = false).
  { intros h1 r h2 E A. apply map_eq_app in E as (l1 & l2 & -> & <- & E). apply map_eq_cons in E as (e & l3 & -> & <- & <-). eapply D; [reflexivity|exact A]. }
  split; [|split].
  - destruct B1 as [B1|B1]; [left; injection B1; auto|]. destruct (offers_from _ _ _ B1) as (r & I & A & E). apply in_map_iff in I as (e & <- & I). right. exists e.
    split; [exact I|]. split; [exact A|]. unfold offer in E. injection E; auto.
  - specialize (B2 _ (or_introl eq_refl)). unfold better in B2. lia.
  - intros e I A. specialize (B2 _ (or_intror (offers_all upd _ D' (ev_frame e) (in_map _ _ _ I) A))). unfold better, offer in B2. lia.
Qed.
Print Assumptions C87_smallest_partial.

(** A port is blocked exactly if the last BPDU read on it that offered a worse root than the best so far came after the last one read on it
    that offered the best way so far; and a frame for a group of stations that is not the spanning tree's is sent exactly to the other ports
    that are not blocked. *)
Theorem C87_blocked_partial : forall hash base loc n cap exp self upd h b, br_hist hash base loc n cap exp self upd h b ->
  forall p, is_disabled (bstp b) p = true <-> blocked self upd (map ev_frame h) p.
Proof. intros hash base loc n cap exp self upd h b H p. exact (hist_blocked _ _ _ _ _ _ _ _ _ _ H p). Qed.
Print Assumptions C87_blocked_partial.
Theorem C87_group_partial : forall hash base loc n cap exp, layout_ok MAC_SIZE base loc cap -> N.of_nat cap <= 2 ^ 63 ->
  forall self upd h b r out b', br_hist hash base loc n cap exp self upd h b -> frame_ok n r -> in_order (r_time r) h ->
  due_after upd (map ev_frame h) r = false -> dst_mac r <> STP_ADDR -> N.odd (dst_mac r) = true ->
  br_handle hash base loc n b r = (out, b') ->
  forall p, In p out <-> p < N.of_nat n /\ p <> r_device r /\ ~ blocked self upd (map ev_frame h) p.
Proof.
  intros hash base loc n cap exp L C self upd h b r out b' H OK O D A G E p.
  destruct (hist_state _ _ _ _ _ _ _ _ _ _ H) as (_ & I2 & I3 & _ & _).
  rewrite (br_group hash base loc n cap exp L C self upd h b r out b' H OK O E); [|unfold stp_handle; rewrite I2, I3; unfold due_after in D; unfold frames; rewrite D; unfold dst_mac in A; apply N.eqb_neq in A; rewrite A; reflexivity|exact G].
  rewrite net_flood_except_in. pose proof (C87_blocked_partial _ _ _ _ _ _ _ _ _ _ H p) as B. destruct (is_disabled (bstp b) p); [|intuition congruence]. intuition congruence.
Qed.
Print Assumptions C87_group_partial.

(** ** Histories *)
Definition ex_hash : bytes -> N := fun k => fold_right N.add 0 k.
Definition bpdu_frame (device time rt cost : N) : rpkt :=
  mkR device time 60 (fun a => if a =? 0 then 1 else if a =? 1 then 128 else if a =? 2 then 194 else if a =? 14 then rt
    else if (22 <=? a) && (a <? 26) then cost / 256 ^ (a - 22) mod 256 else 0).
Lemma bpdu_ok : forall device time rt cost, device < 3 -> time < TIME_MAX -> rt < 256 -> frame_ok 3 (bpdu_frame device time rt cost).
Proof.
  intros d t rt c D T R. split; [exact D|]. split; [exact T|]. intros a. cbn [r_data bpdu_frame].
  destruct (a =? 0); [lia|]. destruct (a =? 1); [lia|]. destruct (a =? 2); [lia|]. destruct (a =? 14); [lia|]. destruct (_ && _); [|lia]. apply N.mod_lt. lia.
Qed.
Fixpoint ex_run (b : bridge) (h : list bevent) (rs : list rpkt) : list bevent * bridge :=
  match rs with
  | [] => (h, b)
  | r :: rs' => let '(out, b') := br_handle ex_hash 4096 65536 3 b r in
      ex_run b' (mkEv r (match fst (stp_handle 3 (bstp b) r) with Some _ => true | None => false end) out :: h) rs'
  end.
Lemma ex_run_hist : forall self upd rs b h, br_hist ex_hash 4096 65536 3 2 100 self upd h b -> (forall r, In r rs -> frame_ok 3 r) ->
  br_hist ex_hash 4096 65536 3 2 100 self upd (fst (ex_run b h rs)) (snd (ex_run b h rs)).
Proof.
  intros self upd rs. induction rs as [|r rs IH]; intros b h H OK; cbn [ex_run]; [exact H|]. destruct (br_handle _ _ _ _ b r) as [out b'] eqn:E.
  apply IH; [|intros x X; apply OK; right; exact X]. eapply bh_cons; [exact H|apply OK; left; reflexivity|exact E].
Qed.
Definition ex_start (self upd : N) : bridge := mkBr (talloc MAC_SIZE 2 100) [0; 0] (stp_init 3 self upd).
Lemma ex_hist : forall self upd rs, (forall r, In r rs -> frame_ok 3 r) ->
  br_hist ex_hash 4096 65536 3 2 100 self upd (fst (ex_run (ex_start self upd) [] rs)) (snd (ex_run (ex_start self upd) [] rs)).
Proof. intros self upd rs OK. apply ex_run_hist; [|exact OK]. apply bh_nil. reflexivity. Qed.

(** A worse offer on the very port that leads to the root blocks it: the bridge no longer floods towards its root. *)
Theorem C87_root_port_refuted : exists rs, (forall r, In r rs -> frame_ok 3 r) /\
  let b := snd (ex_run (ex_start 7 1000) [] rs) in root (bstp b) = 3 /\ root_port (bstp b) = 1 /\ is_disabled (bstp b) 1 = true /\
  forall p, In p (net_flood_except 3 0 (is_disabled (bstp b))) <-> p = 2.
Proof.
  exists [bpdu_frame 1 5 3 0; bpdu_frame 1 6 4 0]. split.
  - intros r [<-|[<-|[]]]; apply bpdu_ok; unfold TIME_MAX; lia.
  - cbv zeta. split; [vm_compute; reflexivity|]. split; [vm_compute; reflexivity|]. split; [vm_compute; reflexivity|].
    intros p. replace (net_flood_except 3 0 _) with [2] by (vm_compute; reflexivity). cbn. intuition.
Qed.
Print Assumptions C87_root_port_refuted.
(** The dearest way of all is taken for the cheapest: costs are added in 32 bits. *)
Theorem C87_cost_refuted : exists rs, (forall r, In r rs -> frame_ok 3 r) /\
  map (fun r => bpdu_cost (r_data r)) rs = [20; 2 ^ 32 - 1] /\
  let b := snd (ex_run (ex_start 7 1000) [] rs) in root (bstp b) = 3 /\ root_port (bstp b) = 2 /\ root_cost (bstp b) = 9.
Proof.
  exists [bpdu_frame 1 5 3 20; bpdu_frame 2 6 3 (2 ^ 32 - 1)]. split.
  - intros r [<-|[<-|[]]]; apply bpdu_ok; unfold TIME_MAX; lia.
  - vm_compute. auto.
Qed.
Print Assumptions C87_cost_refuted.
Example C87_history_example : let rs := [bpdu_frame 1 5 3 20; bpdu_frame 2 6 9 0; bpdu_frame 0 7 3 10; bpdu_frame 2 8 3 10] in
  let h := fst (ex_run (ex_start 7 1000) [] rs) in let b := snd (ex_run (ex_start 7 1000) [] rs) in
  br_hist ex_hash 4096 65536 3 2 100 7 1000 h b /\ map ev_frame h = rev rs /\ offers 1000 (rev rs) = [(3, 20, 2); (3, 20, 0); (9, 10, 2); (3, 30, 1)] /\
  (root (bstp b), root_cost (bstp b), root_port (bstp b)) = (3, 20, 0) /\ disabled (bstp b) = [false; false; true].
Proof.
  cbv zeta. split; [apply ex_hist; intros r [<-|[<-|[<-|[<-|[]]]]]; apply bpdu_ok; unfold TIME_MAX; lia|]. split; [reflexivity|]. vm_compute. auto.
Qed.
