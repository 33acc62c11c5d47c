(** * The network functions as programs over the contracts *)

From Coq Require Import NArith List Bool Lia Arith.
From Verif Require Import IndexPool HashMap Table Cht Contracts Firewall Packet NatNF Policer Bridge Maglev.
From Verif Require Import NfProg.
Import ListNotations.
Open Scope nat_scope.

(** ** The code they share *)

(** Borrowing an index and putting a key there: nf/firewall/flow_table.h 43-50,
    nf/nat/flow_table.h 48-59, policer.c 81-90, bridge.c 55-63, balancer.h 69-76. *)
Definition put_prog (time : N) (k : bytes) : nprog (option nat) :=
  NPool Flows (OBorrow time) (fun out =>
    match out with
    | RBorrow (Some (index, was_used)) =>
        let put := NWrite index k (NSet index index (NRet (Some index))) in
        if was_used then NRemove index put else put
    | _ => NRet None
    end).
(** nf/firewall/flow_table.h 37-51, nf/nat/flow_table.h 42-62, bridge.c 51-63. *)
Definition learn_prog (time : N) (k : bytes) : nprog (option nat) :=
  NGet k (fun r =>
    match r with
    | Some index => NPool Flows (ORefresh time index) (fun _ => NRet (Some index))
    | None => put_prog time k
    end).

(** ** The programs *)

(** firewall.c 26-59 with flow_table.h 53-62. *)
Definition fw_prog (external : N) (p : pkt) : nprog (option N) :=
  let out := (1 - p_device p)%N in
  if negb (is_ipv4 p && is_tcpudp p) then NRet None
  else if (p_device p =? external)%N then
    NGet (flow_bytes (pkt_rev_flow p)) (fun r =>
      match r with
      | Some index =>
          NPool Flows (OUsed (p_time p) index) (fun u =>
            match u with
            | RUsed true => NPool Flows (ORefresh (p_time p) index) (fun _ => NSend out (NRet (Some out)))
            | _ => NRet None
            end)
      | None => NRet None
      end)
  else nbind (learn_prog (p_time p) (flow_bytes (pkt_flow p))) (fun _ => NSend out (NRet (Some out))).

(** nat.c 29-76 with flow_table.h 42-78. *)
Definition nat_prog (wan ext_addr start_port : N) (r : rpkt) : nprog (option (N * data)) :=
  let p := parse r in
  let out := (1 - p_device p)%N in
  if negb (is_ipv4 p && is_tcpudp p) then NRet None
  else if (p_device p =? wan)%N then
    let index := port_index start_port (l4_dst p) in
    NPool Flows (OUsed (p_time p) index) (fun u =>
      match u with
      | RUsed true =>
          NPool Flows (ORefresh (p_time p) index) (fun _ =>
          NRead index (fun k =>
            let f := unflow k in
            if negb (f_dst f =? ip_src p)%N || negb (f_dport f =? l4_src p)%N || negb (f_proto f =? ip_proto p)%N then NRet None
            else NSend out (NRet (Some (out, rewrite_dst (r_data r) (f_src f) (f_sport f))))))
      | _ => NRet None
      end)
  else
    nbind (learn_prog (p_time p) (flow_bytes (pkt_flow p))) (fun r' =>
      match r' with
      | Some index => NSend out (NRet (Some (out, rewrite_src (r_data r) ext_addr (index_port start_port index))))
      | None => NRet None
      end).

(** policer.c 44-98; a bucket's fields are read and written together. *)
Definition pol_prog (wan rate burst : N) (p : pkt) : nprog (option N) :=
  let out := (1 - p_device p)%N in
  if negb (is_ipv4 p) then NRet None
  else if (p_device p =? wan)%N then
    NGet (pol_key p) (fun r =>
      match r with
      | Some index =>
          NPool Flows (ORefresh (p_time p) index) (fun _ =>
          NLoad index (fun b =>
            let s := refill rate burst (nth 0 b 0%N) (nth 1 b 0%N) (p_time p) in
            if (p_length p <? s)%N then NStore index [s - p_length p; p_time p]%N (NSend out (NRet (Some out)))
            else NStore index [s; p_time p] (NRet None)))
      | None =>
          if (burst <? p_length p)%N then NRet None
          else nbind (put_prog (p_time p) (pol_key p)) (fun r' =>
            match r' with
            | Some index => NStore index [burst - p_length p; p_time p]%N (NSend out (NRet (Some out)))
            | None => NRet None
            end)
      end)
  else NSend out (NRet (Some out)).

(** bridge.c 50-73, for a frame that is not for the spanning tree, with the devices it
    blocks. *)
Definition br_prog (n : nat) (fb : rpkt * (N -> bool)) : nprog (list N) :=
  let r := fst fb in
  let forward :=
    NGet (mac (dst_mac r)) (fun f =>
      match f with
      | Some index => NLoad index (fun d => let d := nth 0 d 0%N in
          if negb (d =? r_device r)%N then NSend d (NRet [d]) else NRet [])
      | None => NRet (net_flood_except n (r_device r) (snd fb))
      end) in
  if negb (N.odd (src_mac r)) then
    nbind (learn_prog (r_time r) (mac (src_mac r))) (fun f =>
      match f with
      | Some index => NStore index [r_device r] forward
      | None => forward
      end)
  else forward.

(** maglev.c 40-61 with balancer.h 44-82. *)
Definition mg_new (p : pkt) : nprog (option N) :=
  NFind (flow_bytes (pkt_flow p)) (p_time p) (fun b =>
    match b with
    | Some backend => nbind (put_prog (p_time p) (flow_bytes (pkt_flow p))) (fun _ => NSend (N.of_nat backend) (NRet (Some (N.of_nat backend))))
    | None => NRet None
    end).
Definition mg_prog (n : nat) (p : pkt) : nprog (option N) :=
  if negb (is_ipv4 p && is_tcpudp p) then NRet None
  else if (p_device p <? N.of_nat (n - 1))%N then NPool Backends (ORefresh (p_time p) (N.to_nat (p_device p))) (fun _ => NRet None)
  else
    NGet (flow_bytes (pkt_flow p)) (fun r =>
      match r with
      | Some index =>
          NLoad index (fun b => let b := nth 0 b 0%N in
          NPool Backends (OUsed (p_time p) (N.to_nat b)) (fun u =>
            match u with
            | RUsed true => NPool Flows (ORefresh (p_time p) index) (fun _ => NSend b (NRet (Some b)))
            | _ => NRemove index (NPool Flows (OReturn index) (fun _ => mg_new p))
            end))
      | None => mg_new p
      end).

(** ** Facts *)
Section Facts.
Variable z : sizes.
Lemma ok_mono : forall A (p : nprog A) st (Q Q' : A -> cstate -> Prop), (forall a st', Q a st' -> Q' a st') -> ok z p st Q -> ok z p st Q'.
Proof.
  induction p; intros st Q Q' HQ H1; cbn [ok] in *; repeat match goal with H : _ /\ _ |- _ => destruct H end; repeat split; auto; eauto.
Qed.
Lemma ok_bind : forall A B (p : nprog A) (f : A -> nprog B) st Q, ok z p st (fun a st' => ok z (f a) st' Q) -> ok z (nbind p f) st Q.
Proof.
  induction p; intros g st Q H1; cbn [ok nbind] in *; repeat match goal with H : _ /\ _ |- _ => destruct H end; repeat split; auto.
Qed.
Lemma ok_run : forall P A (handle : P -> nprog A) (Pk : P -> Prop) (I : cstate -> Prop) ps st,
  (forall p st, Pk p -> I st -> ok z (handle p) st (fun _ st' => I st')) -> Forall Pk ps -> I st ->
  ok z (nrun handle ps) st (fun _ st' => I st').
Proof.
  induction ps as [|p ps IH]; intros st HI Hp H0; cbn [nrun]; [exact H0|]. inversion Hp as [|? ? H1 H2]; subst.
  apply ok_bind. eapply ok_mono; [|exact (HI p st H1 H0)]. intros a st' H'. apply ok_bind. eapply ok_mono; [|exact (IH st' HI H2 H')]. intros l st'' H''. exact H''.
Qed.

Local Notation cap := (z_cap z).
Local Notation exp := (z_exp z Flows).

(** An index is in the pool exactly if the map has its key. *)
Definition present (m : pmap) (i : nat) : bool := match m i with Some _ => true | None => false end.
Definition count (m : pmap) : nat := length (filter (present m) (seq 0 cap)).
Record cinv (st : cstate) : Prop := mkCI {
  ci_len : forall i, i < cap -> length (ckey st i) = z_key z;
  ci_out : forall i t, its st Flows i = Some t -> i < cap;
  ci_own : forall i, i < cap -> own st i = match its st Flows i with Some _ => 3 | None => 4 end;
  ci_in : forall i t, its st Flows i = Some t -> vals st (ckey st i) = Some i /\ adr st (ckey st i) = Some i;
  ci_vals : forall k i, vals st k = Some i -> ckey st i = k /\ exists t, its st Flows i = Some t;
  ci_none : forall k, vals st k = None -> adr st k = None;
  ci_count : clen st = count (its st Flows);
  ci_back : forall i t, its st Backends i = Some t -> i < z_pool z Backends }.
Definition cview (st : cstate) (i : nat) : option (bytes * N) :=
  match its st Flows i with Some t => Some (ckey st i, t) | None => None end.

Lemma count_ext : forall m m', (forall i, i < cap -> m i = m' i) -> count m = count m'.
Proof.
  intros m m' E. unfold count. f_equal. apply filter_ext_in. intros i Hi. apply in_seq in Hi. unfold present. rewrite E by lia. reflexivity.
Qed.
Lemma count_lt : forall m i, i < cap -> m i = None -> count m < cap.
Proof.
  intros m i Hi E. unfold count. rewrite <- (seq_length cap 0) at 2.
  assert (Hin : In i (seq 0 cap)) by (apply in_seq; lia). assert (Hn : present m i = false) by (unfold present; rewrite E; reflexivity).
  clear -Hin Hn. induction (seq 0 cap) as [|j l IH]; [destruct Hin|]. cbn [filter]. destruct Hin as [->|Hin].
  - rewrite Hn. pose proof (filter_length_le_seq _ (present m) l). cbn. lia.
  - destruct (present m j); cbn [length]; specialize (IH Hin); lia.
Qed.
Lemma count_set : forall m i t, i < cap -> count (pupd m i (Some t)) = if present m i then count m else S (count m).
Proof.
  intros m i t Hi. unfold count. assert (Hin : In i (seq 0 cap)) by (apply in_seq; lia). pose proof (seq_NoDup cap 0) as ND.
  induction (seq 0 cap) as [|j l IH]; [destruct Hin|]. inversion ND as [|? ? N1 N2]; subst. cbn [filter]. destruct Hin as [->|Hin].
  - assert (E : filter (present (pupd m i (Some t))) l = filter (present m) l).
    { apply filter_ext_in. intros j Hj. unfold present, pupd. destruct (Nat.eqb_spec j i) as [->|]; [contradiction|reflexivity]. }
    rewrite E. unfold present at 1. unfold pupd. rewrite Nat.eqb_refl. destruct (present m i); reflexivity.
  - assert (E : present (pupd m i (Some t)) j = present m j).
    { unfold present, pupd. destruct (Nat.eqb_spec j i) as [->|]; [contradiction|reflexivity]. }
    rewrite E. specialize (IH Hin N2). destruct (present m j); cbn [length]; rewrite IH; destruct (present m i); reflexivity.
Qed.
Lemma count_unset : forall m i, i < cap -> present m i = true -> count m = S (count (pupd m i None)).
Proof.
  intros m i Hi Hp. destruct (m i) as [t|] eqn:E; [|unfold present in Hp; rewrite E in Hp; discriminate Hp].
  pose proof (count_set (pupd m i None) i t Hi) as C. assert (Pn : present (pupd m i None) i = false) by (unfold present, pupd; rewrite Nat.eqb_refl; reflexivity). rewrite Pn in C. rewrite <- C.
  apply count_ext. intros j _. unfold pupd. destruct (Nat.eqb_spec j i) as [->|]; [exact E|reflexivity].
Qed.

Definition set_items (st : cstate) (w : which) (m : pmap) : cstate :=
  mkC (ckey st) (own st) (vals st) (adr st) (clen st) (wupd (its st) w m) (cdat st).

(** Refreshing an index that is in the pool. *)
Lemma refresh_inv : forall st i t m, cinv st -> (exists t0, its st Flows i = Some t0) -> (forall j, m j = pupd (its st Flows) i (Some t) j) ->
  cinv (set_items st Flows m) /\ forall j, cview (set_items st Flows m) j = if Nat.eqb j i then Some (ckey st i, t) else cview st j.
Proof.
  intros st i t m I [t0 E] Hm. destruct I as [I1 I2 I3 I4 I5 I6 I7 I8]. split.
  - constructor; cbn [set_items ckey own vals adr clen its wupd]; auto.
    + intros j t' Hj. rewrite Hm in Hj. unfold pupd in Hj. destruct (Nat.eqb_spec j i) as [->|]; eauto.
    + intros j Hj. rewrite I3 by exact Hj. rewrite Hm. unfold pupd. destruct (Nat.eqb_spec j i) as [->|]; [rewrite E|]; reflexivity.
    + intros j t' Hj. rewrite Hm in Hj. unfold pupd in Hj. destruct (Nat.eqb_spec j i) as [->|]; eauto.
    + intros k j Hk. destruct (I5 k j Hk) as (K1 & t1 & K2). split; [exact K1|]. rewrite Hm. unfold pupd. destruct (Nat.eqb j i); eauto.
    + rewrite I7. rewrite (count_ext m (pupd (its st Flows) i (Some t))) by auto. rewrite count_set by eauto. unfold present. rewrite E. reflexivity.
  - intros j. unfold cview. cbn [set_items its wupd ckey]. rewrite Hm. unfold pupd. destruct (Nat.eqb_spec j i) as [->|]; reflexivity.
Qed.

(** Returning an index whose key is out of the map. *)
Definition removed (st : cstate) (i : nat) : cstate :=
  mkC (ckey st) (upd (own st) i (own st i + 1)) (kupd (vals st) (ckey st i) None) (kupd (adr st) (ckey st i) None) (clen st - 1) (its st) (cdat st).
Lemma view_inj' : forall st i j k t t', cinv st -> cview st i = Some (k, t) -> cview st j = Some (k, t') -> i = j.
Proof.
  intros st i j k t t' I Hi Hj. unfold cview in *. destruct (its st Flows i) as [ti|] eqn:Ei; [|discriminate Hi]. destruct (its st Flows j) as [tj|] eqn:Ej; [|discriminate Hj].
  destruct (ci_in _ I _ _ Ei) as [A _]. destruct (ci_in _ I _ _ Ej) as [B _]. congruence.
Qed.
Lemma remove_inv : forall st i m, cinv st -> (exists t0, its st Flows i = Some t0) -> (forall j, m j = pupd (its st Flows) i None j) ->
  cinv (set_items (removed st i) Flows m) /\ vals (set_items (removed st i) Flows m) (ckey st i) = None /\
  forall j, cview (set_items (removed st i) Flows m) j = if Nat.eqb j i then None else cview st j.
Proof.
  intros st i m I [t0 E] Hm. pose proof I as [I1 I2 I3 I4 I5 I6 I7 I8]. pose proof (I2 _ _ E) as Hi. split; [|split].
  - constructor; cbn [set_items removed ckey own vals adr clen its wupd]; auto.
    + intros j t' Hj. rewrite Hm in Hj. unfold pupd in Hj. destruct (Nat.eqb_spec j i) as [->|]; [discriminate Hj|eauto].
    + intros j Hj. rewrite Hm. unfold upd, pupd. destruct (Nat.eqb_spec j i) as [->|]; [rewrite I3, E by exact Hj; reflexivity|apply I3; exact Hj].
    + intros j t' Hj. rewrite Hm in Hj. unfold pupd in Hj. destruct (Nat.eqb_spec j i) as [->|Hne]; [discriminate Hj|].
      destruct (I4 _ _ Hj) as [A B]. unfold kupd. destruct (beqb (ckey st j) (ckey st i)) eqn:Bk; [|auto].
      apply beqb_eq in Bk. exfalso. apply Hne. destruct (I4 _ _ E) as [A' _]. congruence.
    + intros k j Hk. unfold kupd in Hk. destruct (beqb k (ckey st i)) eqn:Bk; [discriminate Hk|]. destruct (I5 k j Hk) as (K1 & t1 & K2). split; [exact K1|].
      rewrite Hm. unfold pupd. destruct (Nat.eqb_spec j i) as [->|]; [|eauto]. subst k. rewrite (proj2 (beqb_eq _ _) eq_refl) in Bk. discriminate Bk.
    + intros k Hk. unfold kupd in *. destruct (beqb k (ckey st i)); [reflexivity|apply I6; exact Hk].
    + rewrite (count_ext m (pupd (its st Flows) i None)) by auto. rewrite I7. rewrite (count_unset _ i Hi) by (unfold present; rewrite E; reflexivity). lia.
  - cbn [set_items removed vals]. unfold kupd. rewrite (proj2 (beqb_eq _ _) eq_refl). reflexivity.
  - intros j. unfold cview. cbn [set_items removed its wupd ckey]. rewrite Hm. unfold pupd. destruct (Nat.eqb_spec j i) as [->|]; reflexivity.
Qed.

(** What learning a key at index [i] does. *)
Definition learned_at (st st' : cstate) (time : N) (k : bytes) (i : nat) : Prop :=
  i < cap /\
  ((exists t, cview st i = Some (k, t)) \/
   (forall j t, cview st j <> Some (k, t)) /\ (cview st i = None \/ exists k0 t0, cview st i = Some (k0, t0) /\ ~ young time exp t0)) /\
  (forall j, cview st' j = if Nat.eqb j i then Some (k, time) else cview st j).
Definition same_rest (st st' : cstate) : Prop := cdat st' = cdat st /\ its st' Backends = its st Backends.

Lemma not_there : forall st k j t, cinv st -> vals st k = None -> cview st j <> Some (k, t).
Proof.
  intros st k j t I H E. unfold cview in E. destruct (its st Flows j) eqn:Ej; [|discriminate E]. injection E as E _. destruct (ci_in _ I _ _ Ej) as [A _]. congruence.
Qed.
(** The state after [put] at an index out of the map. *)
Lemma put_inv : forall st i k t m, cinv st -> i < cap -> length k = z_key z -> its st Flows i = None -> vals st k = None ->
  (forall j, m j = pupd (its st Flows) i (Some t) j) ->
  let st' := mkC (upd (ckey st) i k) (upd (own st) i (own st i - 1)) (kupd (vals st) k (Some i)) (kupd (adr st) k (Some i)) (S (clen st)) (wupd (its st) Flows m) (cdat st) in
  cinv st' /\ forall j, cview st' j = if Nat.eqb j i then Some (k, t) else cview st j.
Proof.
  intros st i k t m I Hi HK E EV Hm st'. pose proof I as [I1 I2 I3 I4 I5 I6 I7 I8]. unfold st'. split.
  - constructor; cbn [ckey own vals adr clen its wupd]; auto.
    + intros j Hj. unfold upd. destruct (Nat.eqb j i); auto.
    + intros j t' Hj. rewrite Hm in Hj. unfold pupd in Hj. destruct (Nat.eqb_spec j i) as [->|]; eauto.
    + intros j Hj. unfold upd. rewrite Hm. unfold pupd. destruct (Nat.eqb_spec j i) as [->|]; [rewrite I3, E by exact Hj; reflexivity|apply I3; exact Hj].
    + intros j t' Hj. rewrite Hm in Hj. unfold pupd in Hj. unfold kupd, upd. destruct (Nat.eqb_spec j i) as [->|].
      * rewrite (proj2 (beqb_eq _ _) eq_refl). auto.
      * destruct (I4 _ _ Hj) as [A B]. destruct (beqb (ckey st j) k) eqn:Bk; [apply beqb_eq in Bk; congruence|auto].
    + intros k' j Hk. unfold kupd in Hk. unfold upd. rewrite Hm. unfold pupd. destruct (beqb k' k) eqn:Bk.
      * injection Hk as <-. rewrite Nat.eqb_refl. apply beqb_eq in Bk. split; [auto|eauto].
      * destruct (I5 k' j Hk) as (K1 & t1 & K2). destruct (Nat.eqb_spec j i) as [->|]; [congruence|]. split; [exact K1|eauto].
    + intros k' Hk. unfold kupd in *. destruct (beqb k' k); [discriminate Hk|apply I6; exact Hk].
    + rewrite (count_ext m (pupd (its st Flows) i (Some t))) by auto. rewrite count_set by exact Hi. unfold present. rewrite E. rewrite I7. reflexivity.
  - intros j. unfold cview. cbn [its wupd ckey]. rewrite Hm. unfold pupd, upd. destruct (Nat.eqb_spec j i) as [->|]; reflexivity.
Qed.

Definition full (st : cstate) (time : N) : Prop := forall i, i < cap -> exists k t, cview st i = Some (k, t) /\ young time exp t.
Lemma cinv_ext : forall st st', ckey st' = ckey st -> own st' = own st -> vals st' = vals st -> adr st' = adr st -> clen st' = clen st ->
  (forall w j, its st' w j = its st w j) -> cinv st -> cinv st' /\ forall j, cview st' j = cview st j.
Proof.
  intros st st' E1 E2 E3 E4 E5 E6 I. pose proof I as [I1 I2 I3 I4 I5 I6 I7 I8]. split.
  - constructor; rewrite ?E1, ?E2, ?E3, ?E4, ?E5.
    + exact I1.
    + intros i t. rewrite E6. apply I2.
    + intros i. rewrite E6. apply I3.
    + intros i t. rewrite E6. apply I4.
    + intros k i H. destruct (I5 k i H) as (A & t & B). split; [exact A|]. exists t. rewrite E6. exact B.
    + exact I6.
    + rewrite I7. apply count_ext. intros. rewrite E6. reflexivity.
    + intros i t. rewrite E6. apply I8.
  - intros j. unfold cview. rewrite E6, E1. reflexivity.
Qed.

Lemma get_view : forall st k i, cinv st -> vals st k = Some i -> exists t, its st Flows i = Some t /\ cview st i = Some (k, t).
Proof. intros st k i I H. destruct (ci_vals _ I _ _ H) as (E & t & Et). exists t. unfold cview. rewrite Et, E. auto. Qed.

Hypothesis HP : z_pool z Flows = cap.
Lemma put_ok' : forall st time k (Q : option nat -> cstate -> Prop), cinv st -> length k = z_key z -> (time < TIME_MAX)%N -> vals st k = None ->
  (forall i st', cinv st' -> same_rest st st' -> learned_at st st' time k i -> Q (Some i) st') ->
  (forall st', cinv st' -> same_rest st st' -> full st time -> (forall j, cview st' j = cview st j) -> Q None st') ->
  ok z (put_prog time k) st Q.
Proof.
  intros st time k Q I HK Ht EV QS QN. cbn [put_prog ok pop_ok]. rewrite HP. split; [apply N.ltb_lt; exact Ht|]. intros out m S.
  destruct out as [[[i u]|]| |]; cbn [spec_step] in S; try contradiction.
  - destruct S as (Hi & Hm & Hu).
    assert (NT : forall j t, cview st j <> Some (k, t)) by (intros; apply not_there; assumption).
    destruct u; cbn [ok ckey own vals adr clen its cdat].
    + destruct Hu as (old & Eo & Hy). destruct (ci_in _ I _ _ Eo) as [EV0 EA0]. pose proof (ci_own _ I i Hi) as Ow. rewrite Eo in Ow.
      split; [exact Hi|]. split; [lia|]. split; [congruence|]. split; [exact EA0|]. split; [exact Hi|].
      split; [unfold upd; rewrite Nat.eqb_refl; lia|]. split; [exact HK|]. split; [exact Hi|]. split; [unfold upd; rewrite Nat.eqb_refl; lia|].
      assert (Hc : clen st - 1 < cap).
      { rewrite (ci_count _ I), (count_unset _ i Hi) by (unfold present; rewrite Eo; reflexivity). pose proof (count_lt (pupd (its st Flows) i None) i Hi) as C.
        unfold pupd in C at 1. rewrite Nat.eqb_refl in C. specialize (C eq_refl). lia. }
      split; [exact Hc|].
      assert (Ek : upd (ckey st) i k i = k) by (unfold upd; rewrite Nat.eqb_refl; reflexivity). rewrite Ek.
      assert (NV : kupd (vals st) (ckey st i) None k = None) by (unfold kupd; destruct (beqb k (ckey st i)); [reflexivity|exact EV]).
      split; [exact NV|]. split; [unfold kupd; destruct (beqb k (ckey st i)); [reflexivity|apply (ci_none _ I); exact EV]|].
      destruct (remove_inv st i (pupd (its st Flows) i None) I (ex_intro _ _ Eo)) as (I1 & _ & V1); [reflexivity|].
      destruct (put_inv _ i k time m I1 Hi HK) as (I2 & V2); cbn [set_items removed its wupd vals].
      { unfold pupd. rewrite Nat.eqb_refl. reflexivity. } { exact NV. }
      { intros j. rewrite Hm. unfold pupd. destruct (Nat.eqb j i); reflexivity. }
      cbn [set_items removed ckey own vals adr clen its cdat] in I2, V2.
      match goal with |- Q _ ?s => assert (X : cinv s /\ forall j, cview s j = cview (mkC (upd (ckey st) i k) (upd (upd (own st) i (own st i + 1)) i (upd (own st) i (own st i + 1) i - 1))
          (kupd (kupd (vals st) (ckey st i) None) k (Some i)) (kupd (kupd (adr st) (ckey st i) None) k (Some i)) (S (clen st - 1)) (wupd (wupd (its st) Flows (pupd (its st Flows) i None)) Flows m) (cdat st)) j) end.
      { apply cinv_ext; try reflexivity; [|exact I2]. intros w j. destruct w; reflexivity. }
      destruct X as [X1 X2]. apply QS; [exact X1|split; reflexivity|]. split; [exact Hi|]. split.
      * right. split; [exact NT|]. right. exists (ckey st i), old. unfold cview. rewrite Eo. auto.
      * intros j. rewrite X2, V2, V1. destruct (Nat.eqb j i); reflexivity.
    + pose proof (ci_own _ I i Hi) as Ow. rewrite Hu in Ow. split; [exact Hi|]. split; [exact Ow|]. split; [exact HK|]. split; [exact Hi|]. split; [lia|].
      split; [rewrite (ci_count _ I); exact (count_lt _ i Hi Hu)|].
      assert (Ek : upd (ckey st) i k i = k) by (unfold upd; rewrite Nat.eqb_refl; reflexivity). rewrite Ek.
      split; [exact EV|]. split; [apply (ci_none _ I); exact EV|].
      destruct (put_inv st i k time m I Hi HK Hu EV Hm) as (I2 & V2). apply QS; [exact I2|split; reflexivity|]. split; [exact Hi|]. split; [|exact V2].
      right. split; [exact NT|]. left. unfold cview. rewrite Hu. reflexivity.
  - destruct S as (Hall & Hm). cbn [ok].
    destruct (cinv_ext st (mkC (ckey st) (own st) (vals st) (adr st) (clen st) (wupd (its st) Flows m) (cdat st))) as (I' & V'); try reflexivity; [|exact I|].
    { intros [] j; [exact (Hm j)|reflexivity]. }
    apply QN; [exact I'|split; reflexivity| |exact V']. intros i Hi. destruct (Hall i Hi) as (v & Ev & Hy). exists (ckey st i), v. unfold cview. rewrite Ev. auto.
Qed.

Lemma refresh_ok' : forall A st time i (f : pout -> nprog A) (Q : A -> cstate -> Prop), cinv st -> (time < TIME_MAX)%N -> (exists t, its st Flows i = Some t) ->
  (forall st', cinv st' -> same_rest st st' -> ckey st' = ckey st -> own st' = own st -> (forall j, cview st' j = if Nat.eqb j i then Some (ckey st i, time) else cview st j) -> ok z (f RUnit) st' Q) ->
  ok z (NPool Flows (ORefresh time i) f) st Q.
Proof.
  intros A st time i f Q I Ht [t Et] H. cbn [ok pop_ok]. rewrite HP. pose proof (ci_out _ I _ _ Et) as Hi.
  rewrite (proj2 (N.ltb_lt _ _) Ht), (proj2 (Nat.ltb_lt _ _) Hi). split; [reflexivity|]. intros out m S. destruct out; cbn [spec_step] in S; try contradiction.
  destruct (refresh_inv st i time m I (ex_intro _ _ Et) S) as (I' & V'). apply H; [exact I'|split; reflexivity|reflexivity|reflexivity|exact V'].
Qed.
Lemma used_ok' : forall A st time i (f : pout -> nprog A) (Q : A -> cstate -> Prop), cinv st ->
  (forall b st', cinv st' -> same_rest st st' -> ckey st' = ckey st -> own st' = own st -> vals st' = vals st -> (forall j, its st' Flows j = its st Flows j) ->
     (b = true <-> exists t, its st Flows i = Some t /\ young time exp t) -> ok z (f (RUsed b)) st' Q) ->
  ok z (NPool Flows (OUsed time i) f) st Q.
Proof.
  intros A st time i f Q I H. cbn [ok pop_ok]. split; [reflexivity|]. intros out m S. destruct out; cbn [spec_step] in S; try contradiction. destruct S as (Hb & Hm).
  destruct (cinv_ext st (mkC (ckey st) (own st) (vals st) (adr st) (clen st) (wupd (its st) Flows m) (cdat st))) as (I' & V'); try reflexivity; [|exact I|].
  { intros [] j; [exact (Hm j)|reflexivity]. }
  apply H; try reflexivity; [exact I'|split; reflexivity|exact Hm|exact Hb].
Qed.

Lemma learn_ok' : forall st time k (Q : option nat -> cstate -> Prop), cinv st -> length k = z_key z -> (time < TIME_MAX)%N ->
  (forall i st', cinv st' -> same_rest st st' -> learned_at st st' time k i -> Q (Some i) st') ->
  (forall st', cinv st' -> same_rest st st' -> full st time -> (forall j t, cview st j <> Some (k, t)) -> (forall j, cview st' j = cview st j) -> Q None st') ->
  ok z (learn_prog time k) st Q.
Proof.
  intros st time k Q I HK Ht QS QN. unfold learn_prog. cbn [ok]. split; [exact HK|]. destruct (vals st k) as [i|] eqn:EV.
  - destruct (get_view st k i I EV) as (t & Et & Ev). apply refresh_ok'; [exact I|exact Ht|eauto|]. intros st' I' SR _ _ V'. cbn [ok]. apply QS; [exact I'|exact SR|].
    split; [exact (ci_out _ I _ _ Et)|]. split; [left; eauto|]. intros j. rewrite V'. unfold cview in Ev. rewrite Et in Ev. injection Ev as ->. reflexivity.
  - apply put_ok'; auto. intros st' I' SR Fu V'. apply QN; auto. intros j t. apply not_there; assumption.
Qed.
End Facts.
