(** * The NAT against its specification (nf/nat/spec.py) *)

From Coq Require Import NArith ZArith List Bool Lia Arith.
From Verif Require Import Solver IndexPool HashMap Table Firewall ExpSet Packet NatNF.
Import ListNotations.
Open Scope nat_scope.

(** nf/nat/spec.py 11-50, as [fw_spec_py] of ExpSet.v. Subtracting the start port from a
    16-bit port is done on 16 bits, and so is the comparison of line 44
    (value_proxy.py 62-75). *)
Definition nat_spec_py (wan ext_addr start_port : N) (old new : eset) (p : pkt) (sent : option (N * data)) : res bool :=
  let none := match sent with Some _ => false | None => true end in
  if negb (is_ipv4 p && is_tcpudp p) then Ok none
  else if (p_device p =? wan)%N then
    do flow <- es_get_by_index old (port_index start_port (l4_dst p));
    match flow with
    | None => Ok none
    | Some k =>
        let f := unflow k in
        if negb (f_dst f =? ip_src p)%N || negb (f_dport f =? l4_src p)%N || negb (f_proto f =? ip_proto p)%N then Ok none
        else
          do r <- es_did_refresh new (flow_bytes f);
          Ok (r && match sent with
                   | Some (d, b) => (ld32 b (IP + 16) =? f_src f)%N && (ld16 b (L4 + 2) =? f_sport f)%N && (d =? 1 - p_device p)%N
                   | None => false
                   end)
    end
  else
    let k := flow_bytes (pkt_flow p) in
    do known <- es_contains new k;
    if negb known then Ok (es_full old && none)
    else Ok match sent, es_get_index new k with
            | Some (d, b), Some i => (ld32 b (IP + 12) =? ext_addr)%N && (ld16 b L4 =? index_port start_port i)%N && (d =? 1 - p_device p)%N
            | _, _ => false
            end.

Section NatSpec.
Variable hash : bytes -> N.
Variables base loc wan ext_addr start_port exp : N.
Variable cap : nat.
Hypothesis L : layout_ok FLOW_SIZE base loc cap.
Hypothesis HC : (N.of_nat cap <= 2 ^ 63)%N.
Hypothesis Hstart : (start_port < 65536)%N.
Hypothesis Haddr : (ext_addr < 2 ^ 32)%N.

Theorem nat_meets_spec : forall h tb r o tb', nat_hist hash base loc wan ext_addr start_port cap exp h tb -> rpkt_ok r ->
  nat_handle hash base loc wan ext_addr start_port tb r = (o, tb') ->
  nat_spec_py wan ext_addr start_port
    (observe FLOW_SIZE base loc exp cap (p_time (parse r)) tb)
    (observe FLOW_SIZE base loc exp cap (p_time (parse r)) tb') (parse r) o = Ok true.
Proof.
  intros h tb r o tb' Hh Hr E. destruct (nat_inv hash base loc wan ext_addr start_port cap exp L HC Hstart Haddr h tb Hh) as [Hok Hinv].
  pose proof (parse_ok r Hr) as Hp. unfold nat_handle in E. unfold nat_spec_py. set (p := parse r) in *.
  assert (Ht : (p_time p < TIME_MAX)%N) by (unfold pkt_ok in Hp; tauto).
  destruct (negb (is_ipv4 p && is_tcpudp p)); [injection E as <- <-; reflexivity|].
  destruct (p_device p =? wan)%N.
  - set (i := port_index start_port (l4_dst p)) in *.
    destruct (get_by_index_spec FLOW_SIZE base loc hash cap exp L tb (p_time p) i Hok) as (fl & -> & Hfl). cbn [bindr].
    pose proof (used_spec hash FLOW_SIZE base loc cap exp tb (p_time p) i Hok) as US.
    destruct (pool_used (tpool tb) (p_time p) i); cbn [negb] in E.
    + destruct (proj1 US eq_refl) as (k & t & Hv & Hy).
      rewrite (proj2 (Hfl k) (ex_intro _ t (conj Hv Hy))).
      destruct (Hinv _ _ _ Hv) as (f & _ & Hf & Hk & _).
      rewrite <- (view_key _ _ _ _ Hv), Hk, unflow_bytes in E by exact Hf. rewrite Hk, unflow_bytes by exact Hf.
      destruct (negb (f_dst f =? ip_src p)%N || negb (f_dport f =? l4_src p)%N || negb (f_proto f =? ip_proto p)%N);
        [injection E as <- <-; reflexivity|].
      destruct (refresh_ok hash FLOW_SIZE base loc cap exp tb i (p_time p) Hok Ht (ex_intro _ _ Hv)) as [Ho' V].
      assert (Etb : tb' = mkTab (keys tb) (tmap tb) (pool_refresh (tpool tb) (p_time p) i)) by congruence.
      assert (Eo : o = Some ((1 - p_device p)%N, rewrite_dst (r_data r) (f_src f) (f_sport f))) by congruence. clear E. subst tb' o.
      destruct (did_refresh_spec FLOW_SIZE base loc hash cap exp L _ (p_time p) (flow_bytes f) Ho') as (b & -> & Hb). cbn [bindr].
      assert (b = true) as ->.
      { apply Hb. exists i. rewrite V, Nat.eqb_refl, <- (view_key _ _ _ _ Hv), Hk. reflexivity. }
      destruct (rewrite_dst_fields (r_data r) (f_src f) (f_sport f)) as (_ & D1 & D2 & _); [apply Hr|apply Hf|apply Hf|].
      rewrite D1, D2, !N.eqb_refl. reflexivity.
    + injection E as <- <-. destruct fl as [k|]; [|reflexivity]. exfalso.
      destruct (proj1 (Hfl k) eq_refl) as (t & Hv & Hy). assert (false = true); [|discriminate]. apply US. eauto.
  - set (k := flow_bytes (pkt_flow p)) in *.
    pose proof (learn_spec hash FLOW_SIZE base loc cap exp L tb (p_time p) k Hok (flow_bytes_length _) Ht) as LS.
    destruct (tlearn hash FLOW_SIZE base loc tb (p_time p) k) as [[i|] tb1]; destruct LS as [Ho' LS];
      assert (Etb : tb' = tb1) by congruence; subst tb';
      destruct (contains_spec FLOW_SIZE base loc hash cap exp L tb1 (p_time p) k Ho') as (b & -> & Hb); cbn [bindr].
    + destruct LS as (Hi & _ & V). assert (Eo : o = Some ((1 - p_device p)%N, rewrite_src (r_data r) ext_addr (index_port start_port i))) by congruence.
      clear E. subst o. assert (Hv : view tb1 i = Some (k, p_time p)) by (rewrite V, Nat.eqb_refl; reflexivity).
      assert (b = true) as ->. { apply Hb. exists i, (p_time p). split; [exact Hv|]. unfold young. lia. }
      cbn [negb]. unfold es_get_index. cbn [observe e2i].
      rewrite (proj2 (e2i_view FLOW_SIZE base loc hash cap exp L tb1 k i Ho') (ex_intro _ _ Hv)).
      destruct (rewrite_src_fields (r_data r) ext_addr (index_port start_port i)) as (_ & D1 & D2 & _); [apply Hr|exact Haddr|apply index_port_lt|].
      rewrite D1, D2, !N.eqb_refl. reflexivity.
    + destruct LS as (Hall & Hn & V). injection E as <-. assert (b = false) as ->.
      { destruct b; [|reflexivity]. exfalso. destruct (proj1 Hb eq_refl) as (i & t & Hv & _). rewrite V in Hv. exact (Hn i t Hv). }
      cbn [negb]. f_equal. rewrite andb_true_r. apply (full_spec FLOW_SIZE base loc hash cap exp tb (p_time p) Hok). exact Hall.
Qed.
End NatSpec.
