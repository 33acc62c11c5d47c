(** * The no-op function (nf/nop), the start of the policer (nf/policer) and the policer in
      Rust (nf/rust-policer) *)

From Coq Require Import NArith List Bool Lia Arith Ascii.
From Coq Require Import String.
From Verif Require Import IndexPool HashMap Table Firewall Policer Packet Config.
Import ListNotations.
Open Scope N_scope.

(** The bytes of a string literal. *)
Fixpoint bytes_of (s : string) : cstr :=
  match s with EmptyString => [] | String c s => N_of_ascii c :: bytes_of s end.

(** ** nop.c *)
(** nop.c 6-9: the devices, wan then lan; [None] is false. *)
Definition nop_init (cfg : config) (devices_count : N) : option (N * N) :=
  match os_config_get_device cfg (bytes_of "wan device") devices_count with
  | None => None
  | Some wan =>
      match os_config_get_device cfg (bytes_of "lan device") devices_count with
      | None => None
      | Some lan => if negb (lan =? wan) then Some (wan, lan) else None
      end
  end.
(** nop.c 13: the device the packet is transmitted on; the flags are UPDATE_ETHER_ADDRS
    (net/tx.h). *)
Definition nop_handle (wan lan device : N) : N := if device =? wan then lan else wan.

(** ** policer.c 21-42 from the configuration: the WAN device, the rate, the burst, the
    capacity and the state; [None] is false. *)
Definition started := (N * N * N * N * pol)%type.
Definition pol_nf_init (cfg : config) (devices_count : N) : option started :=
  if negb (devices_count =? 2) then None
  else match os_config_get_device cfg (bytes_of "wan device") devices_count with
  | None => None
  | Some wan =>
      match os_config_get_u64 cfg (bytes_of "rate") with
      | None => None
      | Some rate =>
          match os_config_get_u64 cfg (bytes_of "burst") with
          | None => None
          | Some burst =>
              match os_config_get_size cfg (bytes_of "max flows") with
              | None => None
              | Some max_flows =>
                  option_map (fun st => (wan, rate, burst, max_flows, st)) (pol_init rate burst (N.to_nat max_flows))
              end
          end
      end
  end.

(** ** The policer in Rust *)

(** Structures with repr(C) (and __attribute__((packed)) in C): the offset of each field
    and the size, from the fields' sizes and alignments. *)
Definition align_up (o a : N) : N := (o + a - 1) / a * a.
Fixpoint field_offset (o : N) (fs : list (N * N)) (i : nat) : N :=
  match fs with
  | [] => o
  | (size, align) :: fs =>
      let o := align_up o align in
      match i with O => o | S i => field_offset (o + size) fs i end
  end.
Definition struct_size (fs : list (N * N)) : N :=
  align_up (field_offset 0 (fs ++ [(0, 1)])%list (List.length fs)) (fold_right (fun f m => N.max (snd f) m) 1 fs).
Definition pack (fs : list (N * N)) : list (N * N) := map (fun f => (fst f, 1)) fs.
(** defs.rs 16-21: two arrays of bytes and a u16; defs.rs 23-35. *)
Definition rs_ether : list (N * N) := [(6, 1); (6, 1); (2, 2)].
Definition rs_ipv4 : list (N * N) := [(1, 1); (1, 1); (2, 2); (2, 2); (2, 2); (1, 1); (1, 1); (2, 2); (4, 4); (4, 4)].
(** u16::from_be, on a little-endian target. *)
Definition from_be16 (v : N) : N := v mod 256 * 256 + v / 256.
(** defs.rs 37-47 *)
Definition rs_ipv4_at : N := struct_size rs_ether.
Definition rs_is_ipv4 (d : data) : bool := from_be16 (ld16 d (field_offset 0 rs_ether 2)) =? 2048.
(** The offset of the header's dst_addr in the packet's data. *)
Definition rs_dst_at : N := rs_ipv4_at + field_offset 0 rs_ipv4 9.
Definition rs_dst (d : data) : N := ld32 d rs_dst_at.

(** lib.rs 27-83. The Makefile builds with --release, where arithmetic wraps around. *)
Definition rs_init (cfg : config) (devices_count : N) : option started :=
  if negb (devices_count =? 2) then None
  else match os_config_try_get cfg (bytes_of "wan device") with
  | None => None
  | Some device =>
      if devices_count <=? device then None
      else let wan := device mod 2 ^ 16 in
      match os_config_try_get cfg (bytes_of "rate") with
      | None => None
      | Some rate =>
          if rate =? 0 then None
          else match os_config_try_get cfg (bytes_of "burst") with
          | None => None
          | Some burst =>
              if burst =? 0 then None
              else match os_config_try_get cfg (bytes_of "max flows") with
              | None => None
              | Some max_flows =>
                  if (max_flows =? 0) || ((2 ^ 64 - 1) / 64 <? max_flows) then None
                  else let flows := N.to_nat max_flows in
                    Some (wan, rate, burst, max_flows,
                          mkPol (mkTab (repeat (repeat 0 ADDR_SIZE) flows) (map_alloc ADDR_SIZE max_flows)
                                       (pool_alloc flows (1000000000 * burst mod 2 ^ 64 / rate)))
                                (repeat (0, 0) flows))
              end
          end
      end
  end.

Section Rust.
Variable hash : bytes -> N.
Variables base loc : N.
Variables wan rate burst : N.

(** lib.rs 85-148: the device the packet is sent to. *)
Definition rs_handle (st : pol) (r : rpkt) : option N * pol :=
  let d := r_data r in
  let time := r_time r in
  let out := (1 + 2 ^ 16 - r_device r) mod 2 ^ 16 in
  let tb := ptab st in
  let memory ks k := Table.memory ADDR_SIZE base loc ks k in
  if negb (rs_is_ipv4 d) then (None, st)
  else if r_device r =? wan then
    let key := le 4 (rs_dst d) in
    match map_get hash (memory (keys tb) key) (tmap tb) loc with
    | Some index =>
        let index := N.to_nat index in
        let tb' := mkTab (keys tb) (tmap tb) (pool_refresh (tpool tb) time index) in
        let bucket := nth index (buckets st) (0, 0) in
        let time_diff := (time + 2 ^ 64 - snd bucket) mod 2 ^ 64 in
        let size :=
          if time_diff <? burst / rate then
            let size := (fst bucket + time_diff * rate mod 2 ^ 64) mod 2 ^ 64 in
            if burst <? size then burst else size
          else burst in
        if r_length r <? size
        then (Some out, mkPol tb' (set_nth (buckets st) index (size - r_length r, time)))
        else (None, mkPol tb' (set_nth (buckets st) index (size, time)))
    | None =>
        if burst <? r_length r then (None, st)
        else match pool_borrow (tpool tb) time with
             | (Some (index, was_used), p) =>
                 let m := if was_used then fst (map_remove hash (memory (keys tb) key) (tmap tb) (kaddr ADDR_SIZE base index)) else tmap tb in
                 let ks := set_nth (keys tb) index key in
                 let m := fst (map_set hash (memory ks key) m (kaddr ADDR_SIZE base index) (N.of_nat index)) in
                 (Some out, mkPol (mkTab ks m p) (set_nth (buckets st) index (burst - r_length r, time)))
             | (None, p) => (None, mkPol (mkTab (keys tb) (tmap tb) p) (buckets st))
             end
    end
  else (Some out, st).

Fixpoint rs_run (st : pol) (rs : list rpkt) : list (option N) * pol :=
  match rs with
  | [] => ([], st)
  | r :: rs =>
      let (o, st1) := rs_handle st r in
      let (os, st2) := rs_run st1 rs in (o :: os, st2)
  end.

(** ** The two policers *)
Lemma from_be_8 : forall d o, data_ok d -> (from_be16 (ld16 d o) =? 2048) = (ld16 d o =? 8).
Proof.
  intros d o H. unfold from_be16, ld16. pose proof (H o). pose proof (H (o + 1)).
  set (a := d o) in *. set (b := d (o + 1)) in *. clearbody a b. clear H.
  replace (a + 256 * b) with (a + b * 256) by lia.
  rewrite N.mod_add, N.div_add, N.mod_small, N.div_small by lia.
  destruct (N.eqb_spec (a * 256 + (0 + b)) 2048), (N.eqb_spec (a + b * 256) 8); lia.
Qed.
Lemma rs_fields : rs_dst_at = IP + 16 /\ field_offset 0 rs_ether 2 = 12.
Proof. split; reflexivity. Qed.

Lemma rs_step : forall st r, r_device r < 2 -> data_ok (r_data r) ->
  rs_handle st r = pol_handle hash base loc wan rate burst st (parse r).
Proof.
  intros st r Hd Hk. unfold rs_handle, pol_handle. cbv zeta.
  assert (E : rs_is_ipv4 (r_data r) = is_ipv4 (parse r)).
  { unfold rs_is_ipv4, is_ipv4. rewrite (proj2 rs_fields). apply from_be_8. exact Hk. }
  rewrite E. destruct (negb (is_ipv4 (parse r))); [reflexivity|].
  assert (EO : (1 + 2 ^ 16 - r_device r) mod 2 ^ 16 = 1 - r_device r).
  { assert (r_device r = 0 \/ r_device r = 1) as [-> | ->] by lia; reflexivity. }
  rewrite EO. change (p_device (parse r)) with (r_device r). change (p_time (parse r)) with (r_time r).
  change (p_length (parse r)) with (r_length r). change (le 4 (rs_dst (r_data r))) with (pol_key (parse r)).
  destruct (r_device r =? wan); [|reflexivity].
  unfold tlearn. unfold tfind. destruct (map_get _ _ _ _) as [i|]; cbn [option_map].
  - unfold refill. destruct (nth (N.to_nat i) (buckets st) (0, 0)) as [size time]. cbn [fst snd]. reflexivity.
  - destruct (burst <? r_length r); [reflexivity|]. destruct (pool_borrow (tpool (ptab st)) (r_time r)) as [[[i w]|] p]; reflexivity.
Qed.

Lemma rs_same_run : forall rs st, Forall (fun r => r_device r < 2 /\ data_ok (r_data r)) rs ->
  rs_run st rs = pol_run hash base loc wan rate burst st (map parse rs).
Proof.
  induction rs as [|r rs IH]; intros st H; [reflexivity|]. inversion H as [|? ? [H1 H2] H3]; subst.
  cbn [rs_run pol_run map]. rewrite rs_step by assumption. destruct (pol_handle _ _ _ _ _ _ st (parse r)) as [o st1].
  rewrite IH by assumption. reflexivity.
Qed.
End Rust.

Lemma try_get_lt : forall cfg name v, config_ok cfg -> os_config_try_get cfg name = Some v -> v < 2 ^ 64.
Proof.
  induction cfg as [|[k x] cfg IH]; intros name v H E; [discriminate|]. inversion H as [|? ? [_ Hx] Ht]; subst. cbn [os_config_try_get] in E.
  destruct (string_compare k name); [injection E as <-; exact Hx|]. eauto.
Qed.
Lemma getter_val : forall cfg name max width, config_ok cfg -> max < 2 ^ width ->
  getter cfg name 0 max width = match os_config_try_get cfg name with Some v => if v <=? max then Some v else None | None => None end.
Proof.
  intros cfg name max width H M. unfold getter, os_config_get. destruct (os_config_try_get cfg name) as [v|]; [|reflexivity].
  change (negb (0 =? 0)) with false. cbn [andb]. destruct (N.leb_spec v max); [|reflexivity]. cbn [option_map].
  rewrite N.mod_small by (eapply N.le_lt_trans; eassumption). reflexivity.
Qed.

(** Both start, with the same parameters and the same state, unless no flow is allowed. *)
Lemma rs_init_spec : forall cfg n, config_ok cfg ->
  rs_init cfg n = match pol_nf_init cfg n with
                  | Some (wan, rate, burst, cap, st) => if cap =? 0 then None else Some (wan, rate, burst, cap, st)
                  | None => None
                  end.
Proof.
  intros cfg n H. unfold rs_init, pol_nf_init. destruct (N.eqb_spec n 2) as [->|]; [|reflexivity]. cbn [negb].
  unfold os_config_get_device, os_config_get_u64, os_config_get_size.
  rewrite !getter_val by (try exact H; reflexivity).
  destruct (os_config_try_get cfg (bytes_of "wan device")) as [d|] eqn:ED; [|reflexivity].
  change ((2 + (2 ^ 64 - 1)) mod 2 ^ 64) with 1.
  destruct (N.leb_spec 2 d); destruct (N.leb_spec d 1); try lia; [reflexivity|].
  rewrite (N.mod_small d) by (change (2 ^ 16) with 65536; lia).
  destruct (os_config_try_get cfg (bytes_of "rate")) as [r|] eqn:ER; [|reflexivity].
  pose proof (try_get_lt _ _ _ H ER). rewrite (proj2 (N.leb_le r _)) by lia.
  destruct (os_config_try_get cfg (bytes_of "burst")) as [b|] eqn:EB.
  2:{ destruct (r =? 0); reflexivity. }
  pose proof (try_get_lt _ _ _ H EB). rewrite (proj2 (N.leb_le b _)) by lia.
  destruct (os_config_try_get cfg (bytes_of "max flows")) as [f|] eqn:EF.
  2:{ destruct (r =? 0), (b =? 0); reflexivity. }
  unfold pol_init. rewrite N.ltb_antisym. destruct (f <=? (2 ^ 64 - 1) / 64) eqn:EM; cbn [negb orb].
  2:{ rewrite orb_true_r. destruct (r =? 0), (b =? 0); reflexivity. }
  rewrite orb_false_r. destruct (r =? 0), (b =? 0); cbn [orb option_map]; try reflexivity.
  destruct (f =? 0); [reflexivity|]. unfold talloc, pol_exp. rewrite N2Nat.id. reflexivity.
Qed.
