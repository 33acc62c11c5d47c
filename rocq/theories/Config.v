(** * Configuration getters (env/src/os/config.c, env/include/os/config.h, env/include/net/skeleton.h 30-38) *)

From Coq Require Import NArith ZArith List Bool Lia.
Import ListNotations.
Open Scope N_scope.

(** A C string: its bytes before the terminator (none of them zero). Reading position
    [n] gives the byte or the terminator. *)
Definition cstr := list N.
Definition char_at (s : cstr) (n : nat) : N := nth n s 0.

(** config.c 10-32. The loop ends at the latest at the shorter string's terminator;
    [fuel] is one more than the length of the first string. *)
Fixpoint string_compare_from (a b : cstr) (n fuel : nat) : bool :=
  match fuel with
  | O => false
  | S fuel' =>
      if negb (char_at a n =? char_at b n) then false
      else if char_at a n =? 0 then true
      else string_compare_from a b (S n) fuel'
  end.
Definition string_compare (a b : cstr) : bool := string_compare_from a b 0 (S (length a)).

(** config.c 34-48: [items] is the configuration table, in order. *)
Definition config := list (cstr * N).
Fixpoint os_config_try_get (items : config) (name : cstr) : option N :=
  match items with
  | [] => None
  | (k, v) :: items' => if string_compare k name then Some v else os_config_try_get items' name
  end.

(** Conversion uint64_t -> int64_t. *)
Definition as_signed (v : N) : Z := if v <? 2 ^ 63 then Z.of_N v else (Z.of_N v - 2 ^ 64)%Z.

(** config.h 15-27. *)
Definition os_config_get (items : config) (name : cstr) (min max : N) : option N :=
  match os_config_try_get items name with
  | None => None
  | Some v =>
      if (negb (min =? 0)) && (as_signed v <? as_signed min)%Z then None
      else if v <=? max then Some v else None
  end.

(** config.h 31-80: getters return the value converted to the destination type. *)
Definition getter (items : config) (name : cstr) (min max width : N) : option N :=
  option_map (fun v => v mod 2 ^ width) (os_config_get items name min max).
Definition os_config_get_u64 items name := getter items name 0 (2 ^ 64 - 1) 64.
Definition os_config_get_u32 items name := getter items name 0 (2 ^ 32 - 1) 32.
Definition os_config_get_u16 items name := getter items name 0 (2 ^ 16 - 1) 16.
Definition os_config_get_size items name := getter items name 0 ((2 ^ 64 - 1) / 64) 64.
Definition os_config_get_time items name := getter items name 0 (2 ^ 64 - 1) 64.
(** skeleton.h 30-38: [devices_count - 1] is computed on int and converted to uint64_t. *)
Definition os_config_get_device items name (devices_count : N) :=
  getter items name 0 ((devices_count + (2 ^ 64 - 1)) mod 2 ^ 64) 16.

(** * Specification: the first entry configured under a name *)
Inductive configured : config -> cstr -> N -> Prop :=
| conf_here : forall k v items, configured ((k, v) :: items) k v
| conf_later : forall k k' v v' items, k' <> k -> configured items k v -> configured ((k', v') :: items) k v.

(** Well-formed C strings. *)
Definition cstr_ok (s : cstr) : Prop := Forall (fun c => c <> 0) s.
(** All values are 64-bit. *)
Definition config_ok (items : config) : Prop :=
  Forall (fun kv => cstr_ok (fst kv) /\ snd kv < 2 ^ 64) items.

(** * Proofs *)
Lemma char_at_len : forall s, char_at s (length s) = 0.
Proof. intros. apply nth_overflow. auto. Qed.
Lemma char_at_in : forall s n, cstr_ok s -> (n < length s)%nat -> char_at s n <> 0.
Proof. intros. unfold cstr_ok in H. rewrite Forall_forall in H. apply H. apply nth_In. auto. Qed.

Lemma string_compare_from_spec : forall a b, cstr_ok a -> cstr_ok b -> forall fuel n,
  (n <= length a)%nat -> (n <= length b)%nat -> firstn n a = firstn n b ->
  (fuel + n = S (length a))%nat ->
  string_compare_from a b n fuel = true <-> a = b.
Proof.
  intros a b Ha Hb. induction fuel as [|fuel IH]; intros n Hna Hnb E F; [lia|].
  cbn [string_compare_from].
  destruct (N.eqb_spec (char_at a n) (char_at b n)) as [Ec|Nc]; cbn [negb].
  - destruct (N.eqb_spec (char_at a n) 0) as [Z|NZ].
    + assert (n = length a).
      { destruct (Nat.eq_dec n (length a)); [auto|]. exfalso. apply (char_at_in a n); auto. lia. }
      assert (n = length b).
      { destruct (Nat.eq_dec n (length b)); [auto|]. exfalso. apply (char_at_in b n); auto. lia. congruence. }
      split; [|auto]. intros _. rewrite <- (firstn_all a), <- (firstn_all b). congruence.
    + assert (n < length a)%nat.
      { destruct (Nat.eq_dec n (length a)); [subst; rewrite char_at_len in NZ; congruence|lia]. }
      assert (n < length b)%nat.
      { destruct (Nat.eq_dec n (length b)); [subst; rewrite (char_at_len b) in Ec; congruence|lia]. }
      apply IH; try lia.
      assert (FS : forall (l : list N), (n < length l)%nat -> firstn (S n) l = firstn n l ++ [nth n l 0]).
      { clear. induction n; destruct l; cbn [length firstn nth app]; intros; try lia; [reflexivity|].
        f_equal. apply IHn. lia. }
      rewrite !FS by auto. unfold char_at in Ec. rewrite E, Ec. reflexivity.
  - split; [discriminate|]. intros ->. congruence.
Qed.

Lemma string_compare_spec : forall a b, cstr_ok a -> cstr_ok b -> string_compare a b = true <-> a = b.
Proof. intros. apply string_compare_from_spec; auto; lia. Qed.

Lemma try_get_spec : forall items name v, config_ok items -> cstr_ok name ->
  os_config_try_get items name = Some v <-> configured items name v.
Proof.
  induction items as [|[k v0] items IH]; intros name v HC HN; cbn [os_config_try_get].
  - split; [discriminate|]. intros H. inversion H.
  - inversion HC as [|? ? [Hk _] HC']; subst. cbn in Hk.
    pose proof (string_compare_spec k name Hk HN) as S.
    destruct (string_compare k name).
    + assert (k = name) by tauto. subst. split.
      * intros E. injection E as ->. constructor.
      * intros H. inversion H; subst; [auto|contradiction].
    + assert (k <> name) by (intros E; apply S in E; discriminate). rewrite (IH name v) by auto. split.
      * intros. constructor; auto.
      * intros X. inversion X; subst; [contradiction|auto].
Qed.

Lemma configured_lt : forall items name v, config_ok items -> configured items name v -> v < 2 ^ 64.
Proof.
  intros items name v HC H. induction H; inversion HC as [|? ? [_ Hv] HC']; subst; auto.
Qed.

Lemma get_spec : forall items name min max v, config_ok items -> cstr_ok name ->
  min < 2 ^ 63 ->
  os_config_get items name min max = Some v <->
  configured items name v /\ min <= v <= max /\ (min <> 0 -> v < 2 ^ 63).
Proof.
  intros items name min max v HC HN Hm. unfold os_config_get.
  pose proof (fun v => try_get_spec items name v HC HN) as T.
  assert (SM : as_signed min = Z.of_N min).
  { unfold as_signed. destruct (N.ltb_spec min (2 ^ 63)); [reflexivity|lia]. }
  destruct (os_config_try_get items name) as [v0|].
  - assert (C0 : configured items name v0) by (apply T; auto).
    pose proof (configured_lt _ _ _ HC C0) as L0.
    assert (U : forall v, configured items name v -> v = v0).
    { intros v' Hv. apply T in Hv. congruence. }
    rewrite SM. change (2 ^ 63) with 9223372036854775808 in *. change (2 ^ 64) with 18446744073709551616 in *.
    destruct (N.eqb_spec min 0) as [->|Nm]; cbn [negb andb].
    + destruct (N.leb_spec v0 max).
      * split; [intros E; injection E as <-; split; [auto|split; [lia|intros X; destruct (X eq_refl)]]|].
        intros [Hv _]. rewrite (U v Hv). reflexivity.
      * split; [discriminate|]. intros [Hv [Hb _]]. rewrite (U v Hv) in Hb. lia.
    + unfold as_signed. change (2 ^ 63) with 9223372036854775808.
      destruct (N.ltb_spec v0 9223372036854775808).
      * destruct (Z.ltb_spec (Z.of_N v0) (Z.of_N min)).
        -- split; [discriminate|]. intros [Hv [Hb _]]. rewrite (U v Hv) in Hb. lia.
        -- destruct (N.leb_spec v0 max).
           ++ split; [intros E; injection E as <-; split; [auto|split; [lia|auto]]|].
              intros [Hv _]. rewrite (U v Hv). reflexivity.
           ++ split; [discriminate|]. intros [Hv [Hb _]]. rewrite (U v Hv) in Hb. lia.
      * destruct (Z.ltb_spec (Z.of_N v0 - 2 ^ 64) (Z.of_N min)).
        -- split; [discriminate|]. intros [Hv [Hb Hc]]. specialize (Hc Nm). rewrite (U v Hv) in Hc. lia.
        -- exfalso. change (2 ^ 64)%Z with 18446744073709551616%Z in *. lia.
  - split; [discriminate|]. intros [Hv _]. apply T in Hv. discriminate.
Qed.

(** A getter with minimum 0 whose maximum fits the destination type. *)
Lemma getter_spec : forall items name max w v, config_ok items -> cstr_ok name -> max < 2 ^ w ->
  getter items name 0 max w = Some v <-> configured items name v /\ v <= max.
Proof.
  intros items name max w v HC HN Hw. unfold getter.
  pose proof (fun v => get_spec items name 0 max v HC HN ltac:(vm_compute; reflexivity)) as G.
  destruct (os_config_get items name 0 max) as [v0|]; cbn.
  - assert (configured items name v0 /\ 0 <= v0 <= max /\ (0 <> 0 -> v0 < 2 ^ 63)) by (apply G; auto).
    rewrite N.mod_small by lia. split.
    + intros E. injection E as <-. tauto.
    + intros [Hv Hb]. assert (Some v0 = Some v); [|congruence]. apply G. repeat split; auto; lia.
  - split; [discriminate|]. intros [Hv Hb]. assert (None = Some v); [|congruence]. apply G. repeat split; auto; lia.
Qed.

Lemma getters_spec : forall items name v, config_ok items -> cstr_ok name ->
  (os_config_get_u64 items name = Some v <-> configured items name v) /\
  (os_config_get_u32 items name = Some v <-> configured items name v /\ v <= 4294967295) /\
  (os_config_get_u16 items name = Some v <-> configured items name v /\ v <= 65535) /\
  (os_config_get_size items name = Some v <-> configured items name v /\ v <= (2 ^ 64 - 1) / 64) /\
  (os_config_get_time items name = Some v <-> configured items name v) /\
  (forall devices_count, 0 < devices_count <= 65536 ->
     (os_config_get_device items name devices_count = Some v <-> configured items name v /\ v < devices_count)).
Proof.
  intros items name v HC HN.
  assert (G : forall max w, max < 2 ^ w -> getter items name 0 max w = Some v <-> configured items name v /\ v <= max)
    by (intros; apply getter_spec; auto).
  assert (B : configured items name v -> v <= 2 ^ 64 - 1).
  { intros H. apply configured_lt in H; auto. lia. }
  split; [|split; [|split; [|split; [|split]]]].
  - unfold os_config_get_u64. rewrite G by (vm_compute; reflexivity). tauto.
  - apply G. vm_compute. reflexivity.
  - apply G. vm_compute. reflexivity.
  - apply G. vm_compute. reflexivity.
  - unfold os_config_get_time. rewrite G by (vm_compute; reflexivity). tauto.
  - intros n Hn. unfold os_config_get_device.
    replace (n + (2 ^ 64 - 1)) with (n - 1 + 1 * 2 ^ 64) by (change (2 ^ 64) with 18446744073709551616; lia).
    rewrite N.mod_add by (vm_compute; discriminate).
    rewrite N.mod_small by (change (2 ^ 64) with 18446744073709551616; lia).
    rewrite G by (change (2 ^ 16) with 65536; lia).
    split; intros [H1 H2]; split; auto; lia.
Qed.

Lemma any_range_fails :
  (exists items name min max v, config_ok items /\ cstr_ok name /\ min <= max /\ max < 2 ^ 64 /\
     os_config_get items name min max = Some v /\ v < min) /\
  (exists items name min max v, config_ok items /\ cstr_ok name /\
     configured items name v /\ min <= v <= max /\ max < 2 ^ 64 /\ os_config_get items name min max = None) /\
  (exists items name v v', config_ok items /\ cstr_ok name /\ configured items name v /\
     os_config_get_device items name 0 = Some v' /\ v' <> v).
Proof.
  assert (OK : forall v, v < 2 ^ 64 -> config_ok [([97], v)] /\ cstr_ok [97]).
  { intros v Hv. split; repeat constructor; auto; cbn; discriminate. }
  split; [|split].
  - exists [([97], 5)], [97], (2 ^ 63), (2 ^ 64 - 1), 5.
    destruct (OK 5 ltac:(vm_compute; reflexivity)) as [A B]. split; [exact A|]. split; [exact B|].
    repeat split; vm_compute; congruence.
  - exists [([97], 2 ^ 63)], [97], 1, (2 ^ 64 - 1), (2 ^ 63).
    destruct (OK (2 ^ 63) ltac:(vm_compute; reflexivity)) as [A B]. split; [exact A|]. split; [exact B|].
    split; [constructor|]. repeat split; vm_compute; congruence.
  - exists [([97], 65543)], [97], 65543, 7.
    destruct (OK 65543 ltac:(vm_compute; reflexivity)) as [A B]. split; [exact A|]. split; [exact B|].
    split; [constructor|]. split; [vm_compute; reflexivity|discriminate].
Qed.
