(** * The tool's own running: verdicts, new symbols, start of full-stack verification: C140 - C143 *)

From Coq Require Import String Ascii NArith Bool Lia Arith List.
From Coq Require DecimalString Decimal DecimalNat DecimalN DecimalPos DecimalFacts.
From Verif Require Import Cli Names FullRun.
Import ListNotations.
Open Scope nat_scope.
Open Scope list_scope.

(** ** C140: a success is about the program and the specification that were given *)

Section C140.
Context {binary data spec byte : Type}.
Variable execute : command -> binary -> option data.
Variable verify : data -> spec -> bool.
Variable pickle : data -> list byte.
Variable unpickle : list byte -> option data.
(** What is assumed of pickle: reading gives what was written, and fails if the end is missing. *)
Hypothesis unpickle_pickle : forall d, unpickle (pickle d) = Some d.
Hypothesis unpickle_prefix : forall d n, n < length (pickle d) -> unpickle (firstn n (pickle d)) = None.
Notation run := (handle execute verify pickle unpickle).
Notation after := (history execute verify pickle unpickle).
Notation next := (happen execute verify pickle unpickle).

(** Whatever happened before, a success without stored results says that the execution of the program as it is now satisfies the
    specification; and it is a success if it does. *)
Theorem C140_verdict : forall w es a, use_cached_symbex a = false ->
  let now := after w es in
  snd (run now a NoKill) = Verified <-> exists d s, execute (what a) (program now) = Some d /\ the_spec a = Some s /\ verify d s = true.
Proof.
  intros w es a H now. unfold handle. rewrite H. cbn [negb orb]. destruct (execute (what a) (program now)) as [d|]; cbn [snd].
  2: { split; [discriminate|]. intros (d & s & E & _). discriminate. }
  cbn [dump_data]. cbn [negb]. unfold verif. cbn [snd cache program]. rewrite unpickle_pickle. destruct (the_spec a) as [s|].
  - destruct (verify d s) eqn:V; split; try discriminate; try reflexivity; [intros _; exists d, s; auto|]. intros (d' & s' & E & E' & V'). congruence.
  - split; [discriminate|]. intros (d' & s' & _ & E & _). discriminate.
Qed.

Lemma cache_origin : forall es w, cache w = None -> forall bytes, cache (after w es) = Some bytes ->
  exists before a k later d n, es = before ++ Run a k :: later /\ execute (what a) (program (after w before)) = Some d /\ bytes = firstn n (pickle d).
Proof.
  intros es w HN. induction es as [|e es IH] using rev_ind; intros bytes H; [cbn in H; congruence|].
  unfold history in *. rewrite fold_left_app in H. cbn [fold_left] in H. set (v := fold_left next es w) in *.
  assert (Old : cache v = Some bytes -> exists before a k later d n, es ++ [e] = before ++ Run a k :: later /\ execute (what a) (program (fold_left next before w)) = Some d /\ bytes = firstn n (pickle d)).
  { intros E. destruct (IH bytes E) as (b & a & k & l & d & n & -> & X & Y). exists b, a, k, (l ++ [e]), d, n. rewrite <- app_assoc. auto. }
  destruct e as [b|a k]; cbn [happen cache] in H; [apply Old; exact H|].
  assert (New : forall d, execute (what a) (program v) = Some d -> forall n, bytes = firstn n (pickle d) -> exists before a' k' later d' n', es ++ [Run a k] = before ++ Run a' k' :: later /\ execute (what a') (program (fold_left next before w)) = Some d' /\ bytes = firstn n' (pickle d')).
  { intros d E n B. exists es, a, k, [], d, n. auto. }
  assert (Full : forall d, firstn (length (pickle d)) (pickle d) = pickle d) by (intros; apply firstn_all).
  unfold handle in H. destruct k as [|n| |].
  - apply Old. exact H.
  - destruct (negb (use_cached_symbex a) || _); [|apply Old; exact H]. destruct (execute (what a) (program v)) as [d|] eqn:E; [|apply Old; exact H]. cbn in H. injection H as <-. eapply New; reflexivity.
  - destruct (negb (use_cached_symbex a) || _); [|apply Old; exact H]. destruct (execute (what a) (program v)) as [d|] eqn:E; [|apply Old; exact H]. cbn in H. injection H as <-. eapply New; [reflexivity|]. symmetry. apply Full.
  - destruct (negb (use_cached_symbex a) || _); [|apply Old; exact H]. destruct (execute (what a) (program v)) as [d|] eqn:E; [|apply Old; exact H]. cbn in H. injection H as <-. eapply New; [reflexivity|]. symmetry. apply Full.
Qed.
Lemma program_kept : forall es w, (forall b, ~ In (Edit b) es) -> program (after w es) = program w.
Proof.
  induction es as [|e es IH]; intros w H; [reflexivity|]. unfold history in *. cbn [fold_left]. rewrite IH by (intros b Hb; apply (H b); right; exact Hb).
  destruct e as [b|a k]; [elim (H b); left; reflexivity|]. cbn [happen]. unfold handle. destruct k; try reflexivity;
  destruct (negb (use_cached_symbex a) || _); try reflexivity; destruct (execute (what a) (program w)); reflexivity.
Qed.
(** With stored results: a success says that some run in the history executed the program as it was then, and that this satisfies the
    specification.  It is the program as it is now if it was not edited, and the execution asked for if the mode was always the same. *)
Theorem C140_stored_partial : forall w es a, cache w = None -> use_cached_symbex a = true ->
  let now := after w es in
  snd (run now a NoKill) = Verified ->
  exists before a' k later d s, es ++ [Run a NoKill] = before ++ Run a' k :: later /\ execute (what a') (program (after w before)) = Some d /\ the_spec a = Some s /\ verify d s = true.
Proof.
  intros w es a HN HU now H. unfold handle in H. rewrite HU in H. cbn [negb orb] in H. destruct (cache now) as [bytes|] eqn:C; cbn [snd] in H.
  - unfold verif in H. rewrite C in H. destruct (the_spec a) as [s|]; [|discriminate]. destruct (unpickle bytes) as [d|] eqn:U; [|discriminate]. destruct (verify d s) eqn:V; [|discriminate].
    destruct (cache_origin es w HN bytes C) as (b & a' & k & l & d' & n & -> & E & B). exists b, a', k, (l ++ [Run a NoKill]), d', s. split; [rewrite <- app_assoc; reflexivity|]. split; [exact E|]. split; [reflexivity|].
    subst bytes. destruct (Nat.lt_ge_cases n (length (pickle d'))) as [L|L]; [rewrite unpickle_prefix in U by exact L; discriminate|]. rewrite firstn_all2, unpickle_pickle in U by exact L. congruence.
  - destruct (execute (what a) (program now)) as [d|] eqn:E; [|discriminate]. cbn [dump_data negb snd] in H. unfold verif in H. cbn [cache] in H. rewrite unpickle_pickle in H. destruct (the_spec a) as [s|]; [|discriminate]. destruct (verify d s) eqn:V; [|discriminate].
    exists es, a, NoKill, [], d, s. auto.
Qed.
Theorem C140_stored_same_partial : forall w es a, cache w = None -> use_cached_symbex a = true ->
  (forall b, ~ In (Edit b) es) -> (forall a' k, In (Run a' k) es -> what a' = what a) ->
  let now := after w es in
  snd (run now a NoKill) = Verified -> exists d s, execute (what a) (program now) = Some d /\ the_spec a = Some s /\ verify d s = true.
Proof.
  intros w es a HN HU HE HM now H. destruct (C140_stored_partial w es a HN HU H) as (b & a' & k & l & d & s & X & E & S & V). exists d, s. split; [|auto].
  assert (W : what a' = what a).
  { assert (I : In (Run a' k) (es ++ [Run a NoKill])) by (rewrite X; apply in_or_app; right; left; reflexivity). apply in_app_or in I as [I|[I|[]]]; [exact (HM a' k I)|]. congruence. }
  rewrite <- W, <- E. f_equal. unfold now. rewrite program_kept by exact HE. symmetry. apply program_kept. intros c Hc.
  assert (I : In (Edit c) (es ++ [Run a NoKill])) by (rewrite X; apply in_or_app; left; exact Hc). apply in_app_or in I as [I|[I|[]]]; [exact (HE c I)|discriminate].
Qed.
End C140.
Print Assumptions C140_verdict.
Print Assumptions C140_stored_partial.
Print Assumptions C140_stored_same_partial.

(** A machine for the examples: the program and its data are one bit, what full-stack execution finds is the opposite, and the format
    of the file has a mark at its end. *)
Definition ex_execute (c : command) (b : bool) : option bool := Some (match c with Libnf => b | Fullstack => negb b end).
Definition ex_verify (d : bool) (_ : unit) : bool := d.
Definition ex_pickle (d : bool) : list nat := [if d then 1 else 2; 0].
Definition ex_unpickle (l : list nat) : option bool := match l with [1; 0] => Some true | [2; 0] => Some false | _ => None end.
Definition ex_args (c : command) (cached : bool) : arguments unit := mkArgs c cached (Some tt).
Notation ex_after := (history ex_execute ex_verify ex_pickle ex_unpickle).
Notation ex_run := (handle ex_execute ex_verify ex_pickle ex_unpickle).
Lemma ex_pickle_ok : (forall d, ex_unpickle (ex_pickle d) = Some d) /\ forall d n, n < length (ex_pickle d) -> ex_unpickle (firstn n (ex_pickle d)) = None.
Proof.
  split; [intros []; reflexivity|]. intros d n H. destruct n as [|[|n]]; [reflexivity|destruct d; reflexivity|]. destruct d; cbn in H; lia.
Qed.
(** The results that are stored may be those of an older program, even if the newer one was run and the run killed; or those of the other mode. *)
Theorem C140_stored_refuted :
  exists (es1 es2 : list (event bool unit)) (a : arguments unit), use_cached_symbex a = true /\
  (let now := ex_after (mkWorld true None) es1 in snd (ex_run now a NoKill) = Verified /\ ex_execute (what a) (program now) = Some false /\ ex_verify false tt = false) /\
  (let now := ex_after (mkWorld false None) es2 in snd (ex_run now a NoKill) = Verified /\ ex_execute (what a) (program now) = Some false) /\ (forall b, ~ In (Edit b) es2).
Proof.
  exists [Run (ex_args Libnf false) NoKill; Edit false; Run (ex_args Libnf false) KillBefore], [Run (ex_args Fullstack false) NoKill], (ex_args Libnf true).
  split; [reflexivity|]. split; [repeat split|]. split; [repeat split|]. intros b [H|[]]. discriminate.
Qed.
Print Assumptions C140_stored_refuted.
(** A file cut short is not taken for results. *)
Example C140_ex : snd (ex_run (ex_after (mkWorld true None) [Run (ex_args Libnf false) (KillWriting 1)]) (ex_args Libnf true) NoKill) = Raised /\
  snd (ex_run (mkWorld true (Some [9])) (ex_args Libnf false) NoKill) = Verified /\ snd (ex_run (mkWorld false None) (ex_args Libnf false) NoKill) = Raised.
Proof. repeat split. Qed.

(** ** C141: symbols that verification introduces are new *)

Definition UNDERSCORE : ascii := "_"%char.
Definition chars (s : string) : list ascii := list_ascii_of_string s.
Lemma chars_app : forall a b, chars (a ++ b)%string = (chars a ++ chars b)%list.
Proof. induction a as [|c a IH]; intros b; [reflexivity|]. cbn. f_equal. apply IH. Qed.
Lemma chars_inj : forall a b, chars a = chars b -> a = b.
Proof. intros a b H. rewrite <- (string_of_list_ascii_of_string a), <- (string_of_list_ascii_of_string b). unfold chars in H. rewrite H. reflexivity. Qed.
Lemma uint_chars : forall d, ~ In UNDERSCORE (chars (DecimalString.NilEmpty.string_of_uint d)).
Proof. induction d; cbn; intros H; try contradiction; destruct H as [H|H]; try discriminate; contradiction. Qed.
Lemma decimal_chars : forall n, ~ In UNDERSCORE (chars (decimal n)).
Proof.
  intros n. unfold decimal, DecimalString.NilZero.string_of_uint. destruct (N.to_uint n) eqn:E; try (rewrite <- E; apply uint_chars). cbn. intros [H|[]]; discriminate.
Qed.
Lemma decimal_inj : forall a b, decimal a = decimal b -> a = b.
Proof.
  intros a b H. rewrite <- (DecimalN.Unsigned.of_to a), <- (DecimalN.Unsigned.of_to b). f_equal.
  assert (NZ : forall n, N.to_uint n <> Decimal.Nil) by (intros n; destruct n as [|p]; cbn; [discriminate|]; apply (DecimalPos.Unsigned.to_uint_nonnil p)).
  unfold decimal in H. pose proof (DecimalString.NilZero.usu (N.to_uint a) (NZ a)) as A. pose proof (DecimalString.NilZero.usu (N.to_uint b) (NZ b)) as B. rewrite H in A. congruence.
Qed.
Lemma last_part : forall (c : ascii) l1 r1 l2 r2, ~ In c r1 -> ~ In c r2 -> (l1 ++ c :: r1 = l2 ++ c :: r2)%list -> l1 = l2 /\ r1 = r2.
Proof.
  induction l1 as [|x l1 IH]; intros r1 [|y l2] r2 H1 H2 E; cbn in E.
  - injection E as E. auto.
  - injection E as E1 E2. subst y. elim H1. rewrite E2. apply in_or_app. right. left. reflexivity.
  - injection E as E1 E2. subst x. elim H2. rewrite <- E2. apply in_or_app. right. left. reflexivity.
  - injection E as E1 E2. destruct (IH r1 l2 r2 H1 H2 E2) as [-> ->]. subst. auto.
Qed.
Lemma make_name_inj : forall n1 c1 s1 n2 c2 s2, make_name n1 c1 s1 = make_name n2 c2 s2 -> n1 = n2 /\ c1 = c2 /\ s1 = s2.
Proof.
  assert (K : forall n c s, chars (make_name n c s) = (chars n ++ UNDERSCORE :: chars (decimal c)) ++ UNDERSCORE :: chars (decimal s)).
  { intros n c s. unfold make_name. rewrite !chars_app. change (chars "_") with [UNDERSCORE]. cbn [app]. rewrite <- app_assoc. reflexivity. }
  intros n1 c1 s1 n2 c2 s2 H. apply (f_equal chars) in H. rewrite !K in H. apply last_part in H as [H1 H2]; try apply decimal_chars.
  apply last_part in H1 as [H1 H3]; try apply decimal_chars. apply chars_inj in H1, H2, H3. apply decimal_inj in H2, H3. auto.
Qed.
Lemma make_name_underscore : forall n c s, In UNDERSCORE (chars (make_name n c s)).
Proof. intros n c s. unfold make_name. rewrite !chars_app. apply in_or_app. right. left. reflexivity. Qed.

Definition fresh (r : request) : bool := match r with Fresh _ _ => true | Explicit _ => false end.
Definition freshes (rs : list request) : N := N.of_nat (length (filter fresh rs)).
Lemma create_all_app : forall a b c, create_all c (a ++ b) = (fst (create_all c a) ++ fst (create_all (snd (create_all c a)) b), snd (create_all (snd (create_all c a)) b)).
Proof.
  induction a as [|r a IH]; intros b c; [cbn; destruct (create_all c b); reflexivity|]. change ((r :: a) ++ b) with (r :: a ++ b). cbn [create_all]. destruct (create c r) as [n c']. rewrite IH. destruct (create_all c' a) as [ns c'']. reflexivity.
Qed.
Lemma create_all_counter : forall rs c, snd (create_all c rs) = (c + freshes rs)%N.
Proof.
  induction rs as [|r rs IH]; intros c; [cbn; lia|]. cbn [create_all]. destruct r; cbn [create]; specialize (IH c) as I1; specialize (IH (c + 1)%N) as I2; unfold freshes in *; cbn [filter fresh length];
  [destruct (create_all c rs)|destruct (create_all (c + 1) rs)]; cbn [snd] in *; lia.
Qed.
Lemma create_all_nth : forall rs c i r, nth_error rs i = Some r -> nth_error (fst (create_all c rs)) i = Some (fst (create (c + freshes (firstn i rs)) r)).
Proof.
  induction rs as [|q rs IH]; intros c i r H; [destruct i; discriminate|]. cbn [create_all]. destruct (create c q) as [n c'] eqn:E. destruct i as [|i].
  - cbn in H. injection H as ->. specialize (IH c'). destruct (create_all c' rs). cbn [fst nth_error firstn]. change (freshes []) with 0%N. rewrite N.add_0_r, E. reflexivity.
  - specialize (IH c' i r H). destruct (create_all c' rs) as [ns c'']. cbn [fst nth_error] in *. rewrite IH. do 3 f_equal. cbn [firstn]. unfold freshes. cbn [filter]. destruct q; cbn in E; injection E as <- <-; cbn [fresh length]; lia.
Qed.
Lemma create_all_in : forall rs c x, In x (fst (create_all c rs)) -> exists i r, nth_error rs i = Some r /\ x = fst (create (c + freshes (firstn i rs)) r).
Proof.
  intros rs c x H. apply In_nth_error in H as [i H]. destruct (nth_error rs i) as [r|] eqn:E.
  - exists i, r. split; [exact E|]. rewrite (create_all_nth rs c i r E) in H. congruence.
  - exfalso. apply nth_error_None in E. assert (L : length (fst (create_all c rs)) = length rs).
    { clear. revert c. induction rs as [|q rs IH]; intros c; [reflexivity|]. cbn [create_all]. destruct (create c q) as [n c']. specialize (IH c'). destruct (create_all c' rs). cbn in *. lia. }
    assert (nth_error (fst (create_all c rs)) i <> None) by congruence. apply nth_error_Some in H0. lia.
Qed.
Lemma freshes_lt : forall rs i j r, nth_error rs i = Some r -> fresh r = true -> i < j -> (freshes (firstn i rs) < freshes (firstn j rs))%N.
Proof.
  intros rs i j r H F L. destruct (nth_error_split rs i H) as (a & b & -> & <-). rewrite firstn_app, firstn_all, Nat.sub_diag. cbn [firstn]. rewrite app_nil_r.
  rewrite firstn_app. rewrite (firstn_all2 (n := j) a) by lia. unfold freshes. destruct (j - length a) as [|k] eqn:K; [lia|]. cbn [firstn]. rewrite filter_app, app_length. cbn [filter]. rewrite F. cbn [length]. lia.
Qed.

(** Two symbols created by one process under names that are not explicit are different. *)
Theorem C141_distinct : forall start rs i j x y a b s t,
  nth_error rs i = Some (Fresh a s) -> nth_error rs j = Some (Fresh b t) -> i <> j ->
  nth_error (fst (create_all start rs)) i = Some x -> nth_error (fst (create_all start rs)) j = Some y -> x <> y.
Proof.
  assert (W : forall start rs i j x y a b s t, nth_error rs i = Some (Fresh a s) -> nth_error rs j = Some (Fresh b t) -> i < j ->
    nth_error (fst (create_all start rs)) i = Some x -> nth_error (fst (create_all start rs)) j = Some y -> x <> y).
  { intros start rs i j x y a b s t Hi Hj L X Y E. rewrite (create_all_nth _ start _ _ Hi) in X. rewrite (create_all_nth _ start _ _ Hj) in Y. cbn [create fst] in X, Y.
    injection X as <-. injection Y as <-. apply make_name_inj in E as (_ & E & _). pose proof (freshes_lt rs i j _ Hi eq_refl L). lia. }
  intros start rs i j x y a b s t Hi Hj L X Y. destruct (proj1 (Nat.lt_gt_cases i j) L) as [L'|L']; [exact (W start rs i j x y a b s t Hi Hj L' X Y)|]. apply not_eq_sym. exact (W start rs j i y x b a t s Hj Hi L' Y X).
Qed.
Print Assumptions C141_distinct.

(** The explicit names: those listed, or a name that is in use. *)
Definition explicit_ok (rs : list request) : Prop :=
  forall before n later, rs = before ++ Explicit n :: later -> In n explicit_names \/ In n (symbex_names before).
Lemma explicit_names_ok : forall n, In n explicit_names -> ~ In UNDERSCORE (chars n).
Proof. intros n H. cbn in H. decompose [or] H; try contradiction; subst n; cbn; intros X; decompose [or] X; try contradiction; discriminate. Qed.
Lemma symbex_shape : forall rs, explicit_ok rs -> forall x, In x (symbex_names rs) -> In x explicit_names \/ exists n c s, x = make_name n c s /\ (c < freshes rs)%N.
Proof.
  induction rs as [|r rs IH] using rev_ind; intros OK x H; [destruct H|].
  assert (OK' : explicit_ok rs) by (intros b n l E; apply (OK b n (l ++ [r])); rewrite E, <- app_assoc; reflexivity).
  assert (M : (freshes rs <= freshes (rs ++ [r]))%N) by (unfold freshes; rewrite filter_app, app_length; lia).
  assert (Old : In x (symbex_names rs) -> In x explicit_names \/ exists n c s, x = make_name n c s /\ (c < freshes (rs ++ [r]))%N).
  { intros I. destruct (IH OK' x I) as [I'|(n & c & s & E & L)]; [auto|]. right. exists n, c, s. split; [exact E|lia]. }
  unfold symbex_names in H. rewrite create_all_app in H. cbn [fst] in H. apply in_app_or in H as [H|H]; [apply Old; exact H|]. rewrite create_all_counter in H.
  destruct r as [n|n s]; cbn in H; destruct H as [<-|[]].
  - destruct (OK rs n [] eq_refl) as [I|I]; [auto|apply Old; exact I].
  - right. exists n, (freshes rs), s. split; [reflexivity|]. unfold freshes. rewrite filter_app, app_length. cbn. lia.
Qed.
(** A symbol that verification creates has a name that the execution did not use, if the execution created at most a million symbols. *)
Theorem C141_new_partial : forall rs rs' i n s x, explicit_ok rs -> (freshes rs <= 1000000)%N ->
  nth_error rs' i = Some (Fresh n s) -> nth_error (verif_names rs') i = Some x -> ~ In x (symbex_names rs).
Proof.
  intros rs rs' i n s x OK L H X I. unfold verif_names in X. rewrite (create_all_nth _ _ _ _ H) in X. cbn [create fst] in X. remember VERIF_START as v eqn:HV. assert (LV : (1000000 <= v)%N) by (rewrite HV; discriminate). clear HV.
  injection X as <-. destruct (symbex_shape rs OK _ I) as [I'|(n' & c & s' & E & L')].
  - apply (explicit_names_ok _ I'). apply make_name_underscore.
  - apply make_name_inj in E as (_ & E & _). lia.
Qed.
Print Assumptions C141_new_partial.
Lemma repeat_names : forall k c n s i, i < k -> In (make_name n (c + N.of_nat i) s) (fst (create_all c (repeat (Fresh n s) k))).
Proof.
  induction k as [|k IH]; intros c n s i L; [lia|]. cbn [repeat create_all create]. specialize (IH (c + 1)%N n s). destruct (create_all (c + 1) (repeat (Fresh n s) k)) as [ns c']. cbn [fst] in *. destruct i as [|i].
  - left. f_equal. lia.
  - right. replace (c + N.of_nat (S i))%N with (c + 1 + N.of_nat i)%N by lia. apply IH. lia.
Qed.
Lemma clash : forall k, (1000000 < N.of_nat k)%N -> explicit_ok (repeat (Fresh "value" 64) k) /\ In (make_name "value" 1000000 64) (symbex_names (repeat (Fresh "value" 64) k)).
Proof.
  intros k H. split.
  - intros b m l E. exfalso. assert (I : In (Explicit m) (repeat (Fresh "value" 64) k)) by (rewrite E; apply in_or_app; right; left; reflexivity). apply repeat_spec in I. discriminate.
  - assert (G : forall x, (x < N.of_nat k)%N -> In (make_name "value" x 64) (symbex_names (repeat (Fresh "value" 64) k))).
    { intros x L. unfold symbex_names. replace x with (START + N.of_nat (N.to_nat x))%N by (rewrite N2Nat.id; reflexivity). apply repeat_names. lia. }
    apply G. exact H.
Qed.
(** An execution that created more symbols than that may have used the name. *)
Theorem C141_new_refuted : exists rs rs' n s x, explicit_ok rs /\ rs' = [Fresh n s] /\ verif_names rs' = [x] /\ In x (symbex_names rs).
Proof.
  assert (K : exists k, (1000000 < N.of_nat k)%N) by (exists (N.to_nat 1000001); rewrite N2Nat.id; reflexivity). destruct K as [k K]. destruct (clash k K) as [A B].
  exists (repeat (Fresh "value" 64) k), [Fresh "value" 64], "value"%string, 64%N, (make_name "value" 1000000 64). auto.
Qed.
Print Assumptions C141_new_refuted.
Example C141_ex : symbex_names [Fresh "device" 16; Explicit "KEY"; Fresh "device_1" 16; Explicit "device_0_16"] = ["device_0_16"; "KEY"; "device_1_1_16"; "device_0_16"]%string /\
  verif_names [Fresh "device" 16; Fresh "1" 6] = ["device_1000000_16"; "1_1000001_6"]%string /\ explicit_ok [Fresh "device" 16; Explicit "KEY"; Fresh "device_1" 16; Explicit "device_0_16"].
Proof.
  split; [reflexivity|]. split; [reflexivity|]. intros b n l E. destruct b as [|r1 b]; [discriminate|]. injection E as <- E. destruct b as [|r2 b]; cbn in E; [injection E as <- E; left; left; reflexivity|].
  injection E as <- E. destruct b as [|r3 b]; [discriminate|]. injection E as <- E. destruct b as [|r4 b]; cbn in E; [injection E as <- <-; right; left; reflexivity|]. injection E as <- E. destruct b; discriminate.
Qed.

(** ** C142: every card, on every path of the start-up code, is where the search for the loop's invariant starts *)

Section C142.
Context {state : Type} (step : state -> stepped state).
Lemma reaches_step : forall s ss t u, step s = Go ss -> In t ss -> reaches step t u -> reaches step s u.
Proof.
  intros s ss t u E I H. induction H as [|t' ss' u' _ IH E' I']; [apply (reach_next _ step s s ss t (reach_here _ step s) E I)|]. exact (reach_next _ step s t' ss' u' IH E' I').
Qed.
Lemma reaches_inv : forall s u, reaches step s u -> s = u \/ exists ss t, step s = Go ss /\ In t ss /\ reaches step t u.
Proof.
  intros s u H. induction H as [|t ss u _ IH E I]; [auto|]. right. destruct IH as [->|(ss' & t' & E' & I' & R)]; [exists ss, u; repeat split; auto; constructor|].
  exists ss', t'. repeat split; auto. exact (reach_next _ step t' t ss u R E I).
Qed.
Definition started (s : state) (p : state * creator) : Prop :=
  exists t len func arg i, reaches step s t /\ step t = Loop len func arg /\ i < len /\ p = (t, mkCreator i func arg).
Lemma started_here : forall s len func arg p, step s = Loop len func arg -> started s p <-> In p (loop_states s len func arg).
Proof.
  intros s len func arg p E. unfold loop_states. rewrite in_map_iff. split.
  - intros (t & l & f & a & i & R & E' & L & ->). apply reaches_inv in R as [->|(ss & u & E2 & _)]; [|congruence]. rewrite E in E'. injection E' as <- <- <-. exists i. split; [reflexivity|]. apply in_seq. lia.
  - intros (i & <- & I). apply in_seq in I. exists s, len, func, arg, i. repeat split; auto; [constructor|lia].
Qed.
Lemma started_go : forall s ss p, step s = Go ss -> started s p <-> exists t, In t ss /\ started t p.
Proof.
  intros s ss p E. split.
  - intros (t & l & f & a & i & R & E' & L & ->). apply reaches_inv in R as [->|(ss' & u & E2 & I & R)]; [congruence|]. rewrite E in E2. injection E2 as <-. exists u. split; [exact I|]. exists t, l, f, a, i. auto.
  - intros (u & I & t & l & f & a & i & R & E' & L & ->). exists t, l, f, a, i. repeat split; auto. eapply reaches_step; eauto.
Qed.
Lemma started_not : forall s p, (step s = Ended \/ step s = Halt \/ step s = Error) -> ~ started s p.
Proof. intros s p H (t & l & f & a & i & R & E & _). apply reaches_inv in R as [->|(ss & u & E2 & _)]; destruct H as [H|[H|H]]; congruence. Qed.
Lemma explore_spec : forall fuel work r r', lookup (r_globals r) "kalm.engine" "trapped_states" = None -> explore step fuel work r = Ran r' ->
  r_globals r' = r_globals r /\
  (forall p, In p (r_inited r') <-> In p (r_inited r) \/ exists s, In s work /\ started s p) /\
  (forall s t, In s work -> reaches step s t -> step t <> Halt /\ step t <> Error).
Proof.
  induction fuel as [|fuel IH]; intros work r r' HG H; [discriminate|]. cbn [explore] in H. destruct work as [|s work].
  - injection H as <-. split; [reflexivity|]. split; [intros p; split; [auto|intros [X|(s & [] & _)]; exact X]|intros s t []].
  - destruct (step s) as [ss| | |len func arg|] eqn:E.
    + destruct (fun HG' => IH _ _ _ HG' H) as (G & I & N0); [exact HG|]. split; [exact G|]. split.
      * intros p. rewrite I. split; (intros [X|(t & X & Y)]; [auto|]).
        -- apply in_app_or in X as [X|X]; right; [exists s; split; [left; reflexivity|]; apply (started_go s ss p E); exists t; auto|exists t; split; [right; exact X|exact Y]].
        -- destruct X as [<-|X]; right; [apply (started_go s ss p E) in Y as (u & U & Y); exists u; split; [apply in_or_app; auto|exact Y]|exists t; split; [apply in_or_app; auto|exact Y]].
      * intros u t [<-|U] R; [|apply (N0 u t); [apply in_or_app; auto|exact R]]. apply reaches_inv in R as [->|(ss' & v & E2 & V & R)]; [rewrite E; split; discriminate|]. rewrite E in E2. injection E2 as <-. apply (N0 v t); [apply in_or_app; auto|exact R].
    + destruct (fun HG' => IH _ _ _ HG' H) as (G & I & N0); [exact HG|]. cbn [r_globals r_inited] in *. split; [exact G|]. split.
      * intros p. rewrite I. split; (intros [X|(t & X & Y)]; [auto|]); right; [exists t; split; [right|]; assumption|]. destruct X as [<-|X]; [elim (started_not s p (or_introl E) Y)|exists t; auto].
      * intros u t [<-|U] R; [|apply (N0 u t U R)]. apply reaches_inv in R as [->|(ss' & v & E2 & V & R)]; [rewrite E; split; discriminate|congruence].
    + unfold engine_halt in H. rewrite HG in H. discriminate.
    + destruct (fun HG' => IH _ _ _ HG' H) as (G & I & N0); [exact HG|]. cbn [r_globals r_inited] in *. split; [exact G|]. split.
      * intros p. rewrite I, in_app_iff, <- (started_here s len func arg p E). split.
        -- intros [[X|X]|(t & X & Y)]; [auto|right; exists s; split; [left; reflexivity|exact X]|right; exists t; split; [right|]; assumption].
        -- intros [X|(t & [<-|X] & Y)]; [auto|auto|right; exists t; auto].
      * intros u t [<-|U] R; [|apply (N0 u t U R)]. apply reaches_inv in R as [->|(ss' & v & E2 & V & R)]; [rewrite E; split; discriminate|congruence].
    + discriminate.
Qed.

(** What the search starts with: the state of each path that calls the loop, with each index below the number of cards it gives, the
    function and its argument; and no path ended in an error or halted.  kalm.engine has no variable [trapped_states]. *)
Theorem C142_start_partial : forall fuel g init l, lookup g "kalm.engine" "trapped_states" = None -> execute_nf step fuel g init = Some l ->
  (forall p, In p l <-> exists s cards func arg i, reaches step init s /\ step s = Loop cards func arg /\ i < cards /\ p = (s, mkCreator i func arg)) /\
  (forall s, reaches step init s -> step s <> Halt /\ step s <> Error) /\ l <> [].
Proof.
  intros fuel g init l HG H. unfold execute_nf, run_state in H. destruct (explore step fuel [init] _) as [| |r] eqn:E; try discriminate.
  destruct (fun HG' => explore_spec _ _ _ _ HG' E) as (G & I & N0); [exact HG|]. rewrite G in H. cbn [r_globals] in H. change (lookup (assign g "kalm.executor" "trapped_states" []) "kalm.executor" "trapped_states") with (Some (@nil state)) in H.
  cbn iota in H. destruct (r_inited r) as [|p0 l0] eqn:EI; [discriminate|]. injection H as <-. split; [|split; [|discriminate]].
  - intros p. rewrite I. cbn [r_inited]. split; [intros [[]|(s & [<-|[]] & X)]; exact X|intros X; right; exists init; split; [left; reflexivity|exact X]].
  - intros s R. apply (N0 init s); [left; reflexivity|exact R].
Qed.

Definition steps_to (t s : state) : Prop := exists ss, step s = Go ss /\ In t ss.
Lemma explore_ends : forall s, Acc steps_to s -> (forall t, reaches step s t -> step t <> Halt /\ step t <> Error) ->
  exists n, forall fuel work r, exists r1, explore step (n + fuel) (s :: work) r = explore step fuel work r1 /\ r_globals r1 = r_globals r.
Proof.
  intros s A. induction A as [s _ IH]. intros HN. destruct (step s) as [ss| | |len func arg|] eqn:E.
  - assert (L : forall l, (forall t, In t l -> In t ss) -> exists n, forall fuel work r, exists r1, explore step (n + fuel) (l ++ work) r = explore step fuel work r1 /\ r_globals r1 = r_globals r).
    { induction l as [|t l IHl]; intros HL; [exists 0; intros; exists r; auto|]. destruct IHl as [m M]; [intros u U; apply HL; right; exact U|].
      destruct (IH t) as [n N0]; [exists ss; split; [exact E|apply HL; left; reflexivity]|intros u R; apply HN; eapply reaches_step; eauto; apply HL; left; reflexivity|].
      exists (n + m). intros fuel work r. destruct (N0 (m + fuel) (l ++ work) r) as (r1 & X & Y). destruct (M fuel work r1) as (r2 & X2 & Y2). exists r2. split; [|congruence]. rewrite <- Nat.add_assoc. cbn [app]. rewrite X. exact X2. }
    destruct (L ss (fun t H => H)) as [n N0]. exists (S n). intros fuel work r. cbn [Nat.add explore]. rewrite E. apply N0.
  - exists 1. intros fuel work r. cbn [Nat.add explore]. rewrite E. eexists. split; reflexivity.
  - destruct (HN s (reach_here _ step s)). congruence.
  - exists 1. intros fuel work r. cbn [Nat.add explore]. rewrite E. eexists. split; reflexivity.
  - destruct (HN s (reach_here _ step s)). congruence.
Qed.
(** And it does start, if the start-up code ends on every path, none of them halts or is an error, and one calls the loop with a card. *)
Theorem C142_starts_partial : forall g init s cards func arg, lookup g "kalm.engine" "trapped_states" = None -> Acc steps_to init ->
  (forall t, reaches step init t -> step t <> Halt /\ step t <> Error) -> reaches step init s -> step s = Loop cards func arg -> 0 < cards ->
  exists fuel l, execute_nf step fuel g init = Some l.
Proof.
  intros g init s cards func arg HG A HN R E P. destruct (explore_ends init A HN) as [n N0]. exists (n + 1). unfold execute_nf, run_state.
  set (r0 := mkResult [] [] (assign g "kalm.executor" "trapped_states" [])). destruct (N0 1 [] r0) as (r1 & X & Y). cbn [explore] in X. rewrite X.
  destruct (explore_spec (n + 1) [init] r0 r1 HG X) as (_ & I & _). rewrite Y. change (lookup (r_globals r0) "kalm.executor" "trapped_states") with (Some (@nil state)). cbn iota.
  destruct (r_inited r1) as [|p l] eqn:EI; [|eexists; reflexivity]. exfalso. apply (I (s, mkCreator 0 func arg)). right. exists init. split; [left; reflexivity|]. exists s, cards, func, arg, 0. auto.
Qed.
End C142.
Print Assumptions C142_start_partial.
Print Assumptions C142_starts_partial.

(** Whether halting is allowed makes no difference to any run, of the start-up code or of the packet handler: run_state looks at its own
    module's variable, which nothing else writes.  So "trapped states" are never reported as such. *)
Theorem C142_flag : forall (state : Type) (step : state -> stepped state) fuel g inited s, run_state step fuel g inited s true = run_state step fuel g inited s false.
Proof.
  intros state step fuel g inited s. unfold run_state.
  assert (X : forall fuel work r r1, explore step fuel work r = Ran r1 -> lookup (r_globals r1) "kalm.executor" "trapped_states" = lookup (r_globals r) "kalm.executor" "trapped_states").
  { clear. induction fuel as [|fuel IH]; intros work r r1 H; [discriminate|]. cbn [explore] in H. destruct work as [|s work]; [injection H as <-; reflexivity|].
    destruct (step s) as [ss| | |len func arg|]; [exact (IH _ _ _ H)|exact (IH _ _ _ H)| |exact (IH _ _ _ H)|discriminate].
    unfold engine_halt in H. destruct (lookup (r_globals r) "kalm.engine" "trapped_states") as [l|]; [|discriminate]. exact (IH _ _ _ H). }
  destruct (explore step fuel [s] _) as [| |r] eqn:E; [reflexivity|reflexivity|]. rewrite (X _ _ _ _ E). reflexivity.
Qed.
Print Assumptions C142_flag.
(** A run that halts, in an engine whose module had the variable: the handler's run is accepted, its halted state is in the other module's list. *)
Example C142_flag_ex : exists r, run_state (fun s => match s with 0 => Go [1; 2] | 1 => Halt | _ => Ended end) 9 [("kalm.engine", "trapped_states", [])] [] 0 false = Ran r /\
  r_ended r = [2] /\ lookup (r_globals r) "kalm.engine" "trapped_states" = Some [1].
Proof. eexists. split; [reflexivity|]. split; reflexivity. Qed.

(** A program whose start-up code halts on one path (say, too few cards) and calls the loop with two cards on the other. *)
Definition ex_step (s : nat) : stepped nat := match s with 0 => Go [1; 2] | 1 => Halt | 2 => Loop 2 7 8 | _ => Ended end.
(** Halting is allowed at this stage ([allow_trap]), but such a program is rejected. *)
Theorem C142_halts_refuted : exists (step : nat -> stepped nat) (init s : nat) (cards : nat), reaches step init s /\ step s = Loop cards 7 8 /\ 0 < cards /\
  (forall t, reaches step init t -> step t <> Error) /\ (exists g : globals nat, lookup g "kalm.engine" "trapped_states" = None) /\
  forall fuel g, lookup g "kalm.engine" "trapped_states" = None -> execute_nf step fuel g init = None.
Proof.
  exists ex_step, 0, 2, 2. split; [eapply reach_next; [apply reach_here|reflexivity|right; left; reflexivity]|]. split; [reflexivity|]. split; [lia|]. split.
  - intros t _. destruct t as [|[|[|t]]]; discriminate.
  - split; [exists []; reflexivity|]. intros fuel g HG. destruct (execute_nf ex_step fuel g 0) as [l|] eqn:E; [|reflexivity]. destruct (C142_start_partial ex_step fuel g 0 l HG E) as (_ & N0 & _).
    destruct (N0 1) as [X _]; [|elim X; reflexivity]. eapply reach_next; [apply reach_here|reflexivity|left; reflexivity].
Qed.
Print Assumptions C142_halts_refuted.
Example C142_ex : execute_nf (fun s => match s with 0 => Go [1; 2] | 1 => Loop 1 5 6 | 2 => Loop 2 7 8 | _ => Ended end) 10 [] 0 =
  Some [(1, mkCreator 0 5 6); (2, mkCreator 0 7 8); (2, mkCreator 1 7 8)].
Proof. reflexivity. Qed.

(** ** C143: the cards that verification assumes *)

Definition real (a : pci_address) : Prop := (bus a < 256 /\ device a < 32 /\ function a < 8)%N.
Lemma word_inj : forall a b, real a -> real b -> word a = word b -> a = b.
Proof. intros [b d f] [b' d' f'] (A & B & C) (A' & B' & C') H. unfold word in H. cbn [bus device function] in *. change (2 ^ 8)%N with 256%N in H. change (2 ^ 16)%N with 65536%N in H. f_equal; lia. Qed.
Lemma word_lt : forall a, real a -> (word a < 2 ^ 64)%N.
Proof. intros a (A & B & C). unfold word. change (2 ^ 8)%N with 256%N. change (2 ^ 16)%N with 65536%N. change (2 ^ 64)%N with 18446744073709551616%N. lia. Qed.

Definition MASK : N := 0xFFFFFFFFFFF8E000.
Lemma shift_mod : forall v k, (N.shiftr v k mod 2 ^ 8 = v / 2 ^ k mod 2 ^ 8)%N.
Proof. intros. rewrite N.shiftr_div_pow2. reflexivity. Qed.
(** Words without a bit of the mask are the words of addresses that exist. *)
Lemma mask_bits : forall v, (v < 2 ^ 64)%N -> (N.land v MASK = 0)%N <-> forall i, N.testbit v i = true -> (i < 13 \/ 16 <= i < 19)%N.
Proof.
  assert (M : forall i, (i < 64)%N -> N.testbit MASK i = negb ((i <? 13) || ((16 <=? i) && (i <? 19)))%N).
  { intros i L. assert (A : Forall (fun k => N.testbit MASK (N.of_nat k) = negb ((N.of_nat k <? 13) || ((16 <=? N.of_nat k) && (N.of_nat k <? 19)))%N) (seq 0 64)) by (repeat (constructor; [vm_compute; reflexivity|]); constructor).
    rewrite Forall_forall in A. specialize (A (N.to_nat i)). rewrite N2Nat.id in A. apply A. apply in_seq. lia. }
  intros v L. split.
  - intros H i T. destruct (N.lt_ge_cases i 64) as [Li|Li].
    + assert (B : N.testbit (N.land v MASK) i = false) by (rewrite H; apply N.bits_0). rewrite N.land_spec, T, (M i Li) in B. cbn [andb] in B. apply negb_false_iff in B. apply orb_true_iff in B as [B|B]; [apply N.ltb_lt in B; lia|]. apply andb_true_iff in B as [B1 B2]. apply N.leb_le in B1. apply N.ltb_lt in B2. lia.
    + exfalso. rewrite <- (N.mod_small v (2 ^ 64)) in T by exact L. rewrite N.mod_pow2_bits_high in T by exact Li. discriminate.
  - intros H. apply N.bits_inj. intros i. rewrite N.land_spec, N.bits_0. destruct (N.testbit v i) eqn:T; [|reflexivity]. cbn [andb]. pose proof (H i T) as B. rewrite (M i) by lia.
    apply negb_false_iff, orb_true_iff. destruct B as [B|B]; [left; apply N.ltb_lt; lia|right; apply andb_true_iff; split; [apply N.leb_le|apply N.ltb_lt]; lia].
Qed.
Definition unword (v : N) : pci_address := mkPci (v mod 2 ^ 8) (v / 2 ^ 8 mod 2 ^ 8) (v / 2 ^ 16 mod 2 ^ 8).
Lemma field_bits : forall v k i, N.testbit (v / 2 ^ k mod 2 ^ 8) i = ((i <? 8) && N.testbit v (i + k))%N.
Proof.
  intros v k i. destruct (N.ltb_spec i 8) as [L|L].
  - rewrite N.mod_pow2_bits_low by exact L. rewrite N.div_pow2_bits. reflexivity.
  - rewrite N.mod_pow2_bits_high by exact L. reflexivity.
Qed.
Lemma small_bits : forall v k, (forall i, N.testbit v i = true -> i < k)%N -> (v < 2 ^ k)%N.
Proof.
  intros v k H. assert (E : (v = v mod 2 ^ k)%N).
  { apply N.bits_inj. intros i. destruct (N.lt_ge_cases i k) as [L|L]; [rewrite N.mod_pow2_bits_low by exact L; reflexivity|]. rewrite N.mod_pow2_bits_high by exact L. destruct (N.testbit v i) eqn:T; [|reflexivity]. specialize (H i T). lia. }
  rewrite E. apply N.mod_lt, N.pow_nonzero. discriminate.
Qed.
Lemma word_mask : forall a, real a -> (N.land (word a) MASK = 0)%N.
Proof.
  intros [b d f] R. pose proof (word_lt _ R) as L. destruct R as (B & D & F). cbn [bus device function] in *. apply (mask_bits _ L). intros i T. unfold word in T. cbn [bus device function] in T.
  destruct (N.lt_ge_cases i 13) as [L13|L13]; [auto|]. right. split.
  - destruct (N.lt_ge_cases i 16) as [L16|L16]; [exfalso|lia]. replace (b + 2 ^ 8 * d + 2 ^ 16 * f)%N with (b + 2 ^ 8 * d + f * 2 ^ 16)%N in T by lia.
    rewrite <- (N.mod_pow2_bits_low _ 16) in T by exact L16. rewrite N.mod_add in T by discriminate. assert (S : (b + 2 ^ 8 * d < 2 ^ 13)%N) by (change (2 ^ 8)%N with 256%N; change (2 ^ 13)%N with 8192%N; lia).
    rewrite N.mod_small in T by (eapply N.lt_trans; [exact S|reflexivity]). rewrite <- (N.mod_small _ _ S), N.mod_pow2_bits_high in T by exact L13. discriminate.
  - destruct (N.lt_ge_cases i 19) as [L19|L19]; [exact L19|exfalso]. assert (S : (b + 2 ^ 8 * d + 2 ^ 16 * f < 2 ^ 19)%N) by (change (2 ^ 8)%N with 256%N; change (2 ^ 16)%N with 65536%N; change (2 ^ 19)%N with 524288%N; lia).
    rewrite <- (N.mod_small _ _ S), N.mod_pow2_bits_high in T by exact L19. discriminate.
Qed.
Lemma masked_real : forall v, (v < 2 ^ 64)%N -> (N.land v MASK = 0)%N -> real (unword v) /\ word (unword v) = v.
Proof.
  intros v L H0. pose proof (proj1 (mask_bits v L) H0) as H. clear H0. assert (V : (v < 2 ^ 19)%N) by (apply small_bits; intros i T; destruct (H i T); lia). split.
  - unfold real, unword. cbn [bus device function]. split; [apply N.mod_lt; discriminate|]. split.
    + apply (small_bits _ 5). intros i T. rewrite field_bits in T. apply andb_true_iff in T as [T1 T]. apply N.ltb_lt in T1. destruct (H _ T); lia.
    + apply (small_bits _ 3). intros i T. rewrite field_bits in T. apply andb_true_iff in T as [T1 T]. apply N.ltb_lt in T1. destruct (H _ T); lia.
  - unfold word, unword. cbn [bus device function]. change (2 ^ 19)%N with 524288%N in V. change (2 ^ 8)%N with 256%N. change (2 ^ 16)%N with 65536%N.
    pose proof (N.div_mod v 256 ltac:(discriminate)). pose proof (N.div_mod (v / 256) 256 ltac:(discriminate)). rewrite N.div_div in * by discriminate. change (256 * 256)%N with 65536%N in *.
    assert (v / 65536 < 256)%N by (apply N.div_lt_upper_bound; [discriminate|lia]). rewrite (N.mod_small (v / 65536)) by assumption. lia.
Qed.

(** What the contract assumes of the table is that it has the addresses of two different cards. *)
Theorem C143_cards_partial : forall count tbl, enumerated count tbl <-> exists a b, real a /\ real b /\ a <> b /\ count = 2%N /\ tbl = [word a; word b].
Proof.
  intros count tbl. unfold enumerated. split.
  - intros (-> & L & S & M & D). destruct tbl as [|v [|w [|u tbl]]]; try (cbn in L; lia). inversion S as [|? ? S1 S']. inversion S' as [|? ? S2 _]. inversion M as [|? ? M1 M']. inversion M' as [|? ? M2 _]. subst.
    destruct (masked_real v S1 M1) as [R1 W1], (masked_real w S2 M2) as [R2 W2]. exists (unword v), (unword w). repeat split; try apply R1; try apply R2; [|rewrite W1, W2; reflexivity]. intros E. apply D. cbn. congruence.
  - intros (a & b & A & B & D & -> & ->). split; [reflexivity|]. split; [reflexivity|]. split; [repeat constructor; apply word_lt; assumption|]. split; [repeat constructor; apply word_mask; assumption|]. cbn. intros E. apply D. apply word_inj; assumption.
Qed.
(** A machine with one card, or with three, is not considered. *)
Theorem C143_cards_refuted : exists l1 l3, Forall real l1 /\ Forall real l3 /\ NoDup l1 /\ NoDup l3 /\ length l1 = 1 /\ length l3 = 3 /\
  forall l, l = l1 \/ l = l3 -> ~ enumerated (N.of_nat (length l)) (map word l).
Proof.
  exists [mkPci 1 0 0], [mkPci 1 0 0; mkPci 1 0 1; mkPci 2 0 0]. split; [repeat constructor|]. split; [repeat constructor|]. split; [repeat constructor; intros []|].
  split; [repeat constructor; cbn; intros X; decompose [or] X; try contradiction; discriminate|]. split; [reflexivity|]. split; [reflexivity|]. intros l [->| ->] (E & _); discriminate.
Qed.

(** The card that an access is taken to be for: the only one with that address. *)
Lemma at_index_word : forall e i, i < 2 -> real (used e) -> (exists c, enumerated c (table e)) -> at_index e i = true <-> word (used e) = nth i (table e) 0%N.
Proof.
  intros e i L R [c E]. unfold at_index. apply C143_cards_partial in E as (a & b & A & B & D & _ & ->).
  assert (G : forall x, real x -> ((bus (used e) =? word x mod 2 ^ 8) && (device (used e) =? word x / 2 ^ 8 mod 2 ^ 8) && (function (used e) =? word x / 2 ^ 16 mod 2 ^ 8))%N = true <-> word (used e) = word x).
  { intros x X. assert (U : unword (word x) = x) by (destruct (masked_real (word x) (word_lt x X) (word_mask x X)) as [R1 W]; apply word_inj; assumption).
    unfold unword in U. rewrite !andb_true_iff, !N.eqb_eq. split; [intros ((P & Q) & T); f_equal; rewrite <- U; rewrite <- P, <- Q, <- T; destruct (used e); reflexivity|].
    intros E. apply word_inj in E; [|assumption|assumption]. rewrite E. rewrite <- U at 1 3 5. cbn [bus device function]. auto. }
  destruct i as [|[|i]]; [apply (G a A)|apply (G b B)|lia].
Qed.
Lemma constrained_in : forall es e i, In (e, i) (constrained es) <-> In e es /\ i < 2 /\ at_index e i = true.
Proof.
  intros es e i. unfold constrained. rewrite in_flat_map. split.
  - intros (x & X & Y). apply in_map_iff in Y as (j & E & J). injection E as -> ->. apply filter_In in J as [J T]. split; [exact X|]. split; [|exact T]. destruct J as [<-|[<-|[]]]; lia.
  - intros (X & L & T). exists e. split; [exact X|]. apply in_map_iff. exists i. split; [reflexivity|]. apply filter_In. split; [|exact T]. destruct i as [|[|i]]; cbn; auto; lia.
Qed.
Definition sane (e : execution) : Prop := real (used e) /\ exists c, enumerated c (table e).
Theorem C143_device : forall es i es', Forall sane es -> get_device es = Some (i, es') ->
  i < 2 /\ forall e, In e es' <-> In e es /\ word (used e) = nth i (table e) 0%N.
Proof.
  intros es i es' S H. unfold get_device in H. destruct (constrained es) as [|[e0 i0] l] eqn:C; [discriminate|]. destruct (forallb _ l) eqn:F; [|discriminate]. injection H as <- <-.
  rewrite forallb_forall in F. assert (One : forall e j, In (e, j) (constrained es) -> j = i0).
  { intros e j I. rewrite C in I. destruct I as [I|I]; [congruence|]. specialize (F _ I). cbn in F. apply Nat.eqb_eq in F. auto. }
  assert (I0 : In (e0, i0) (constrained es)) by (rewrite C; left; reflexivity). apply constrained_in in I0 as (_ & L & _). split; [exact L|]. intros e.
  assert (K : In e (e0 :: map fst l) <-> In (e, i0) (constrained es)).
  { change (e0 :: map fst l) with (map fst ((e0, i0) :: l)). rewrite <- C, in_map_iff. split; [intros ([x j] & E & I); cbn in E; subst x; rewrite (One e j I) in I; exact I|intros I; exists (e, i0); auto]. }
  rewrite K, constrained_in. split; intros H; [destruct H as (I & _ & T)|destruct H as (I & T)]; rewrite Forall_forall in S; destruct (S e I) as [R X]; [split; [exact I|]; apply at_index_word in T; auto|]. split; [exact I|]. split; [exact L|]. apply at_index_word; auto.
Qed.
(** No execution is left out if the program only uses addresses that enumeration gave it. *)
Theorem C143_all_kept_partial : forall es i es', Forall sane es -> (forall e, In e es -> In (word (used e)) (table e)) -> get_device es = Some (i, es') ->
  forall e, In e es -> In e es'.
Proof.
  intros es i es' S HT H e I. destruct (C143_device es i es' S H) as [L K]. apply K. split; [exact I|]. pose proof (HT e I) as T. rewrite Forall_forall in S. destruct (S e I) as [R [c X]].
  pose proof X as X'. apply C143_cards_partial in X' as (a & b & _ & _ & _ & _ & E). unfold get_device in H. destruct (constrained es) as [|[e0 i0] l] eqn:C; [discriminate|]. destruct (forallb _ l) eqn:F; [|discriminate]. injection H as <- _. rewrite forallb_forall in F.
  assert (J : exists j, j < 2 /\ word (used e) = nth j (table e) 0%N) by (rewrite E in *; destruct T as [T|[T|[]]]; [exists 0|exists 1]; split; auto). destruct J as (j & Lj & Ej).
  assert (IC : In (e, j) (constrained es)) by (apply constrained_in; split; [exact I|]; split; [exact Lj|]; apply at_index_word; [exact Lj|exact R|exists c; exact X|exact Ej]).
  assert (JI : j = i0) by (rewrite C in IC; destruct IC as [IC|IC]; [congruence|]; specialize (F _ IC); cbn in F; apply Nat.eqb_eq in F; auto). subst j. exact Ej.
Qed.
(** Executions that use another address are left out, without a failure. *)
Definition ex_kept : execution := mkExec [word (mkPci 0 0 7); word (mkPci 0 0 1)] (mkPci 0 0 7).
Definition ex_lost : execution := mkExec [word (mkPci 0 0 6); word (mkPci 0 0 1)] (mkPci 0 0 7).
Lemma ex_sane : Forall sane [ex_kept; ex_lost].
Proof.
  repeat constructor; cbn [used table ex_kept ex_lost]; eexists; apply C143_cards_partial;
  [exists (mkPci 0 0 7), (mkPci 0 0 1)|exists (mkPci 0 0 6), (mkPci 0 0 1)]; repeat split; discriminate.
Qed.
Theorem C143_all_kept_refuted : exists es i es' e, Forall sane es /\ get_device es = Some (i, es') /\ In e es /\ ~ In e es'.
Proof.
  exists [ex_kept; ex_lost], 0, [ex_kept], ex_lost. split; [apply ex_sane|]. split; [reflexivity|]. split; [right; left; reflexivity|]. intros [H|[]]. discriminate.
Qed.
Print Assumptions C143_cards_partial.
Print Assumptions C143_cards_refuted.
Print Assumptions C143_device.
Print Assumptions C143_all_kept_partial.
Print Assumptions C143_all_kept_refuted.
Example C143_ex : get_device [ex_kept] = Some (0, [ex_kept]) /\ get_device [mkExec (table ex_kept) (mkPci 0 0 1)] = Some (1, [mkExec (table ex_kept) (mkPci 0 0 1)]) /\
  get_device [ex_kept; mkExec (table ex_kept) (mkPci 0 0 1)] = None /\ get_device [ex_lost] = None.
Proof. repeat split. Qed.

(** ** C145 *)
(** No program can be verified with its driver: whatever the program did at start-up, preparing a packet for it raises an exception, with or without
    Python's assertions. *)
Theorem C145_every_program_refuted : forall asserts l cards index data addr length,
  accesses asserts [] l = Some cards -> receive_packet asserts cards index data addr length = None.
Proof. intros asserts l cards index data addr length _. unfold receive_packet. destruct (get_card asserts cards index); reflexivity. Qed.
Print Assumptions C145_every_program_refuted.
(** With assertions, a program does not even get there if it accesses a card. *)
Theorem C145_first_access_refuted : forall a l, accesses true [] (a :: l) = None.
Proof. intros [virt index|virt] l; reflexivity. Qed.
Print Assumptions C145_first_access_refuted.
(** Without them, start-up works: every access to configuration space is served, and so are accesses to the registers of a card that was found there. *)
Lemma accesses_app : forall asserts l1 l2 cards, accesses asserts cards (l1 ++ l2) =
  match accesses asserts cards l1 with Some c => accesses asserts c l2 | None => None end.
Proof.
  induction l1 as [|[v i|v] l1 IH]; intros l2 cards; cbn [accesses app]; [reflexivity| |].
  - destruct (pci_card asserts v cards i); [apply IH|reflexivity].
  - destruct (find_card cards v); [apply IH|reflexivity].
Qed.
Theorem C145_startup_partial : forall l, (forall l1 v l2, l = l1 ++ RegAccess v :: l2 -> exists cards c, accesses false [] l1 = Some cards /\ In c cards /\ card_virt c = v) ->
  exists cards, accesses false [] l = Some cards.
Proof.
  intros l. induction l as [|a l IH] using rev_ind; intros H; [exists []; reflexivity|].
  destruct IH as [cards E].
  - intros l1 v l2 ->. apply (H l1 v (l2 ++ [a])). rewrite <- app_assoc. reflexivity.
  - rewrite accesses_app, E. destruct a as [v i|v]; cbn [accesses].
    + unfold pci_card. destruct (existsb _ cards); cbn; eauto.
    + destruct (H l v [] eq_refl) as (cards' & c & E' & Hc & V). rewrite E in E'. injection E' as <-.
      unfold find_card. destruct (find _ cards) eqn:F; [eauto|]. exfalso. pose proof (find_none _ _ F c Hc) as X. cbn beta in X. rewrite V, N.eqb_refl in X. discriminate.
Qed.
Print Assumptions C145_startup_partial.
(** And each card has one model: the cards found are exactly the indexes accessed, one for each, kept from the first access on. *)
Definition accessed (l : list access) (index : N) : Prop := exists virt, In (PciAccess virt index) l.
Theorem C145_one_card_partial : forall l cards, accesses false [] l = Some cards ->
  (forall index, accessed l index <-> exists c, get_card false cards index = Some c) /\
  (forall index c, get_card false cards index = Some c -> card_index c = index /\ In c cards /\
     exists l1 l2, l = l1 ++ PciAccess (card_virt c) index :: l2 /\ ~ accessed l1 index) /\
  (forall c c', In c cards -> In c' cards -> card_index c = card_index c' -> c = c').
Proof.
  intros l. induction l as [|a l IH] using rev_ind; intros cards H.
  - injection H as <-. split; [|split].
    + intros index. split; [intros [v []]|intros [c X]; discriminate].
    + intros index c X. discriminate.
    + intros c c' [].
  - rewrite accesses_app in H. destruct (accesses false [] l) as [cs|] eqn:E; [|discriminate]. specialize (IH cs eq_refl) as (I1 & I2 & I3).
    assert (AC : forall index, accessed (l ++ [a]) index <-> accessed l index \/ exists v, a = PciAccess v index).
    { intros index. unfold accessed. split.
      - intros [v V]. apply in_app_or in V as [V|[V|[]]]; eauto.
      - intros [[v V]|[v ->]]; exists v; apply in_or_app; [left; exact V|right; left; reflexivity]. }
    assert (KEEP : forall index c, get_card false cs index = Some c -> exists l1 l2, l ++ [a] = l1 ++ PciAccess (card_virt c) index :: l2 /\ ~ accessed l1 index).
    { intros index c X. destruct (I2 index c X) as (_ & _ & l1 & l2 & -> & NA). exists l1, (l2 ++ [a]). split; [rewrite <- app_assoc; reflexivity|exact NA]. }
    destruct a as [v i|v]; cbn [accesses] in H.
    + unfold pci_card in H. destruct (existsb (fun c => (card_index c =? i)%N) cs) eqn:X.
      * injection H as <-. apply existsb_exists in X as (c0 & C0 & IX). apply N.eqb_eq in IX. split; [|split; [|exact I3]].
        -- intros index. rewrite AC, <- I1. split; [intros [Y|[v' Y]]; [exact Y|]|auto]. injection Y as _ <-. apply I1. unfold get_card.
           destruct (filter (fun c => (card_index c =? i)%N) cs) as [|c1 l1] eqn:F; [|destruct l1; eauto]. exfalso. assert (Y : In c0 []) by (rewrite <- F; apply filter_In; split; [exact C0|apply N.eqb_eq, IX]). destruct Y.
        -- intros index c Y. destruct (I2 index c Y) as (Z1 & Z2 & _). split; [exact Z1|]. split; [exact Z2|]. exact (KEEP index c Y).
      * cbn in H. injection H as <-. assert (NX : forall c, In c cs -> card_index c <> i).
        { intros c C Z. assert (Y : existsb (fun c => (card_index c =? i)%N) cs = true) by (apply existsb_exists; exists c; split; [exact C|apply N.eqb_eq, Z]). congruence. }
        assert (NF : filter (fun c => (card_index c =? i)%N) cs = []).
        { destruct (filter _ cs) as [|c l1] eqn:F; [reflexivity|]. exfalso. assert (Y : In c (filter (fun c => (card_index c =? i)%N) cs)) by (rewrite F; left; reflexivity). apply filter_In in Y as [Y Z]. apply N.eqb_eq in Z. exact (NX c Y Z). }
        assert (G1 : get_card false (mkCard i v :: cs) i = Some (mkCard i v)) by (unfold get_card; cbn [filter card_index]; rewrite N.eqb_refl, NF; reflexivity).
        assert (G2 : forall index, index <> i -> get_card false (mkCard i v :: cs) index = get_card false cs index).
        { intros index D. unfold get_card. cbn [filter card_index]. destruct (N.eqb_spec i index) as [<-|]; [congruence|reflexivity]. }
        split; [|split].
        -- intros index. rewrite AC. destruct (N.eq_dec index i) as [->|D].
           ++ split; [intros _; exists (mkCard i v); exact G1|intros _; right; eauto].
           ++ rewrite (G2 index D), <- I1. split; [intros [Y|[v' Y]]; [exact Y|congruence]|auto].
        -- intros index c Y. destruct (N.eq_dec index i) as [->|D].
           ++ rewrite G1 in Y. injection Y as <-. split; [reflexivity|]. split; [left; reflexivity|]. exists l, []. split; [reflexivity|]. intros Y. apply I1 in Y as [c Y].
              destruct (I2 i c Y) as (Z1 & Z2 & _). exact (NX c Z2 Z1).
           ++ rewrite (G2 index D) in Y. destruct (I2 index c Y) as (Z1 & Z2 & _). split; [exact Z1|]. split; [right; exact Z2|]. exact (KEEP index c Y).
        -- intros c c' [<-|C] [<-|C'] Z; cbn [card_index] in Z; [reflexivity|elim (NX c' C'); congruence|elim (NX c C); congruence|exact (I3 c c' C C' Z)].
    + destruct (find_card cs v) as [c0|] eqn:X; [|discriminate]. injection H as <-. split; [|split; [|exact I3]].
      * intros index. rewrite AC, <- I1. split; [intros [Y|[v' Y]]; [exact Y|discriminate]|auto].
      * intros index c Y. destruct (I2 index c Y) as (Z1 & Z2 & _). split; [exact Z1|]. split; [exact Z2|]. exact (KEEP index c Y).
Qed.
Print Assumptions C145_one_card_partial.
Example C145_example : accesses false [] [PciAccess 5 0; RegAccess 5; PciAccess 6 1; PciAccess 7 0; RegAccess 6] = Some [mkCard 1 6; mkCard 0 5] /\
  accesses false [] [PciAccess 5 0; RegAccess 6] = None.
Proof. split; reflexivity. Qed.
