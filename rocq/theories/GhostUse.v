(** * Consequences of reading a run as a real map *)

From Coq Require Import NArith List Bool Lia Arith.
From Verif Require Import Expr Solver KMerge Wt GhostMap GhostSpec GhostFacts GhostSim GhostHist GhostTrace GhostCons GhostReal.
Import ListNotations.
Open Scope N_scope.

Lemma replay_app : forall r m C L a b, replay r m C L (a ++ b) = replay r m (fst (replay r m C L a)) (snd (replay r m C L a)) b.
Proof. intros. unfold replay. rewrite fold_left_app. destruct (fold_left (replay1 r m) a (C, L)). reflexivity. Qed.

Lemma real_app : forall r m A a b sf C L, real r m A sf C L (a ++ b) ->
  real r m A (sf ++ accessed r m a) (fst (replay r m C L a)) (snd (replay r m C L a)) b.
Proof.
  intros r m A. induction a as [|e a IH]; intros b sf C L H; cbn [app] in *.
  - cbn. rewrite app_nil_r. exact H.
  - destruct H as [_ H]. unfold accessed, replay in *. cbn [flat_map fold_left]. rewrite app_assoc.
    destruct e as [| m0 key v p | m0 key value len | m0 key | m0 pred p | m0 len | ]; cbn [replay1 ekey] in *;
    try (apply IH; exact H); destruct (m0 =? m); apply IH; tauto.
Qed.

Lemma replay_untouched : forall r m q es C L, untouched r m q es -> fst (replay r m C L es) q = C q.
Proof.
  intros r m q. unfold replay. induction es as [|e es IH]; intros C L U; [reflexivity|].
  assert (U' : untouched r m q es) by (intros e' Hin; apply U; right; auto).
  pose proof (U e (or_introl eq_refl)) as UE. cbn [fold_left].
  destruct e as [| m0 key v p | m0 key value len | m0 key | m0 pred p | m0 len | ]; cbn [replay1] in *; try (apply IH; auto; fail);
  destruct (N.eqb_spec m0 m) as [->|]; try (apply IH; auto; fail);
  rewrite IH by auto; unfold upd; (destruct (N.eqb_spec q (ev r key)) as [->|]; [exfalso; apply UE; split; reflexivity|reflexivity]).
Qed.
Lemma replay_unwritten : forall r m es C L, unwritten m es -> replay r m C L es = (C, L).
Proof.
  intros r m. induction es as [|e es IH]; intros C L U; [reflexivity|].
  assert (U' : unwritten m es) by (intros e' Hin; apply U; right; auto).
  pose proof (U e (or_introl eq_refl)) as UE. unfold replay. cbn [fold_left].
  destruct e as [| m0 key v p | m0 key value len | m0 key | m0 pred p | m0 len | ]; cbn [replay1] in *; try (apply IH; auto);
  destruct (N.eqb_spec m0 m) as [->|]; try (apply IH; auto); congruence.
Qed.

(** What a real map in state [x] says of one event. *)
Definition ok1 (r : env) (m : N) (A : list N) (x : (N -> N * bool) * N) (e : event) : Prop :=
  let '(C, L) := x in
  match e with
  | EGet m' key v p => m' = m -> eb r p = snd (C (ev r key)) /\ (snd (C (ev r key)) = true -> ev r v = fst (C (ev r key)))
  | ERemove m' key => m' = m -> snd (C (ev r key)) = true -> 1 <= L
  | EForall m' pred b => m' = m -> eb r b = true -> forall q, In q A -> snd (C q) = true -> eb (setKVP r q (C q)) pred = true
  | ELen m' len => m' = m -> ev r len = L
  | _ => True
  end.
Lemma real_at : forall r m A x e y C L, real r m A [] C L (x ++ e :: y) ->
  ok1 r m A (replay r m C L x) e /\ at_most (accessed r m x) (fst (replay r m C L x)) (snd (replay r m C L x)).
Proof.
  intros r m A x e y C L H. apply real_app in H. destruct (replay r m C L x) as [C' L']. cbn [fst snd] in *.
  destruct H as [AM H]. split; [|exact AM].
  destruct e as [| m0 key v p | m0 key value len | m0 key | m0 pred p | m0 len | ]; cbn [ok1]; auto;
  intros ->; rewrite N.eqb_refl in H; cbv zeta in H; tauto.
Qed.

Section Use.
Variable s : solver.
Variable k : claripy.
Hypothesis SOK : solver_ok s.
Hypothesis KOK : claripy_ok k.

Lemma none_step : forall fuel r st e st' K X m,
  does s k fuel st e st' -> INV r K X st -> holds r (gcs st') -> unfolded st' -> sizes_fit st' ->
  no_overflow r [e] -> gmaps st m = None -> gmaps st' m = None \/ exists ks vs len invs, e = ENew m ks vs len invs.
Proof.
  intros fuel r st e st' K X m H I HR UF SF NO GN.
  destruct H as [st m' ks vs len invs st' N0 PF H|st m' ks vs st' N0 H|st m' ks vs len st' N0 PF H
                |st m' g0 key st' v p G0 KO H|st m' g0 key value st' G0 KO VW H|st m' g0 key st' G0 KO H
                |st m' g0 pred st' b G0 PO H|st m' g0 G0|st c];
  try (destruct (N.eq_dec m' m) as [->|NE]; [right; eauto; fail|left]); auto.
  - destruct (new_step s k _ r _ _ _ _ _ _ _ K X I N0 PF H) as [g' [M' [I' [G' [O _]]]]]. rewrite O; auto.
  - assert (PF : Forall (pred_ok ks vs) [BNot PRESENT]) by (constructor; [split; reflexivity|constructor]).
    destruct (new_step s k _ r _ _ _ _ _ _ _ K X I N0 PF H) as [g' [M' [I' [G' [O _]]]]]. rewrite O; auto.
  - unfold new_array in H. destruct (width len =? ks); [|discriminate].
    assert (PF' : Forall (pred_ok ks vs) [array_inv ks len]) by (constructor; [auto|constructor]).
    destruct (new_step s k _ r _ _ _ _ _ _ _ K X I N0 PF' H) as [g' [M' [I' [G' [O _]]]]]. rewrite O; auto.
  - left. destruct I as [NX [MI _]]. destruct (get_gstep s k SOK KOK _ r _ _ _ _ _ _ _ _ _ G0 (MI m' g0 G0) KO H HR SF) as [K' [x' [g' [GS [_ [_ [G' [OT _]]]]]]]].
    rewrite OT; auto. congruence.
  - left. destruct I as [NX [MI _]]. 
    destruct (set_step s k SOK KOK _ r _ _ _ _ _ _ _ _ G0 (MI m' g0 G0) KO VW H HR UF SF) as [K' [x' [g' [PG [M' [G' [OT _]]]]]]].
    { eapply NO. left. reflexivity. } rewrite OT; auto. congruence.
  - left. destruct I as [NX [MI _]].
    destruct (remove_step s k SOK KOK _ r _ _ _ _ _ _ _ G0 (MI m' g0 G0) KO H HR UF SF) as [K' [x' [g' [u [PG [M' [G' [OT _]]]]]]]].
    rewrite OT; auto. congruence.
  - left. destruct I as [NX [MI _]].
    destruct (forall_step s k _ r _ _ _ _ _ _ _ _ G0 (MI m' g0 G0) NX PO H HR SF) as [K' [x' [g' [inv [n [PG [M' [G' [OT _]]]]]]]]].
    rewrite OT; auto. congruence.
Qed.

Lemma created : forall fuel r es st st' K X m g,
  run s k fuel st es st' -> INV r K X st -> holds r (gcs st') -> no_overflow r es ->
  gmaps st m = None -> gmaps st' m = Some g ->
  exists a ks vs len invs b, es = a ++ ENew m ks vs len invs :: b.
Proof.
  intros fuel r es st st' K X m g H. revert K X. induction H as [st|st e st1 es st2 D UF SF R IH]; intros K X I HR NO GN G; [congruence|].
  apply no_overflow_cons in NO as [NO1 NO2].
  pose proof (holds_mono _ _ _ (run_mono _ _ _ _ _ _ R) HR) as HR1.
  destruct (none_step _ _ _ _ _ _ _ m D I HR1 UF SF NO1 GN) as [GN1|[ks [vs [len [invs ->]]]]].
  - destruct (inv_step s k SOK KOK _ _ _ _ _ _ _ D I HR1 UF SF NO1) as [K1 [X1 I1]].
    destruct (IH K1 X1 I1 HR NO2 GN1 G) as [a [ks [vs [len [invs [b ->]]]]]]. exists (e :: a), ks, vs, len, invs, b. reflexivity.
  - exists [], ks, vs, len, invs, es. reflexivity.
Qed.

Definition about (m : N) (e : event) : Prop :=
  match e with
  | EGet m' _ _ _ | ESet m' _ _ _ | ERemove m' _ | EForall m' _ _ | ELen m' _ => m' = m
  | _ => False
  end.

(** Any event about a map comes after the map's creation, and what the run does with
    the map is what a real map does. *)
Lemma consistent_map : forall fuel es r a m e b,
  consistent s k fuel es r -> es = a ++ e :: b -> about m e ->
  exists a1 ks vs len invs a2 C0,
    a = a1 ++ ENew m ks vs len invs :: a2 /\
    real r m (accessed r m (a2 ++ e :: b)) [] C0 (ev r len) (a2 ++ e :: b) /\
    forall inv q, In inv invs -> In q (accessed r m (a2 ++ e :: b)) -> snd (C0 q) = true -> eb (setKVP r q (C0 q)) inv = true.
Proof.
  intros fuel es r a m e b [nin [sz [fin [NX [R [HR NO]]]]]] -> AB.
  destruct (run_app _ _ _ _ _ _ _ R) as [st1 [R1 R2]].
  assert (G1 : exists g, gmaps st1 m = Some g).
  { inversion R2 as [|? ? ? ? ? D]; subst. inversion D; subst; cbn in AB; subst; try contradiction; eauto. }
  destruct G1 as [g G1].
  assert (HR1 : holds r (gcs st1)) by (eapply holds_mono; [eapply run_mono; exact R2|auto]).
  assert (NO1 : no_overflow r a) by (intros m' key value l Hin; eapply NO; apply in_or_app; left; exact Hin).
  destruct (created fuel r a _ _ (fun _ => []) (fun _ => false) m g R1) as [a1 [ks [vs [len [invs [a2 ->]]]]]]; auto.
  { split; [cbn; lia|]. split; [intros m' g' G; discriminate G|auto]. }
  rewrite <- app_assoc in R, NO. cbn [app] in R, NO.
  destruct (real_map s k SOK KOK fuel nin sz r a1 m ks vs len invs (a2 ++ e :: b) fin) as [C0 [HC HI]]; auto; [lia|].
  exists a1, ks, vs, len, invs, a2, C0. auto.
Qed.

(** ** Read your writes *)
Lemma read_your_writes : forall fuel es r a m key value l b key' v p c,
  consistent s k fuel es r -> es = a ++ ESet m key value l :: b ++ EGet m key' v p :: c ->
  ev r key' = ev r key -> untouched r m (ev r key) b ->
  eb r p = true /\ ev r v = ev r value.
Proof.
  intros fuel es r a m key value l b key' v p c H E EK U.
  destruct (consistent_map fuel es r a m _ _ H E eq_refl) as [a1 [ks [vs [len [invs [a2 [C0 [_ [HR _]]]]]]]]].
  apply real_app in HR. cbn [real] in HR. rewrite N.eqb_refl in HR. destruct HR as [_ HR].
  apply real_app in HR. cbn [real] in HR. rewrite N.eqb_refl in HR. destruct HR as [_ [H1 [H2 _]]].
  rewrite EK, replay_untouched in H1, H2 by auto. unfold upd in H1, H2. rewrite N.eqb_refl in H1, H2. cbn [snd fst] in H1, H2. auto.
Qed.
Lemma read_your_removals : forall fuel es r a m key b key' v p c,
  consistent s k fuel es r -> es = a ++ ERemove m key :: b ++ EGet m key' v p :: c ->
  ev r key' = ev r key -> untouched r m (ev r key) b -> eb r p = false.
Proof.
  intros fuel es r a m key b key' v p c H E EK U.
  destruct (consistent_map fuel es r a m _ _ H E eq_refl) as [a1 [ks [vs [len [invs [a2 [C0 [_ [HR _]]]]]]]]].
  apply real_app in HR. cbn [real] in HR. rewrite N.eqb_refl in HR. destruct HR as [_ [_ HR]].
  apply real_app in HR. cbn [real] in HR. rewrite N.eqb_refl in HR. destruct HR as [_ [H1 [H2 _]]].
  rewrite EK, replay_untouched in H1 by auto. unfold upd in H1. rewrite N.eqb_refl in H1. auto.
Qed.

(** ** Reads of one key *)
Lemma reads_agree : forall fuel es r a m key v p b key' v' p' c,
  consistent s k fuel es r -> es = a ++ EGet m key v p :: b ++ EGet m key' v' p' :: c ->
  ev r key' = ev r key -> untouched r m (ev r key) b ->
  eb r p' = eb r p /\ (eb r p = true -> ev r v' = ev r v).
Proof.
  intros fuel es r a m key v p b key' v' p' c H E EK U.
  destruct (consistent_map fuel es r a m _ _ H E eq_refl) as [a1 [ks [vs [len [invs [a2 [C0 [_ [HR _]]]]]]]]].
  apply real_app in HR. cbn [real] in HR. rewrite N.eqb_refl in HR. destruct HR as [_ [H3 [H4 HR]]].
  apply real_app in HR. cbn [real] in HR. rewrite N.eqb_refl in HR. destruct HR as [_ [H1 [H2 _]]].
  rewrite EK, replay_untouched in H1, H2 by auto. rewrite H1, H3. split; [auto|]. intros P. rewrite H2, H4; auto.
Qed.

(** ** Length *)
Lemma length_step : forall fuel es r a m l1 b1 key v p e b2 l2 c,
  consistent s k fuel es r ->
  es = a ++ ELen m l1 :: b1 ++ EGet m key v p :: e :: b2 ++ ELen m l2 :: c ->
  unwritten m b1 -> unwritten m b2 ->
  (forall value l key', e = ESet m key' value l -> ev r key' = ev r key ->
     ev r l2 = if eb r p then ev r l1 else ev r l1 + 1) /\
  (forall key', e = ERemove m key' -> ev r key' = ev r key ->
     if eb r p then 1 <= ev r l1 /\ ev r l2 = ev r l1 - 1 else ev r l2 = ev r l1) /\
  (unwritten m [e] -> ev r l2 = ev r l1).
Proof.
  intros fuel es r a m l1 b1 key v p e b2 l2 c H E U1 U2.
  destruct (consistent_map fuel es r a m _ _ H E eq_refl) as [a1 [ks [vs [len [invs [a2 [C0 [_ [HR _]]]]]]]]].
  destruct (real_at _ _ _ _ _ _ _ _ HR) as [H1 _].
  rewrite (app_comm_cons _ _ (ELen m l1)), app_assoc in HR.
  destruct (real_at _ _ _ _ _ _ _ _ HR) as [H2 _].
  rewrite (app_comm_cons _ _ e), (app_comm_cons _ _ (EGet m key v p)), app_assoc in HR.
  destruct (real_at _ _ _ _ _ _ _ _ HR) as [H3 _].
  rewrite !replay_app in H3. rewrite replay_app in H2.
  assert (UL : unwritten m (ELen m l1 :: b1)) by (intros e' [<-|Hin]; [exact I|apply U1; auto]).
  rewrite (replay_unwritten _ _ _ _ _ UL) in H2, H3. cbn [fst snd] in H2, H3.
  set (C := fst (replay r m C0 (ev r len) a2)) in *.
  assert (L1 : ev r l1 = snd (replay r m C0 (ev r len) a2)).
  { destruct (replay r m C0 (ev r len) a2). apply H1. reflexivity. }
  rewrite <- L1 in *. clear H1. cbn [ok1] in H2. destruct (H2 eq_refl) as [P _]. clear H2.
  change (EGet m key v p :: e :: b2) with ([EGet m key v p] ++ [e] ++ b2) in H3.
  rewrite !replay_app in H3. change (replay r m C (ev r l1) [EGet m key v p]) with (C, ev r l1) in H3. cbn [fst snd] in H3.
  rewrite (replay_unwritten _ _ b2) in H3 by auto. cbn [ok1] in H3. specialize (H3 eq_refl).
  split; [|split].
  - intros value l key' -> EK. unfold replay in H3. cbn [fold_left replay1] in H3. rewrite N.eqb_refl in H3. cbn [snd] in H3.
    rewrite H3, P, EK. reflexivity.
  - intros key' -> EK.
    assert (POS : snd (C (ev r key)) = true -> 1 <= ev r l1).
    { rewrite <- (app_assoc _ (EGet m key v p :: ERemove m key' :: b2)) in HR. cbn [app] in HR.
      replace ((a2 ++ ELen m l1 :: b1) ++ EGet m key v p :: ERemove m key' :: b2 ++ ELen m l2 :: c)
        with (((a2 ++ ELen m l1 :: b1) ++ [EGet m key v p]) ++ ERemove m key' :: b2 ++ ELen m l2 :: c) in HR
        by (rewrite <- app_assoc; reflexivity).
      destruct (real_at _ _ _ _ _ _ _ _ HR) as [H4 _]. rewrite !replay_app in H4.
      rewrite (replay_unwritten _ _ _ _ _ UL) in H4. cbn [fst snd] in H4. fold C in H4. rewrite <- L1 in H4.
      change (replay r m C (ev r l1) [EGet m key v p]) with (C, ev r l1) in H4. cbn [ok1] in H4. rewrite EK in H4. auto. }
    unfold replay in H3. cbn [fold_left replay1] in H3. rewrite N.eqb_refl in H3. cbn [snd] in H3.
    rewrite H3, P, EK. destruct (snd (C (ev r key))); [split; auto|auto].
  - intros UE. rewrite replay_unwritten in H3 by auto. exact H3.
Qed.

(** ** Foralls *)
Lemma forall_covers_after : forall fuel es r a m pred t b key v p c,
  consistent s k fuel es r -> es = a ++ EForall m pred t :: b ++ EGet m key v p :: c ->
  untouched r m (ev r key) b -> eb r t = true -> eb r p = true ->
  eb (setKVP r (ev r key) (ev r v, true)) pred = true.
Proof.
  intros fuel es r a m pred t b key v p c H E U T P.
  destruct (consistent_map fuel es r a m _ _ H E eq_refl) as [a1 [ks [vs [len [invs [a2 [C0 [_ [HR _]]]]]]]]].
  pose proof HR as HR0. destruct (real_at _ _ _ _ _ _ _ _ HR) as [H1 _].
  rewrite (app_comm_cons _ _ (EForall m pred t)), app_assoc in HR.
  destruct (real_at _ _ _ _ _ _ _ _ HR) as [H2 _]. rewrite replay_app in H2.
  destruct (replay r m C0 (ev r len) a2) as [C L]. cbn [fst snd] in H2.
  assert (U' : untouched r m (ev r key) (EForall m pred t :: b)) by (intros e' [<-|Hin]; [intros []|apply U; auto]).
  pose proof (replay_untouched r m _ _ C L U') as RU. destruct (replay r m C L (EForall m pred t :: b)) as [C' L'].
  cbn [fst ok1] in *. destruct (H2 eq_refl) as [H3 H4]. rewrite RU in H3, H4. rewrite P in H3.
  specialize (H1 eq_refl T (ev r key)). rewrite H4 by auto.
  replace (fst (C (ev r key)), true) with (C (ev r key)) by (destruct (C (ev r key)); cbn in *; congruence).
  apply H1; [|auto]. unfold accessed. rewrite flat_map_app. apply in_or_app. right. cbn [flat_map ekey app].
  rewrite flat_map_app. apply in_or_app. right. cbn [flat_map ekey]. rewrite N.eqb_refl. left. auto.
Qed.
Lemma forall_covers_before : forall fuel es r a m pred t b key v p c,
  consistent s k fuel es r -> es = a ++ EGet m key v p :: b ++ EForall m pred t :: c ->
  untouched r m (ev r key) b -> eb r t = true -> eb r p = true ->
  eb (setKVP r (ev r key) (ev r v, true)) pred = true.
Proof.
  intros fuel es r a m pred t b key v p c H E U T P.
  destruct (consistent_map fuel es r a m _ _ H E eq_refl) as [a1 [ks [vs [len [invs [a2 [C0 [_ [HR _]]]]]]]]].
  destruct (real_at _ _ _ _ _ _ _ _ HR) as [H2 _].
  rewrite (app_comm_cons _ _ (EGet m key v p)), app_assoc in HR.
  destruct (real_at _ _ _ _ _ _ _ _ HR) as [H1 _]. rewrite replay_app in H1.
  destruct (replay r m C0 (ev r len) a2) as [C L]. cbn [fst snd] in H1.
  assert (U' : untouched r m (ev r key) (EGet m key v p :: b)) by (intros e' [<-|Hin]; [intros []|apply U; auto]).
  pose proof (replay_untouched r m _ _ C L U') as RU. destruct (replay r m C L (EGet m key v p :: b)) as [C' L'].
  cbn [fst ok1] in *. destruct (H2 eq_refl) as [H3 H4]. rewrite P in H3.
  specialize (H1 eq_refl T (ev r key)). rewrite RU in H1. rewrite H4 by auto.
  replace (fst (C (ev r key)), true) with (C (ev r key)) by (destruct (C (ev r key)); cbn in *; congruence).
  apply H1; [|auto]. unfold accessed. rewrite <- app_assoc, flat_map_app. apply in_or_app. right. cbn [flat_map ekey app].
  rewrite N.eqb_refl. left. auto.
Qed.

(** ** Distinct present keys *)
(** The reads of map [m] in a list of events: keys and presence. *)
Definition present_reads (r : env) (m : N) (es : list event) : list N :=
  flat_map (fun e => match e with EGet m' key _ p => if (m' =? m) && eb r p then [ev r key] else [] | _ => [] end) es.
Lemma not_overfull : forall fuel es r a m l b c,
  consistent s k fuel es r -> es = a ++ ELen m l :: b ++ c -> unwritten m b ->
  forall keys, NoDup keys -> incl keys (present_reads r m b) -> N.of_nat (length keys) <= ev r l.
Proof.
  intros fuel es r a m l b c H E U keys ND IN.
  destruct (consistent_map fuel es r a m _ _ H E eq_refl) as [a1 [ks [vs [len [invs [a2 [C0 [_ [HR _]]]]]]]]].
  destruct (real_at _ _ _ _ _ _ _ _ HR) as [H1 _].
  pose proof HR as HR0. rewrite (app_comm_cons _ _ (ELen m l)), app_assoc in HR. apply real_app in HR.
  rewrite replay_app in HR. assert (UL : unwritten m (ELen m l :: b)) by (intros e' [<-|Hin]; [exact I|apply U; auto]).
  rewrite (replay_unwritten _ _ _ _ _ UL) in HR. cbn [fst snd] in HR.
  set (C := fst (replay r m C0 (ev r len) a2)) in *.
  assert (L1 : ev r l = snd (replay r m C0 (ev r len) a2)) by (destruct (replay r m C0 (ev r len) a2); apply H1; reflexivity).
  assert (AM : at_most ([] ++ accessed r m (a2 ++ ELen m l :: b)) C (ev r l)) by (rewrite L1; destruct c; apply HR).
  apply AM; [auto|]. intros q Hq. apply IN in Hq. unfold present_reads in Hq. apply in_flat_map in Hq as [e [He Hq]].
  destruct e as [| m0 key v p | | | | | ]; try (destruct Hq; fail). destruct (N.eqb_spec m0 m) as [->|]; [|destruct Hq].
  destruct (eb r p) eqn:P; [|destruct Hq]. destruct Hq as [<-|[]].
  apply in_split in He as [b1 [b2 ->]].
  split.
  - cbn [app]. unfold accessed. rewrite flat_map_app. apply in_or_app. right. cbn [flat_map ekey app]. rewrite flat_map_app. apply in_or_app. right.
    cbn [flat_map ekey]. rewrite N.eqb_refl. left. auto.
  - replace (a2 ++ ELen m l :: (b1 ++ EGet m key v p :: b2) ++ c) with ((a2 ++ ELen m l :: b1) ++ EGet m key v p :: b2 ++ c) in HR0
      by (rewrite <- !app_assoc; reflexivity).
    destruct (real_at _ _ _ _ _ _ _ _ HR0) as [H2 _]. rewrite replay_app in H2.
    assert (UB : unwritten m (ELen m l :: b1)) by (intros e' [<-|Hin]; [exact I|apply U; apply in_or_app; auto]).
    rewrite (replay_unwritten _ _ _ _ _ UB) in H2. destruct (H2 eq_refl) as [H3 _]. fold C in H3. congruence.
Qed.

(** ** Empty maps *)
Lemma empty_absent : forall fuel es r a1 m ks vs len invs a2 key v p b,
  consistent s k fuel es r -> es = a1 ++ ENew m ks vs len invs :: a2 ++ EGet m key v p :: b ->
  In (BNot PRESENT) invs -> eb r p = true ->
  exists c1 key' value l c2, a2 = c1 ++ ESet m key' value l :: c2 /\ ev r key' = ev r key /\
    untouched r m (ev r key) c2 /\ ev r v = ev r value.
Proof.
  intros fuel es r a1 m ks vs len invs a2 key v p b [nin [sz [fin [NX [R [HR NO]]]]]] -> IN P.
  destruct (real_map s k SOK KOK fuel nin sz r a1 m ks vs len invs (a2 ++ EGet m key v p :: b) fin) as [C0 [HC HI]]; auto; [lia|].
  assert (AQ : In (ev r key) (accessed r m (a2 ++ EGet m key v p :: b))).
  { unfold accessed. rewrite flat_map_app. apply in_or_app. right. cbn [flat_map ekey]. rewrite N.eqb_refl. left. auto. }
  assert (C0Q : snd (C0 (ev r key)) = false).
  { destruct (snd (C0 (ev r key))) eqn:Q; [|auto]. specialize (HI _ _ IN AQ Q). cbn [evalb PRESENT setKVP ebool] in HI.
    rewrite N.eqb_refl, Q in HI. discriminate HI. }
  destruct (real_at _ _ _ _ _ _ _ _ HC) as [H1 _]. clear HC HI R NO HR AQ.
  assert (X : forall es C L, snd (C (ev r key)) = false -> snd (fst (replay r m C L es) (ev r key)) = true ->
     exists c1 key' value l c2, es = c1 ++ ESet m key' value l :: c2 /\ ev r key' = ev r key /\ untouched r m (ev r key) c2 /\
        fst (fst (replay r m C L es) (ev r key)) = ev r value).
  { clear. intros es. induction es as [|e es IH] using rev_ind; intros C L H0 H1; [cbn in H1; congruence|].
    rewrite replay_app in *. set (C' := fst (replay r m C L es)) in *. set (L' := snd (replay r m C L es)) in *.
    assert (SKIP : ~ writes r m (ev r key) e -> fst (replay r m C' L' [e]) (ev r key) = C' (ev r key)).
    { intros NW. apply replay_untouched. intros e' [<-|[]]. auto. }
    assert (D : writes r m (ev r key) e \/ ~ writes r m (ev r key) e).
    { destruct e; cbn [writes]; auto; (destruct (N.eq_dec m0 m); [destruct (N.eq_dec (ev r key0) (ev r key))|]); tauto. }
    destruct D as [W|NW].
    - destruct e as [| | m0 key0 value len | m0 key0 | | | ]; cbn [writes] in W; try contradiction; destruct W as [-> EK].
      + exists es, key0, value, len, []. split; [reflexivity|]. split; [auto|]. split; [intros e' []|].
        unfold replay. cbn [fold_left replay1]. rewrite N.eqb_refl. cbn [fst]. unfold upd. rewrite <- EK, N.eqb_refl. reflexivity.
      + exfalso. unfold replay in H1. cbn [fold_left replay1] in H1. rewrite N.eqb_refl in H1. cbn [fst] in H1.
        unfold upd in H1. rewrite <- EK, N.eqb_refl in H1. discriminate.
    - rewrite (SKIP NW) in *. destruct (IH C L H0 H1) as [c1 [key' [value [l [c2 [-> [E2 [U V]]]]]]]].
      exists c1, key', value, l, (c2 ++ [e]). split; [rewrite <- app_assoc; reflexivity|]. split; [auto|]. split; [|auto].
      intros e' Hin. apply in_app_or in Hin as [Hin|[<-|[]]]; [apply U; auto|auto]. }
  destruct (replay r m C0 (ev r len) a2) as [C L] eqn:RE. destruct (H1 eq_refl) as [H2 H3]. rewrite P in H2. symmetry in H2.
  specialize (X a2 C0 (ev r len) C0Q). rewrite RE in X. cbn [fst] in X. destruct (X H2) as [c1 [key' [value [l [c2 [E1 [E2 [U V]]]]]]]].
  exists c1, key', value, l, c2. rewrite H3 by auto. auto 10.
Qed.

(** ** Before the first write *)
Definition unwr1 (m : N) (e : event) : Prop := unwritten m [e].
Lemma quiet_step : forall fuel r st e st' K X m g,
  does s k fuel st e st' -> INV r K X st -> holds r (gcs st') -> unfolded st' -> sizes_fit st' ->
  no_overflow r [e] -> gmaps st m = Some g -> unwritten m [e] ->
  exists g', gmaps st' m = Some g' /\ Forall2 same_layer (glayers g) (glayers g') /\ len_at g' 0 = len_at g 0 /\ incl (ginvs g) (ginvs g').
Proof.
  intros fuel r st e st' K X m g H I HR UF SF NO G UW.
  assert (RF : forall l : list layer, Forall2 same_layer l l) by (induction l; constructor; [split; reflexivity|auto]).
  assert (SAME : gmaps st' m = gmaps st m -> exists g', gmaps st' m = Some g' /\ Forall2 same_layer (glayers g) (glayers g') /\ len_at g' 0 = len_at g 0 /\ incl (ginvs g) (ginvs g')).
  { intros E. exists g. rewrite E. auto using incl_refl. }
  destruct H as [st m' ks vs len invs st' N0 PF H|st m' ks vs st' N0 H|st m' ks vs len st' N0 PF H
                |st m' g0 key st' v p G0 KO H|st m' g0 key value st' G0 KO VW H|st m' g0 key st' G0 KO H
                |st m' g0 pred st' b G0 PO H|st m' g0 G0|st c].
  - assert (NE : m <> m') by congruence. apply SAME.
    destruct (new_step s k _ r _ _ _ _ _ _ _ K X I N0 PF H) as [g' [M' [I' [G' [O _]]]]]. auto.
  - assert (NE : m <> m') by congruence. apply SAME.
    assert (PF : Forall (pred_ok ks vs) [BNot PRESENT]) by (constructor; [split; reflexivity|constructor]).
    destruct (new_step s k _ r _ _ _ _ _ _ _ K X I N0 PF H) as [g' [M' [I' [G' [O _]]]]]. auto.
  - assert (NE : m <> m') by congruence. apply SAME. unfold new_array in H. destruct (width len =? ks); [|discriminate].
    assert (PF' : Forall (pred_ok ks vs) [array_inv ks len]) by (constructor; [auto|constructor]).
    destruct (new_step s k _ r _ _ _ _ _ _ _ K X I N0 PF' H) as [g' [M' [I' [G' [O _]]]]]. auto.
  - destruct I as [NX [MI _]]. destruct (get_gstep s k SOK KOK _ r _ _ _ _ _ _ _ _ _ G0 (MI m' g0 G0) KO H HR SF) as [K' [x' [g' [GS [_ [_ [G' [OT _]]]]]]]].
    destruct (N.eq_dec m m') as [->|NE]; [|apply SAME; auto]. rewrite G in G0. injection G0 as <-.
    exists g'. split; [auto|]. split; [apply GS|]. split; [apply GS|]. rewrite (gs_invs _ _ _ _ _ _ _ GS). apply incl_refl.
  - specialize (UW _ (or_introl eq_refl)). cbn in UW. apply SAME. destruct I as [NX [MI _]].
    destruct (set_step s k SOK KOK _ r _ _ _ _ _ _ _ _ G0 (MI m' g0 G0) KO VW H HR UF SF) as [K' [x' [g' [PG [M' [G' [OT _]]]]]]].
    { eapply NO. left. reflexivity. } auto.
  - specialize (UW _ (or_introl eq_refl)). cbn in UW. apply SAME. destruct I as [NX [MI _]].
    destruct (remove_step s k SOK KOK _ r _ _ _ _ _ _ _ G0 (MI m' g0 G0) KO H HR UF SF) as [K' [x' [g' [u [PG [M' [G' [OT _]]]]]]]]. auto.
  - destruct I as [NX [MI _]].
    destruct (forall_step s k _ r _ _ _ _ _ _ _ _ G0 (MI m' g0 G0) NX PO H HR SF) as [K' [x' [g' [inv [n [PG [M' [G' [OT [LY [LE _]]]]]]]]]]].
    destruct (N.eq_dec m m') as [->|NE]; [|apply SAME; auto]. rewrite G in G0. injection G0 as <-.
    exists g'. split; [auto|]. split; [auto|]. split; [auto|]. apply PG.
  - apply SAME. auto.
  - apply SAME. auto.
Qed.

Lemma quiet_run : forall fuel r es st st' K X m g,
  run s k fuel st es st' -> INV r K X st -> holds r (gcs st') -> no_overflow r es ->
  gmaps st m = Some g -> unwritten m es -> glayers g = [] ->
  exists g' K' X', gmaps st' m = Some g' /\ INV r K' X' st' /\ glayers g' = [] /\ len_at g' 0 = len_at g 0 /\ incl (ginvs g) (ginvs g').
Proof.
  intros fuel r es st st' K X m g H. revert K X g. induction H as [st|st e st1 es st2 D UF SF R IH]; intros K X g I HR NO G UW GL.
  - exists g, K, X. auto using incl_refl.
  - apply no_overflow_cons in NO as [NO1 NO2].
    pose proof (holds_mono _ _ _ (run_mono _ _ _ _ _ _ R) HR) as HR1.
    assert (UW1 : unwritten m [e]) by (intros e' [<-|[]]; apply UW; left; auto).
    assert (UW2 : unwritten m es) by (intros e' Hin; apply UW; right; auto).
    destruct (quiet_step _ _ _ _ _ _ _ m g D I HR1 UF SF NO1 G UW1) as [g1 [G1 [F1 [L1 J1]]]].
    destruct (inv_step s k SOK KOK _ _ _ _ _ _ _ D I HR1 UF SF NO1) as [K1 [X1 I1]].
    assert (GL1 : glayers g1 = []) by (rewrite GL in F1; inversion F1; auto).
    destruct (IH K1 X1 g1 I1 HR NO2 G1 UW2 GL1) as [g2 [K2 [X2 [G2 [I2 [L2 [Z2 J2]]]]]]].
    exists g2, K2, X2. split; [auto|]. split; [auto|]. split; [auto|]. split; [congruence|]. eapply incl_tran; eauto.
Qed.

(** The state of a map just before an event, if nothing has been written to it yet. *)
Lemma before_writes : forall fuel r a1 m ks vs len invs a2 e b nin sz fin,
  2 <= nin -> run s k fuel (ginit nin sz) (a1 ++ ENew m ks vs len invs :: a2 ++ e :: b) fin -> holds r (gcs fin) ->
  no_overflow r (a1 ++ ENew m ks vs len invs :: a2 ++ e :: b) -> unwritten m a2 ->
  exists st st' g K X, does s k fuel st e st' /\ unfolded st' /\ sizes_fit st' /\ holds r (gcs st') /\
    gmaps st m = Some g /\ INV r K X st /\ glayers g = [] /\ len_at g 0 = len /\ incl invs (ginvs g).
Proof.
  intros fuel r a1 m ks vs len invs a2 e b nin sz fin NX R HR NO UW.
  apply run_app in R as [st0 [R0 R]].
  assert (NO0 : no_overflow r a1) by (intros m' key value l Hin; eapply NO; apply in_or_app; left; exact Hin).
  assert (NO2 : no_overflow r a2) by (intros m' key value l Hin; eapply NO; apply in_or_app; right; right; apply in_or_app; left; exact Hin).
  assert (HR0 : holds r (gcs st0)) by (eapply holds_mono; [eapply run_mono; exact R|auto]).
  destruct (inv_run s k SOK KOK fuel r a1 (ginit nin sz) st0 (fun _ => []) (fun _ => false) R0) as [K [X I]]; auto.
  { split; [cbn; lia|]. split; [intros m' g G; discriminate G|auto]. }
  inversion R as [|? ? st1 ? ? D UF SF R1]; subst.
  assert (N0 : gmaps st0 m = None) by (inversion D; auto).
  assert (Y : exists g', INV r K X st1 /\ gmaps st1 m = Some g' /\ glayers g' = [] /\ len_at g' 0 = len /\ ginvs g' = invs).
  { inversion D as [? ? ? ? ? ? ? Y0 PF Y|? ? ? ? ? Y0 Y|? ? ? ? ? ? Y0 PF Y| | | | | |]; subst.
    - destruct (new_step s k _ r _ _ _ _ _ _ _ K X I N0 PF Y) as [g' [M' [I' [G' [_ [L' [Z' [_ [_ J]]]]]]]]]. exists g'. auto 10.
    - assert (PF : Forall (pred_ok ks vs) [BNot PRESENT]) by (constructor; [split; reflexivity|constructor]).
      destruct (new_step s k _ r _ _ _ _ _ _ _ K X I N0 PF Y) as [g' [M' [I' [G' [_ [L' [Z' [_ [_ J]]]]]]]]]. exists g'. auto 10.
    - unfold new_array in Y. destruct (width len =? ks); [|discriminate].
      assert (PF' : Forall (pred_ok ks vs) [array_inv ks len]) by (constructor; [auto|constructor]).
      destruct (new_step s k _ r _ _ _ _ _ _ _ K X I N0 PF' Y) as [g' [M' [I' [G' [_ [L' [Z' [_ [_ J]]]]]]]]]. exists g'. auto 10. }
  destruct Y as [g [I1 [G1 [L1 [Z1 J1]]]]].
  apply run_app in R1 as [st2 [R2 R3]].
  assert (HR2 : holds r (gcs st2)) by (eapply holds_mono; [eapply run_mono; exact R3|auto]).
  destruct (quiet_run fuel r a2 st1 st2 K X m g R2 I1 HR2 NO2 G1 UW L1) as [g2 [K2 [X2 [G2 [I2 [L2 [Z2 J2]]]]]]].
  inversion R3 as [|? ? st3 ? ? D3 UF3 SF3 R4]; subst.
  exists st2, st3, g2, K2, X2. split; [auto|]. split; [auto|]. split; [auto|].
  split; [eapply holds_mono; [eapply run_mono; exact R4|auto]|]. split; [auto|]. split; [auto|]. split; [auto|]. split; [congruence|auto].
Qed.

Lemma first_reads : forall fuel es r a1 m ks vs len invs a2 key v p b inv,
  consistent s k fuel es r -> es = a1 ++ ENew m ks vs len invs :: a2 ++ EGet m key v p :: b ->
  unwritten m a2 -> In inv invs ->
  len <> BVV (width len) 0 -> eb (setKVP r (ev r key) (ev r v, eb r p)) inv = true.
Proof.
  intros fuel es r a1 m ks vs len invs a2 key v p b inv [nin [sz [fin [NX [R [HR NO]]]]]] -> UW IN NZ.
  destruct (before_writes _ _ _ _ _ _ _ _ _ _ _ _ _ _ NX R HR NO UW) as [st [st' [g [K [X [D [UF [SF [H1 [G [I [GL [LE J]]]]]]]]]]]]].
  inversion D as [| | |? ? g0 ? ? ? ? G0 KO H| | | | |]; subst. rewrite G in G0. injection G0 as <-. destruct I as [_ [MI _]].
  destruct (get_gstep s k SOK KOK _ r _ _ _ _ _ _ _ _ _ G (MI m g G) KO H H1 SF) as [K' [x' [g' [GS [_ [_ [G' [OT [_ [_ FR]]]]]]]]]].
  apply FR; auto. unfold is_definitely_empty. destruct (bv_eqb _ _) eqn:BE; [|auto]. apply bv_eqb_eq in BE. contradiction.
Qed.

Lemma first_forall : forall fuel es r a1 m ks vs w invs a2 pred t b,
  consistent s k fuel es r -> es = a1 ++ ENew m ks vs (BVV w 0) invs :: a2 ++ EForall m pred t :: b ->
  unwritten m a2 -> t = BTrue.
Proof.
  intros fuel es r a1 m ks vs w invs a2 pred t b [nin [sz [fin [NX [R [HR NO]]]]]] -> UW.
  destruct (before_writes _ _ _ _ _ _ _ _ _ _ _ _ _ _ NX R HR NO UW) as [st [st' [g [K [X [D [UF [SF [H1 [G [I [GL [LE J]]]]]]]]]]]]].
  inversion D as [| | | | | |? ? g0 ? ? ? G0 PO H| |]; subst. rewrite G in G0. injection G0 as <-.
  unfold forall_ in H. rewrite G in H. unfold is_definitely_empty in H. rewrite LE in H. cbn [width] in H.
  rewrite (proj2 (bv_eqb_eq _ _) eq_refl) in H. injection H as _ <-. reflexivity.
Qed.

(** Arrays. *)
Lemma array_reads : forall fuel es r a1 m ks vs len a2 key v p b,
  consistent s k fuel es r -> es = a1 ++ ENew m ks vs len [array_inv ks len] :: a2 ++ EGet m key v p :: b ->
  unwritten m a2 -> width len = ks -> width key = ks ->
  (forall w x, In (x, w) (vvars len) -> 2 <= x) -> (forall x, In x (vbools len) -> 1 <= x) ->
  eb r p = (ev r key <? ev r len).
Proof.
  intros fuel es r a1 m ks vs len a2 key v p b H E UW WL WK V1 V2.
  assert (SAMELEN : forall q vp, ev (setKVP r q vp) len = ev r len).
  { intros q vp. apply evalv_agree. split.
    - intros x w Hx. specialize (V1 w x Hx). cbn [setKVP ebv]. destruct (N.eqb_spec x 0); [lia|]. destruct (N.eqb_spec x 1); [lia|]. reflexivity.
    - intros x Hx. specialize (V2 x Hx). cbn [setKVP ebool]. destruct (N.eqb_spec x 0); [lia|]. reflexivity. }
  destruct (bv_eqb len (BVV (width len) 0)) eqn:BE.
  - apply bv_eqb_eq in BE.
    destruct H as [nin [sz [fin [NX [R [HR NO]]]]]]. subst es.
    destruct (before_writes _ _ _ _ _ _ _ _ _ _ _ _ _ _ NX R HR NO UW) as [st [st' [g [K [X [D [UF [SF [H1 [G [I [GL [LE J]]]]]]]]]]]]].
    inversion D as [| | |? ? g0 ? ? ? ? G0 KO HG| | | | |]; subst. rewrite G in G0. injection G0 as <-.
    destruct fuel as [|fuel]; [discriminate HG|]. cbn [get] in HG. rewrite G in HG. cbn [skip_of] in HG.
    unfold is_definitely_empty in HG. rewrite (proj2 (bv_eqb_eq _ _) BE) in HG.
    injection HG as _ _ <-. rewrite BE. cbn [evalb evalv]. rewrite wrap_0. symmetry. apply N.ltb_ge. lia.
  - assert (NZ : len <> BVV (width len) 0) by (intros X; apply bv_eqb_eq in X; congruence).
    pose proof (first_reads _ _ _ _ _ _ _ _ _ _ _ _ _ _ _ H E UW (or_introl eq_refl) NZ) as F.
    unfold array_inv in F. cbn [evalb] in F. apply eqb_prop in F. rewrite SAMELEN in F.
    cbn [KEY PRESENT evalv evalb setKVP ebv ebool N.eqb] in F. rewrite wrap_small in F by (rewrite <- WK; apply evalv_lt). auto.
Qed.
End Use.
