(** * Flows through the firewall do not disturb each other (nf/firewall) *)

From Coq Require Import NArith List Bool Lia Arith.
From Verif Require Import IndexPool HashMap Table Firewall TimedSet PolicerExact.
Import ListNotations.
Open Scope nat_scope.

Section Apart.
Variable external : N.
Variable exp : N.
Variable cap : nat.
Variable who : list flow.
Hypothesis Hwho : length who <= cap.

(** The flow from inside that a packet belongs to, in either direction; firewall.c 33-58. *)
Definition inner_flow (p : pkt) : flow := if (p_device p =? external)%N then pkt_rev_flow p else pkt_flow p.
(** The packets that belong to the flow [f]. *)
Definition of_flow (f : flow) (p : pkt) : bool := is_ipv4 p && is_tcpudp p && flow_eqb f (inner_flow p).

Notation step := (fw_spec external exp cap).
Notation live t S := (filter (alive exp t) S).

Lemma has_In : forall f S, has f S = true <-> exists t, In (f, t) S.
Proof.
  intros f S. unfold has. rewrite existsb_exists. split.
  - intros ([g t] & Hin & E). cbn in E. apply flow_eqb_eq in E. subst g. eauto.
  - intros [t Hin]. exists (f, t). split; [exact Hin|]. apply flow_eqb_eq. reflexivity.
Qed.

Definition fw_wf (S : list (flow * N)) : Prop := NoDup (map fst S) /\ incl (map fst S) who.
Lemma filter_ok : forall g S, fw_wf S -> fw_wf (filter g S).
Proof.
  intros g S [D W]. split; [apply NoDup_map_filter; exact D|]. intros f Hf. apply in_map_iff in Hf as (e & <- & Hin).
  apply filter_In in Hin as [Hin _]. apply W. apply in_map_iff. eauto.
Qed.
Lemma touch_ok : forall f t S, In f who -> fw_wf S -> fw_wf (touch f t S).
Proof.
  intros f t S Hf H. pose proof (filter_ok (fun e => negb (flow_eqb f (fst e))) S H) as [D W]. unfold touch. split; cbn [map fst].
  - constructor; [|exact D]. intros Hin. apply in_map_iff in Hin as ([g u] & E & Hin). cbn in E. subst g. apply filter_In in Hin as [_ Hin].
    cbn in Hin. rewrite (proj2 (flow_eqb_eq f f) eq_refl) in Hin. discriminate.
  - intros g [<-|Hg]; [exact Hf|apply W; exact Hg].
Qed.
Lemma room : forall f S, fw_wf S -> In f who -> has f S || (length S <? cap) = true.
Proof.
  intros f S [D W] Hf. destruct (has f S) eqn:K; [reflexivity|]. cbn. apply Nat.ltb_lt.
  assert (N : ~ In f (map fst S)).
  { intros Hin. apply in_map_iff in Hin as ([k t] & E & Hin). cbn in E. subst k. assert (has f S = true) by (apply has_In; eauto). congruence. }
  assert (Q : length (f :: map fst S) <= length who).
  { apply NoDup_incl_length; [constructor; assumption|]. intros k [<-|Hk]; [exact Hf|apply W; exact Hk]. }
  cbn in Q. rewrite map_length in Q. lia.
Qed.

Lemma has_touch : forall f g t now S, has f (live now (touch g t S)) = if flow_eqb f g then alive exp now (g, t) else has f (live now S).
Proof.
  intros f g t now S. apply eq_true_iff_eq. rewrite has_In. destruct (flow_eqb f g) eqn:E.
  - apply flow_eqb_eq in E. subst g. split.
    + intros [u Hin]. apply filter_In in Hin as [[Q|Hin] A]; [injection Q as <-; exact A|]. apply filter_In in Hin as [_ Hin].
      cbn in Hin. rewrite (proj2 (flow_eqb_eq f f) eq_refl) in Hin. discriminate.
    + intros A. exists t. apply filter_In. split; [left; reflexivity|exact A].
  - rewrite has_In. assert (Ne : g <> f) by (intros ->; rewrite (proj2 (flow_eqb_eq f f) eq_refl) in E; discriminate).
    split; intros [u Hin]; exists u; apply filter_In in Hin as [Hin A]; apply filter_In; (split; [|exact A]).
    + destruct Hin as [Q|Hin]; [congruence|]. apply filter_In in Hin. tauto.
    + right. apply filter_In. split; [exact Hin|]. cbn. destruct (flow_eqb g f) eqn:F; [|reflexivity]. apply flow_eqb_eq in F. contradiction.
Qed.
Lemma has_later : forall f now t S, (t <= now)%N -> has f (live now (live t S)) = has f (live now S).
Proof.
  intros f now t S H. apply eq_true_iff_eq. rewrite !has_In. split; intros [u Hin]; exists u; rewrite !filter_In in *; [tauto|].
  destruct Hin as [Hin A]. repeat split; try assumption. unfold alive in *. cbn in *. apply N.leb_le in A. apply N.leb_le. lia.
Qed.

(** The packets from inside belong to the given flows. *)
Definition within (p : pkt) : Prop := is_ipv4 p && is_tcpudp p = true -> p_device p <> external -> In (pkt_flow p) who.

Lemma step_ok : forall S p, within p -> fw_wf S -> fw_wf (snd (step S p)).
Proof.
  intros S p Hp W. unfold fw_spec. cbv zeta. pose proof (filter_ok (alive exp (p_time p)) S W) as W'. unfold within in Hp.
  destruct (is_ipv4 p && is_tcpudp p); cbn [negb]; [|exact W]. destruct (N.eqb_spec (p_device p) external) as [Ex|Ex].
  - destruct (has (pkt_rev_flow p) (live (p_time p) S)) eqn:K; [|exact W']. apply touch_ok; [|exact W'].
    apply has_In in K as [t K]. destruct W' as [_ W']. apply W'. apply in_map_iff. exists (pkt_rev_flow p, t). auto.
  - cbn [snd]. destruct (_ || _); [apply touch_ok; auto|exact W'].
Qed.

Definition same_for (f : flow) (T : N) (S S' : list (flow * N)) : Prop :=
  forall now, (T <= now)%N -> has f (live now S) = has f (live now S').

Lemma step_other : forall f S p, of_flow f p = false -> same_for f (p_time p) (snd (step S p)) S.
Proof.
  intros f S p Hp now Hn. unfold of_flow, inner_flow in Hp. unfold fw_spec. cbv zeta.
  destruct (is_ipv4 p && is_tcpudp p); cbn [negb andb] in *; [|reflexivity]. destruct (p_device p =? external)%N.
  - destruct (has (pkt_rev_flow p) _); cbn [snd]; [|apply has_later; exact Hn]. rewrite has_touch, Hp. apply has_later. exact Hn.
  - cbn [snd]. destruct (_ || _); [|apply has_later; exact Hn]. rewrite has_touch, Hp. apply has_later. exact Hn.
Qed.
Lemma step_same : forall f S S' p, of_flow f p = true -> within p -> fw_wf S -> fw_wf S' -> same_for f (p_time p) S S' ->
  fst (step S p) = fst (step S' p) /\ same_for f (p_time p) (snd (step S p)) (snd (step S' p)).
Proof.
  intros f S S' p Hp Hin W W' A. unfold of_flow, inner_flow in Hp. unfold fw_spec, within in *. cbv zeta. apply andb_true_iff in Hp as [H1 H2].
  rewrite H1 in *. cbn [negb]. specialize (Hin eq_refl). pose proof (A (p_time p) (N.le_refl _)) as K.
  destruct (N.eqb_spec (p_device p) external) as [Ex|Ex]; apply flow_eqb_eq in H2; rewrite <- H2 in *.
  - rewrite <- K. destruct (has f (live (p_time p) S)); (split; [reflexivity|]); intros now Hn; cbn [snd].
    + rewrite !has_touch, (proj2 (flow_eqb_eq f f) eq_refl). reflexivity.
    + rewrite !has_later by exact Hn. apply A. exact Hn.
  - rewrite (room f _ (filter_ok (alive exp (p_time p)) S W) (Hin Ex)), (room f _ (filter_ok (alive exp (p_time p)) S' W') (Hin Ex)).
    split; [reflexivity|]. intros now Hn. cbn [snd]. rewrite !has_touch, (proj2 (flow_eqb_eq f f) eq_refl). reflexivity.
Qed.

Lemma fw_apart : forall f ps T S S', ordered T ps -> (forall p, In p ps -> within p) -> fw_wf S -> fw_wf S' -> same_for f T S S' ->
  fates (of_flow f) ps (fst (fw_spec_run external exp cap S ps)) = fst (fw_spec_run external exp cap S' (filter (of_flow f) ps)).
Proof.
  intros f. induction ps as [|p ps IH]; intros T S S' O Hw W W' A; [reflexivity|]. destruct O as [O1 O2].
  assert (A' : same_for f (p_time p) S S') by (intros now Hn; apply A; lia).
  assert (Wp : within p) by (apply Hw; left; reflexivity). assert (Wq : forall q, In q ps -> within q) by (intros q Hq; apply Hw; right; exact Hq).
  pose proof (step_ok S p Wp W) as S1. pose proof (step_other f S p) as SO. pose proof (step_same f S S' p) as SS. pose proof (step_ok S' p Wp W') as S2.
  cbn [fw_spec_run filter]. destruct (step S p) as [o S3] eqn:E. destruct (of_flow f p) eqn:F.
  - cbn [fw_spec_run]. destruct (step S' p) as [o' S3'] eqn:E'. cbn [fst snd] in *. destruct (SS eq_refl Wp W W' A') as [-> A2].
    specialize (IH _ S3 S3' O2 Wq S1 S2 A2). destruct (fw_spec_run external exp cap S3 ps) as [os S4]. destruct (fw_spec_run external exp cap S3' _) as [os' S4'].
    cbn [fst fates] in *. rewrite F. congruence.
  - cbn [fst snd] in *. specialize (SO eq_refl). assert (A2 : same_for f (p_time p) S3 S') by (intros now Hn; rewrite SO by exact Hn; apply A'; exact Hn).
    specialize (IH _ S3 S' O2 Wq S1 W' A2). destruct (fw_spec_run external exp cap S3 ps) as [os S4]. cbn [fst fates] in *. rewrite F. exact IH.
Qed.

(** ** When replies come in *)
Definition keeps (f : flow) (now : N) (e : pkt * option N) : Prop :=
  of_flow f (fst e) = true /\ snd e <> None /\ (now <= p_time (fst e) + exp)%N.
Definition tracks (T : N) (S : list (flow * N)) (h : list (pkt * option N)) : Prop :=
  forall f now, (T <= now)%N -> (has f (live now S) = true <-> exists e, In e h /\ keeps f now e).

Lemma step_tracks : forall T S h p, (T <= p_time p)%N -> within p -> fw_wf S -> tracks T S h ->
  (forall e, In e h -> (p_time (fst e) <= T)%N) ->
  tracks (p_time p) (snd (step S p)) (h ++ [(p, fst (step S p))]).
Proof.
  intros T S h p HT Hp W H Hh f now Hn.
  assert (X : (exists e, In e (h ++ [(p, fst (step S p))]) /\ keeps f now e) <-> has f (live now S) = true \/ keeps f now (p, fst (step S p))).
  { rewrite (H f now) by lia. split.
    - intros (e & Hin & K). apply in_app_iff in Hin as [Hin|[<-|[]]]; eauto.
    - intros [(e & Hin & K)|K]; [exists e|exists (p, fst (step S p))]; (split; [apply in_app_iff; cbn; auto|exact K]). }
  rewrite X. clear X. destruct (of_flow f p) eqn:F.
  - unfold keeps. cbn [fst snd]. rewrite F. unfold of_flow, inner_flow in F. apply andb_true_iff in F as [H1 H2].
    unfold fw_spec, within in *. cbv zeta. rewrite H1 in *. cbn [negb]. specialize (Hp eq_refl).
    assert (Mono : has f (live now S) = true -> has f (live (p_time p) S) = true /\ (now <= p_time p + exp)%N).
    { intros K. split.
      - apply has_In in K as [t K]. apply has_In. exists t. apply filter_In in K as [K A]. apply filter_In. split; [exact K|].
        unfold alive in *. apply N.leb_le in A. apply N.leb_le. lia.
      - apply (H f now) in K; [|lia]. destruct K as (e & Hin & _ & _ & K). pose proof (Hh e Hin). lia. }
    destruct (N.eqb_spec (p_device p) external) as [Ex|Ex]; apply flow_eqb_eq in H2; rewrite <- H2 in *.
    + destruct (has f (live (p_time p) S)) eqn:K; cbn [fst snd].
      * rewrite has_touch, (proj2 (flow_eqb_eq f f) eq_refl). unfold alive. cbn [snd]. rewrite N.leb_le. split.
        -- intros Q. right. repeat split; [discriminate|exact Q].
        -- intros [Q|(_ & _ & Q)]; [apply Mono; exact Q|exact Q].
      * rewrite has_later by exact Hn. split; [auto|]. intros [Q|(_ & Q & _)]; [exact Q|congruence].
    + cbn [fst snd]. rewrite (room f _ (filter_ok (alive exp (p_time p)) S W) (Hp Ex)), has_touch, (proj2 (flow_eqb_eq f f) eq_refl).
      unfold alive. cbn [snd]. rewrite N.leb_le. split.
      * intros Q. right. repeat split; [discriminate|exact Q].
      * intros [Q|(_ & _ & Q)]; [apply Mono; exact Q|exact Q].
  - rewrite (step_other f S p F now Hn). split; [auto|]. intros [Q|(Q & _)]; [exact Q|]. cbn in Q. congruence.
Qed.
Lemma run_tracks : forall ps p T S h, ordered T (ps ++ [p]) -> (forall q, In q ps -> within q) -> fw_wf S -> tracks T S h ->
  (forall e, In e h -> (p_time (fst e) <= T)%N) ->
  forall f, has f (live (p_time p) (snd (fw_spec_run external exp cap S ps))) = true <->
            exists e, In e (h ++ combine ps (fst (fw_spec_run external exp cap S ps))) /\ keeps f (p_time p) e.
Proof.
  induction ps as [|q ps IH]; intros p T S h O Hw W H Hh f.
  - cbn. rewrite app_nil_r. apply H. apply O.
  - destruct O as [O1 O2]. assert (Wq : within q) by (apply Hw; left; reflexivity).
    pose proof (step_ok S q Wq W) as W2. pose proof (step_tracks T S h q O1 Wq W H Hh) as H2. cbn [fw_spec_run].
    destruct (step S q) as [o S1]. cbn [fst snd] in *.
    assert (Hh2 : forall e, In e (h ++ [(q, o)]) -> (p_time (fst e) <= p_time q)%N).
    { intros e Hin. apply in_app_iff in Hin as [Hin|[<-|[]]]; [pose proof (Hh e Hin); lia|cbn; lia]. }
    specialize (IH p (p_time q) S1 (h ++ [(q, o)]) O2 (fun r Hr => Hw r (or_intror Hr)) W2 H2 Hh2 f).
    destruct (fw_spec_run external exp cap S1 ps) as [os S2]. cbn [fst snd combine] in *. rewrite <- app_assoc in IH. exact IH.
Qed.
Lemma spec_run_last : forall ps p S, fst (fw_spec_run external exp cap S (ps ++ [p])) =
  fst (fw_spec_run external exp cap S ps) ++ [fst (step (snd (fw_spec_run external exp cap S ps)) p)].
Proof.
  induction ps as [|q ps IH]; intros p S; cbn [fw_spec_run app].
  - cbn [fst snd app]. destruct (step S p). reflexivity.
  - destruct (step S q) as [o S1]. specialize (IH p S1). destruct (fw_spec_run external exp cap S1 (ps ++ [p])). destruct (fw_spec_run external exp cap S1 ps).
    cbn [fst snd app] in *. congruence.
Qed.
End Apart.
