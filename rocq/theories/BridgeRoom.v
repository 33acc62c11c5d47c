(** * What the bridge knows when there is room for all stations (nf/bridge) *)

From Coq Require Import NArith List Bool Lia Arith.
From Verif Require Import IndexPool HashMap Table Firewall Packet TimedSet Bridge.
Import ListNotations.
Open Scope nat_scope.

Section Room.
Variable cap : nat.
Variable exp : N.
Variable who : list N.
Hypothesis Hwho : length who <= cap.

(** The stations that tell where they are in [h] are among [who], and have 48-bit addresses. *)
Definition stations (h : list bevent) : Prop :=
  forall e, In e h -> tells e = true -> In (src_mac (ev_frame e)) who /\ (src_mac (ev_frame e) < 2 ^ 48)%N.

Lemma learned_in : forall h, stations h -> NoDup (map fst (learned cap exp h)) /\ incl (map fst (learned cap exp h)) (map mac who).
Proof.
  induction h as [|e h IH]; intros H; [split; [constructor|intros x []]|].
  destruct (IH (fun e' He => H e' (or_intror He))) as [D W]. cbn [learned]. destruct (tells e) eqn:T; [|auto].
  destruct (H e (or_introl eq_refl) T) as [Hw _]. unfold kuse.
  assert (FD : forall (g : bytes * N -> bool) l, NoDup (map fst l) -> NoDup (map fst (filter g l))) by (intros; apply NoDup_map_filter; assumption).
  assert (FI : forall (g : bytes * N -> bool) l, incl (map fst l) (map mac who) -> incl (map fst (filter g l)) (map mac who)).
  { intros g l Hl k Hk. apply in_map_iff in Hk as (x & <- & Hin). apply filter_In in Hin as [Hin _]. apply Hl. apply in_map_iff. eauto. }
  destruct (_ || _); [|auto]. unfold ktouch. cbn [map fst]. split.
  - constructor; [|auto]. intros Hin. apply in_map_iff in Hin as ([k t] & E & Hin). cbn in E. subst k. apply filter_In in Hin as [_ Hin].
    cbn in Hin. rewrite (proj2 (beqb_eq _ _) eq_refl) in Hin. discriminate.
  - intros x [<-|Hx]; [apply (in_map mac); exact Hw|]. revert Hx. apply FI, FI. exact W.
Qed.

Lemma has_room : forall a l, NoDup (map fst l) -> incl (map fst l) (map mac who) -> In a who -> khas (mac a) l || (length l <? cap) = true.
Proof.
  intros a l D W Ha. destruct (khas (mac a) l) eqn:K; [reflexivity|]. cbn. apply Nat.ltb_lt.
  assert (N : ~ In (mac a) (map fst l)).
  { intros Hin. apply in_map_iff in Hin as ([k t] & E & Hin). cbn in E. subst k. assert (khas (mac a) l = true) by (apply khas_In; eauto). congruence. }
  assert (Q : length (mac a :: map fst l) <= length (map mac who)).
  { apply NoDup_incl_length; [constructor; assumption|]. intros k [<-|Hk]; [apply in_map; exact Ha|apply W; exact Hk]. }
  cbn in Q. rewrite !map_length in Q. lia.
Qed.

(** With room for all, an address is known exactly when it was heard of not long ago. *)
Lemma knows_room : forall h T a now, stations h -> in_order T h -> (T <= now)%N -> (a < 2 ^ 48)%N ->
  (knows cap exp a now h = true <->
   exists e, In e h /\ tells e = true /\ src_mac (ev_frame e) = a /\ (now <= r_time (ev_frame e) + exp)%N).
Proof.
  unfold knows. induction h as [|e h IH]; intros T a now H O Hn Ha.
  - cbn. split; [discriminate|]. intros (e & [] & _).
  - destruct O as [O1 O2]. assert (H' : stations h) by (intros e' He; apply H; right; exact He).
    assert (Hn' : (r_time (ev_frame e) <= now)%N) by lia. specialize (IH _ a now H' O2 Hn' Ha).
    assert (X : (exists e0, In e0 (e :: h) /\ tells e0 = true /\ src_mac (ev_frame e0) = a /\ (now <= r_time (ev_frame e0) + exp)%N) <->
                (tells e = true /\ src_mac (ev_frame e) = a /\ (now <= r_time (ev_frame e) + exp)%N) \/ khas (mac a) (filter (kalive exp now) (learned cap exp h)) = true).
    { rewrite IH. split; [intros (e0 & [<-|Hin] & Q); [left; exact Q|right; eauto]|]. intros [Q|(e0 & Hin & Q)]; [exists e|exists e0]; (split; [cbn; auto|exact Q]). }
    rewrite X. clear X IH. cbn [learned]. destruct (tells e) eqn:T1.
    2:{ split; [auto|]. intros [(Q & _)|Q]; [discriminate|exact Q]. }
    destruct (H e (or_introl eq_refl) T1) as [Hw Hl]. destruct (learned_in h H') as [D W]. set (t := r_time (ev_frame e)) in *. set (s := src_mac (ev_frame e)) in *.
    assert (Old : forall u, In (mac a, u) (filter (kalive exp now) (learned cap exp h)) -> In (mac a, u) (filter (kalive exp t) (learned cap exp h))).
    { intros u Hin. apply filter_In in Hin as [Hin A]. apply filter_In. split; [exact Hin|]. unfold kalive in *. cbn in *. apply N.leb_le in A. apply N.leb_le. lia. }
    unfold kuse. rewrite has_room; [|apply NoDup_map_filter; exact D| |exact Hw].
    2:{ intros k Hk. apply in_map_iff in Hk as (x & <- & Hin). apply filter_In in Hin as [Hin _]. apply W. apply in_map_iff. eauto. }
    rewrite !khas_In. split.
    + intros [u Hin]. apply filter_In in Hin as [[Q|Hin] A].
      * apply pair_equal_spec in Q as [Q <-]. left. split; [reflexivity|]. split; [apply mac_inj; assumption|]. unfold kalive in A. cbn in A. apply N.leb_le in A. exact A.
      * right. exists u. apply filter_In in Hin as [Hin _]. apply filter_In in Hin as [Hin _]. apply filter_In. auto.
    + intros [(_ & Q & Hy)|[u Hin]].
      * exists t. apply filter_In. split; [left; congruence|]. apply N.leb_le. exact Hy.
      * destruct (N.eq_dec s a) as [Q|Q].
        -- exists t. apply filter_In. split; [left; congruence|]. apply N.leb_le. cbn.
           apply filter_In in Hin as [Hin A]. unfold kalive in A. cbn in A. apply N.leb_le in A.
           assert (Hu : (u <= t)%N); [|lia]. clear -Hin O2 . revert Hin O2. generalize t. induction h as [|e' h IH]; intros t0 Hin O2; [destruct Hin|].
           destruct O2 as [O2 O3]. cbn [learned] in Hin. destruct (tells e'); [|specialize (IH _ Hin O3); lia]. unfold kuse in Hin. destruct (_ || _).
           ++ destruct Hin as [Q|Hin]; [apply pair_equal_spec in Q as [_ <-]; exact O2|]. apply filter_In in Hin as [Hin _]. apply filter_In in Hin as [Hin _]. specialize (IH _ Hin O3). lia.
           ++ apply filter_In in Hin as [Hin _]. specialize (IH _ Hin O3). lia.
        -- exists u. apply filter_In. split; [|apply filter_In in Hin; tauto]. right. apply filter_In. split; [apply Old; exact Hin|].
           cbn [fst]. destruct (beqb (mac s) (mac a)) eqn:B; [|reflexivity]. apply beqb_eq in B. apply mac_inj in B; [contradiction|assumption|assumption].
Qed.
End Room.
