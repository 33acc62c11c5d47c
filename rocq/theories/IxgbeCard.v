(** * The driver on a card that keeps what is written to it *)

From Coq Require Import NArith List Bool Lia Arith.
From Verif Require Import Ixgbe IxgbeFacts IxgbeInit.
Import ListNotations.
Open Scope N_scope.

(** What every register holds. *)
Definition memory := loc -> N.
(** A card whose registers hold [m] at first and then what was last written; [phys] are the
    physical addresses of the agent's memory. *)
Definition held (phys : object -> N) (vw : view) (e : event) : Prop :=
  match e with ERead l v => vw l = Some v | EPhys x v => v = phys x | _ => True end.
Definition holding (m : memory) : view := fun l => Some (m l).

(** ** Writes as a list of fields *)

(** Register, first bit, last bit, value. *)
Definition setting := (N * N * N * N)%type.
Definition put (dev : N) (m : memory) (x : setting) : memory :=
  match x with (r, s, e, v) => fun l => if loc_eqb (Mmio dev r) l then field_write (m l) (BITS s e) v else m l end.
Definition puts (dev : N) (xs : list setting) (m : memory) : memory := fold_left (put dev) xs m.
Definition good (x : setting) : Prop := match x with (r, s, e, v) => s <= e <= 31 /\ v < 2 ^ (e + 1 - s) end.
Definition small (m : memory) : Prop := forall l, m l < 2 ^ 32.

Lemma put_small : forall dev m x, good x -> small m -> small (put dev m x).
Proof. intros dev m [[[r s] e] v] (H1 & H2) S l. cbn [put]. destruct (loc_eqb _ _); [apply field_write_lt; auto|apply S]. Qed.
Lemma puts_small : forall dev xs m, Forall good xs -> small m -> small (puts dev xs m).
Proof.
  induction xs as [|x xs IH]; intros m F S; [exact S|]. inversion F; subst. cbn [puts fold_left]. apply IH; [assumption|]. apply put_small; assumption.
Qed.
Lemma puts_app : forall dev xs ys m, puts dev (xs ++ ys) m = puts dev ys (puts dev xs m).
Proof. intros. apply fold_left_app. Qed.
Lemma puts_other : forall dev xs m l, (forall x, In x xs -> Mmio dev (fst (fst (fst x))) <> l) -> puts dev xs m l = m l.
Proof.
  induction xs as [|[[[r s] e] v] xs IH]; intros m l H; [reflexivity|]. cbn [puts fold_left]. fold (puts dev xs (put dev m (r, s, e, v))).
  rewrite IH by (intros x Hx; apply H; right; exact Hx). cbn [put]. destruct (loc_eqb (Mmio dev r) l) eqn:E; [|reflexivity].
  apply loc_eqb_eq in E. exfalso. apply (H (r, s, e, v) (or_introl eq_refl)). exact E.
Qed.

(** A setting leaves bits [s'] to [e'] of register [r'] alone, or gives them the value [v']. *)
Definition leaves (r' s' e' v' : N) (x : setting) : Prop :=
  match x with (r, s, e, v) => r <> r' \/ e < s' \/ e' < s \/ (s <= s' /\ e' <= e /\ bits v (s' - s) (e' - s) = v') end.
Definition gives (r' s' e' v' : N) (x : setting) : Prop :=
  match x with (r, s, e, v) => r = r' /\ s <= s' /\ e' <= e /\ bits v (s' - s) (e' - s) = v' end.
Lemma bits_write_part : forall o s e v s' e', s <= e <= 31 -> o < 2 ^ 32 -> v < 2 ^ (e + 1 - s) -> s <= s' -> s' <= e' -> e' <= e ->
  bits (field_write o (BITS s e) v) s' e' = bits v (s' - s) (e' - s).
Proof.
  intros o s e v s' e' H Ho Hv H1 H2 H3. apply N.bits_inj. intros b. rewrite !testbit_bits.
  replace (e' - s + 1 - (s' - s)) with (e' + 1 - s') by lia. destruct (N.ltb_spec b (e' + 1 - s')) as [C|C]; [|reflexivity]. cbn [andb].
  rewrite testbit_field_write by assumption. rewrite (proj2 (N.leb_le s (b + s'))), (proj2 (N.leb_le (b + s') e)) by lia. cbn [andb]. f_equal. lia.
Qed.
Lemma put_leaves : forall dev m x r' s' e' v', good x -> small m -> s' <= e' -> leaves r' s' e' v' x -> bits (m (Mmio dev r')) s' e' = v' ->
  bits (put dev m x (Mmio dev r')) s' e' = v'.
Proof.
  intros dev m [[[r s] e] v] r' s' e' v' (G1 & G2) Sm Hs L B. cbn [put]. destruct (loc_eqb (Mmio dev r) (Mmio dev r')) eqn:E; [|exact B].
  apply loc_eqb_eq in E. injection E as ->. destruct L as [L|[L|[L|(L1 & L2 & L3)]]].
  - contradiction.
  - rewrite bits_write_other by (auto || lia). exact B.
  - rewrite bits_write_other by (auto || lia). exact B.
  - rewrite bits_write_part by auto. exact L3.
Qed.
Lemma put_gives : forall dev m x r' s' e' v', good x -> small m -> s' <= e' -> gives r' s' e' v' x -> bits (put dev m x (Mmio dev r')) s' e' = v'.
Proof.
  intros dev m [[[r s] e] v] r' s' e' v' (G1 & G2) Sm Hs (-> & L1 & L2 & L3). cbn [put].
  rewrite (proj2 (loc_eqb_eq _ _) eq_refl). rewrite bits_write_part by auto. exact L3.
Qed.
Lemma puts_leaves : forall dev xs m r' s' e' v', Forall good xs -> small m -> s' <= e' -> Forall (leaves r' s' e' v') xs -> bits (m (Mmio dev r')) s' e' = v' ->
  bits (puts dev xs m (Mmio dev r')) s' e' = v'.
Proof.
  induction xs as [|x xs IH]; intros m r' s' e' v' G Sm Hs L B; [exact B|]. inversion G; inversion L; subst. cbn [puts fold_left].
  apply IH; try assumption; [apply put_small; assumption|apply put_leaves; auto].
Qed.
(** A field after a list of settings: some setting gives it its value, and those after it
    leave it or give it the same. *)
Fixpoint settled (r' s' e' v' : N) (xs : list setting) : Prop :=
  match xs with [] => False | x :: xs => settled r' s' e' v' xs \/ (gives r' s' e' v' x /\ Forall (leaves r' s' e' v') xs) end.
Lemma puts_settled : forall dev xs m r' s' e' v', Forall good xs -> small m -> s' <= e' -> settled r' s' e' v' xs ->
  bits (puts dev xs m (Mmio dev r')) s' e' = v'.
Proof.
  induction xs as [|x xs IH]; intros m r' s' e' v' G Sm Hs X; [contradiction|]. inversion G; subst. cbn [puts fold_left].
  destruct X as [X|[X L]].
  - apply IH; try assumption. apply put_small; assumption.
  - apply puts_leaves; try assumption; [apply put_small; assumption|apply put_gives; assumption].
Qed.

(** ** Programs that succeed *)

(** Executions from a view, whose answers satisfy [any], end without a fatal error. *)
Fixpoint surely {A} (any : view -> event -> Prop) (p : prog A) (vw : view) (Q : A -> view -> Prop) : Prop :=
  match p with
  | Ret a => Q a vw
  | Fatal => False
  | Read l k => forall v, v < 2 ^ 32 -> any vw (ERead l v) -> surely any (k v) (upd vw l v) Q
  | Write l v k => surely any k (upd vw l v) Q
  | Sleep _ k => surely any k vw Q
  | Map _ _ _ k => surely any k vw Q
  | Phys x k => forall v, v < 2 ^ 64 -> any vw (EPhys x v) -> surely any (k v) vw Q
  end.
Lemma along_cons : forall P vw e tr, along P vw (e :: tr) -> P vw e /\ along P (see vw e) tr.
Proof. intros P vw e tr H. split; [exact (H [] e tr eq_refl)|]. intros p e' q ->. exact (H (e :: p) e' q eq_refl). Qed.
Lemma surely_sound : forall any A (p : prog A) tr o, runs p tr o -> forall vw Q, surely any p vw Q -> along any vw tr ->
  exists a, o = Some a /\ Q a (view_after vw tr).
Proof.
  intros any A p tr o H. induction H as [a| |l k v tr o Hv H IH|l v k tr o H IH|ns k tr o H IH|d ph s k tr o H IH|x k v tr o Hv H IH];
    intros vw Q S HA; cbn [surely] in S; try (apply along_cons in HA as [HA HB]).
  - exists a. split; [reflexivity|exact S].
  - contradiction.
  - apply (IH (upd vw l v)); [apply S; assumption|exact HB].
  - apply (IH (upd vw l v)); assumption.
  - apply (IH vw); assumption.
  - apply (IH vw); assumption.
  - apply (IH vw); [apply S; assumption|exact HB].
Qed.
Lemma surely_mono : forall any A (p : prog A) vw (Q Q' : A -> view -> Prop), (forall a w, Q a w -> Q' a w) -> surely any p vw Q -> surely any p vw Q'.
Proof. induction p as [a| |l k IH|l v k IH|ns k IH|d ph s k IH|x k IH]; intros vw Q Q' H S; cbn [surely] in *; eauto. Qed.
Lemma surely_then : forall any A B (p : prog A) (f : A -> prog B) vw Q R, surely any p vw R -> (forall a w, R a w -> surely any (f a) w Q) -> surely any (bind p f) vw Q.
Proof. induction p as [a| |l k IH|l v k IH|ns k IH|d ph s k IH|x k IH]; intros f vw Q R S H; cbn [surely bind] in *; eauto. Qed.

(** ** Programs that write a list of fields *)
Section Does.
Variable phys : object -> N.
Variable dev : N.
(** What the card has to hold for the program to go through. *)
Variable ready : memory -> Prop.
Variable harmless : setting -> Prop.
Hypothesis ready_put : forall m x, ready m -> small m -> good x -> harmless x -> ready (put dev m x).
Definition agree (w : view) (m : memory) : Prop := forall l, w l = Some (m l).
Definition fits (xs : list setting) : Prop := Forall (fun x => good x /\ harmless x) xs.
Definition does {A} (p : prog A) (Q : A -> list setting -> Prop) : Prop :=
  forall w m, agree w m -> small m -> ready m -> surely (held phys) p w (fun a w' => exists xs, Q a xs /\ fits xs /\ agree w' (puts dev xs m)).

Lemma ready_puts : forall xs m, fits xs -> small m -> ready m -> ready (puts dev xs m).
Proof.
  induction xs as [|x xs IH]; intros m F S R; [exact R|]. inversion F as [|y ys [G H] F']; subst. cbn [puts fold_left]. apply IH; [exact F'|apply put_small; assumption|].
  apply ready_put; assumption.
Qed.
Lemma fits_good : forall xs, fits xs -> Forall good xs.
Proof. intros xs F. eapply Forall_impl; [|exact F]. intros x [H _]. exact H. Qed.
Lemma agree_upd : forall w m l v, agree w m -> m l = v -> agree (upd w l v) m.
Proof. intros w m l v H E l'. unfold upd. destruct (loc_eqb l l') eqn:D; [apply loc_eqb_eq in D; subst; reflexivity|apply H]. Qed.

Lemma does_ret : forall A (a : A), does (Ret a) (fun b xs => b = a /\ xs = []).
Proof. intros A a w m H S R. cbn [surely]. exists []. repeat split; [constructor|exact H]. Qed.
Lemma does_bind : forall A B (p : prog A) (f : A -> prog B) Q1 Q2, does p Q1 -> (forall a, does (f a) (Q2 a)) ->
  does (bind p f) (fun b zs => exists a xs ys, Q1 a xs /\ Q2 a b ys /\ zs = xs ++ ys).
Proof.
  intros A B p f Q1 Q2 H1 H2 w m Hw S R. eapply surely_then; [apply (H1 w m Hw S R)|]. intros a w' (xs & q1 & F1 & A1).
  eapply surely_mono; [|apply (H2 a w' (puts dev xs m) A1); [apply puts_small; [apply fits_good; exact F1|exact S]|apply ready_puts; assumption]].
  intros b w'' (ys & q2 & F2 & A2). exists (xs ++ ys). split; [exists a, xs, ys; auto|]. split; [apply Forall_app; auto|]. rewrite puts_app. exact A2.
Qed.
Lemma does_weak : forall A (p : prog A) (Q Q' : A -> list setting -> Prop), (forall a xs, Q a xs -> Q' a xs) -> does p Q -> does p Q'.
Proof.
  intros A p Q Q' H D w m Hw S R. eapply surely_mono; [|apply (D w m Hw S R)]. intros a w' (xs & q & r). exists xs. split; [apply H; exact q|exact r].
Qed.
Lemma does_sleep : forall A ns (k : prog A) Q, does k Q -> does (Sleep ns k) Q.
Proof. intros A ns k Q D w m Hw S R. cbn [surely]. apply D; assumption. Qed.
Lemma does_phys : forall A x (k : N -> prog A) Q, does (k (phys x)) Q -> does (Phys x k) Q.
Proof. intros A x k Q D w m Hw S R. cbn [surely]. intros v Hv E. cbn [held] in E. subst v. apply D; assumption. Qed.
(** Programs without a result. *)
Definition sets (p : prog unit) (xs : list setting) : Prop := does p (fun _ ys => ys = xs).
Lemma sets_field : forall r s e v, good (r, s, e, v) -> harmless (r, s, e, v) -> sets (reg_write_field dev r (BITS s e) v) [(r, s, e, v)].
Proof.
  intros r s e v G H w m Hw S R. unfold reg_write_field, reg_read, reg_write. cbn [bind surely]. intros o Ho E.
  cbn [held] in E. rewrite Hw in E. injection E as <-. exists [(r, s, e, v)]. split; [reflexivity|]. split; [constructor; [auto|constructor]|].
  intros l. cbn [puts fold_left put]. unfold upd at 1. destruct (loc_eqb (Mmio dev r) l) eqn:D.
  - apply loc_eqb_eq in D. subst l. reflexivity.
  - unfold upd. rewrite D. apply Hw.
Qed.
Lemma sets_write : forall r v, v < 2 ^ 32 -> harmless (r, 0, 31, v) -> sets (reg_write dev r v) [(r, 0, 31, v)].
Proof.
  intros r v Hv H w m Hw S R. unfold reg_write. cbn [surely]. exists [(r, 0, 31, v)]. split; [reflexivity|].
  split; [constructor; [split; [split; [lia|exact Hv]|exact H]|constructor]|].
  intros l. cbn [puts fold_left put]. unfold upd. destruct (loc_eqb (Mmio dev r) l) eqn:D; [|apply Hw].
  f_equal. apply N.bits_inj. intros b. rewrite testbit_field_write by (apply S || exact Hv || lia). rewrite (proj2 (N.leb_le 0 b)) by lia. cbn [andb].
  destruct (N.leb_spec b 31) as [C|C]; [f_equal; lia|]. rewrite (high_bits v 32 b), (high_bits (m l) 32 b) by (assumption || apply S || lia). reflexivity.
Qed.
Lemma sets_set : forall r n, n <= 31 -> harmless (r, n, n, 1) -> sets (reg_set_field dev r (BIT n)) [(r, n, n, 1)].
Proof.
  intros r n Hn H. assert (F : sets (reg_write_field dev r (BITS n n) 1) [(r, n, n, 1)]).
  { apply sets_field; try assumption. split; [lia|]. replace (n + 1 - n) with 1 by lia. reflexivity. }
  intros w m Hw S R. specialize (F w m Hw S R). unfold reg_set_field, reg_write_field, reg_read, reg_write in *. cbn [bind surely] in *.
  intros o Ho Ha. rewrite set_is_write by assumption. exact (F o Ho Ha).
Qed.
Lemma sets_clear : forall r n, n <= 31 -> harmless (r, n, n, 0) -> sets (reg_clear_field dev r (BIT n)) [(r, n, n, 0)].
Proof.
  intros r n Hn H. unfold reg_clear_field. rewrite BIT_BITS by exact Hn. apply sets_field; try assumption. split; [lia|]. replace (n + 1 - n) with 1 by lia. reflexivity.
Qed.
Lemma sets_then : forall p q xs ys, sets p xs -> sets q ys -> sets (p ;; q) (xs ++ ys).
Proof. intros p q xs ys H1 H2. eapply does_weak; [|apply (does_bind _ _ p (fun _ => q) _ (fun _ _ zs => zs = ys) H1); intros a; exact H2]. cbv beta. intros _ zs (_ & xs' & ys' & -> & -> & ->). reflexivity. Qed.
Lemma sets_none : sets (Ret tt) [].
Proof. intros w m H S R. cbn [surely]. exists []. repeat split; [constructor|exact H]. Qed.
Definition range (lo : N) (count : nat) : list N := map (fun k => lo + N.of_nat k) (seq 0 count).
Lemma range_S : forall lo c, range lo (S c) = lo :: range (lo + 1) c.
Proof.
  intros lo c. unfold range. cbn [seq map]. rewrite N.add_0_r. f_equal. rewrite <- seq_shift, map_map. apply map_ext. intros k. lia.
Qed.
Lemma in_range : forall lo c n, In n (range lo c) <-> lo <= n < lo + N.of_nat c.
Proof.
  intros lo c n. unfold range. rewrite in_map_iff. split.
  - intros (k & <- & Hk). apply in_seq in Hk. lia.
  - intros H. exists (N.to_nat (n - lo)). split; [lia|]. apply in_seq. lia.
Qed.
Lemma sets_for : forall c lo body f, (forall n, lo <= n < lo + N.of_nat c -> sets (body n) (f n)) -> sets (for_ lo c body) (flat_map f (range lo c)).
Proof.
  induction c as [|c IH]; intros lo body f H; cbn [for_]; [apply sets_none|]. rewrite range_S. cbn [flat_map].
  apply sets_then; [apply H; lia|]. apply IH. intros n Hn. apply H. lia.
Qed.
(** Tests whose answer is known. *)
Lemma does_test : forall A r s e (neg : bool) b (k : bool -> prog A) Q, s <= e <= 31 ->
  (forall m, ready m -> (bits (m (Mmio dev r)) s e =? 0) = b) -> does (k (if neg then negb b else b)) Q ->
  does (bind (if neg then not_ (reg_is_field_cleared dev r (BITS s e)) else reg_is_field_cleared dev r (BITS s e)) k) Q.
Proof.
  intros A r s e neg b k Q Hs Hb D w m Hw S R. eapply surely_then.
  - instantiate (1 := fun t w' => t = (if neg then negb b else b) /\ agree w' m).
    destruct neg; unfold not_, reg_is_field_cleared, reg_read_field, reg_read; cbn [bind surely]; intros v Hv E;
    cbn [held] in E; rewrite Hw in E; injection E as <-; rewrite field_read_bits by exact Hs; rewrite Hb by exact R; (split; [reflexivity|]); apply agree_upd; auto.
  - intros t w' [-> Hw']. apply D; assumption.
Qed.
(** Waiting for what is already so. *)
Lemma does_wait : forall A us r s e (neg : bool) (k : bool -> prog A) Q, s <= e <= 31 ->
  (forall m, ready m -> (bits (m (Mmio dev r)) s e =? 0) = neg) -> does (k false) Q ->
  does (bind (if_after_timeout us (if neg then not_ (reg_is_field_cleared dev r (BITS s e)) else reg_is_field_cleared dev r (BITS s e))) k) Q.
Proof.
  intros A us r s e neg k Q Hs Hb D. unfold if_after_timeout. cbn [bind]. apply does_sleep. change 10%nat with (S 9). generalize 9%nat as n9. intros n9. cbn [poll].
  assert (X : forall (p : prog bool) (f : bool -> prog bool) (g : bool -> prog A), bind (bind p f) g = bind p (fun b => bind (f b) g) -> does (bind p (fun b => bind (f b) g)) Q -> does (bind (bind p f) g) Q) by (intros p f g ->; auto).
  apply X.
  - clear. destruct neg; unfold not_, reg_is_field_cleared, reg_read_field, reg_read; cbn [bind]; reflexivity.
  - apply does_test with (b := neg); [exact Hs|exact Hb|]. replace (if neg then negb neg else neg) with false by (destruct neg; reflexivity). cbn [negb bind]. exact D.
Qed.
End Does.

(** ** Step by step, from given contents *)
Section Steps.
Variable phys : object -> N.
Variable dev : N.
Notation sets := (sets phys dev (fun _ => True) (fun _ => True)).
Lemma sets_at : forall p xs m w B (k : unit -> prog B) Q, sets p xs -> Forall good xs -> small m -> agree w m ->
  (forall w', agree w' (puts dev xs m) -> small (puts dev xs m) -> surely (held phys) (k tt) w' Q) -> surely (held phys) (bind p k) w Q.
Proof.
  intros p xs m w B k Q D G Sm Hw H. eapply surely_then; [apply (D w m Hw Sm I)|]. intros [] w' (ys & -> & _ & A). apply H; [exact A|].
  apply puts_small; assumption.
Qed.
Lemma test_at : forall A r s e (neg : bool) b (k : bool -> prog A) m w Q, s <= e <= 31 -> agree w m -> (bits (m (Mmio dev r)) s e =? 0) = b ->
  (forall w', agree w' m -> surely (held phys) (k (if neg then negb b else b)) w' Q) ->
  surely (held phys) (bind (if neg then not_ (reg_is_field_cleared dev r (BITS s e)) else reg_is_field_cleared dev r (BITS s e)) k) w Q.
Proof.
  intros A r s e neg b k m w Q Hs Hw Hb D. eapply surely_then.
  - instantiate (1 := fun t w' => t = (if neg then negb b else b) /\ agree w' m).
    destruct neg; unfold not_, reg_is_field_cleared, reg_read_field, reg_read; cbn [bind surely]; intros v Hv E;
    cbn [held] in E; rewrite Hw in E; injection E as <-; rewrite field_read_bits by exact Hs; rewrite Hb; (split; [reflexivity|]); apply agree_upd; auto.
  - intros t w' [-> Hw']. apply D; assumption.
Qed.
Lemma wait_at : forall A us r s e (k : bool -> prog A) m w Q, s <= e <= 31 -> agree w m -> bits (m (Mmio dev r)) s e <> 0 ->
  (forall w', agree w' m -> surely (held phys) (k false) w' Q) ->
  surely (held phys) (bind (if_after_timeout us (reg_is_field_cleared dev r (BITS s e))) k) w Q.
Proof.
  intros A us r s e k m w Q Hs Hw Hb D. unfold if_after_timeout. cbn [bind surely]. change 10%nat with (S 9). generalize 9%nat as n9. intros n9. cbn [poll].
  unfold reg_is_field_cleared at 1, reg_read_field, reg_read. cbn [bind surely]. intros v Hv E. cbn [held] in E. rewrite Hw in E. injection E as <-.
  rewrite field_read_bits by exact Hs. apply N.eqb_neq in Hb. rewrite Hb. cbn [negb bind]. apply D. apply agree_upd; auto.
Qed.
End Steps.
