(** Property theorems C147: what the maps and cells declared in a specification stand for. *)

From Coq Require Import NArith List Bool Lia Arith String Sorting.
From Verif Require Import Expr Solver Symbex SymbexFacts SymbexSearch SpecMaps.
Import ListNotations.
Open Scope N_scope.

(** What a declaration asks for: room for the declared keys and values. *)
Definition fits (key : N) (value : option N) (m : smap) : Prop := key <= sm_key m /\ forall v, value = Some v -> v <= sm_value m.
(** Unused bits of a key and of a value. *)
Definition unused (key : N) (value : option N) (m : smap) : N := (sm_key m - key) + match value with None => 0 | Some v => sm_value m - v end.

(** For all states with maps of the tool's making: every map with enough room is a candidate, and only those; those with the fewest unused
    bits come first, and among equals those made first. *)
Theorem C147_best_fit_first : forall key value maps, (forall m, In m maps -> exists o, sm_name m = origin_name o) ->
  (forall m, In m (map_candidates key value maps) <-> In m maps /\ fits key value m) /\
  StronglySorted (fun a b => unused key value a <= unused key value b) (map_candidates key value maps) /\
  forall w, filter (fun m => unused key value m =? w) (map_candidates key value maps) =
            filter (fun m => (key <=? sm_key m) && match value with None => true | Some v => v <=? sm_value m end && (unused key value m =? w)) maps.
Proof.
  intros key value maps HN.
  assert (NE : forall m, In m maps -> excluded (sm_name m) = false) by (intros m I; destruct (HN m I) as [o ->]; destruct o as [[]|[]| | | |]; reflexivity).
  assert (FN : filter (fun m => negb (excluded (sm_name m))) maps = maps).
  { clear HN. induction maps as [|m maps IH]; [reflexivity|]. cbn [filter]. rewrite (NE m (or_introl eq_refl)). cbn [negb]. f_equal. apply IH. intros m' I. apply NE. right. exact I. }
  split; [|split].
  - intros m. rewrite map_candidates_in. unfold fits. split.
    + intros (I & _ & K & V). split; [exact I|]. split; [exact K|]. intros v ->. exact V.
    + intros (I & K & V). split; [exact I|]. split; [apply NE; exact I|]. split; [exact K|]. destruct value as [v|]; [apply V; reflexivity|exact Logic.I].
  - unfold map_candidates. destruct value as [v|]; apply sort_sorted.
  - intros w. unfold map_candidates. rewrite FN. assert (FF : forall (f g : smap -> bool) l, filter f (filter g l) = filter (fun m => g m && f m) l).
    { intros f g l. induction l as [|x l IH]; [reflexivity|]. cbn [filter]. destruct (g x); cbn [andb filter]; rewrite IH; reflexivity. }
    destruct value as [v|]; change (unused key) with (map_waste key); rewrite sort_stable, !FF; apply filter_ext; intros m; [rewrite andb_assoc; reflexivity|]. rewrite andb_true_r. reflexivity.
Qed.
Print Assumptions C147_best_fit_first.

(** Refuted: that only the program's own structures are candidates.  The names that are to be excluded are not those the tool gives: every
    fractions map, and the packet, is a candidate for every declaration it has room for. *)
Theorem C147_own_structures_refuted : forall key value maps m o, In m maps -> sm_name m = origin_name o -> of_program o = false -> fits key value m ->
  In m (map_candidates key value maps).
Proof.
  intros key value maps m o I N0 _ [K V]. apply map_candidates_in. split; [exact I|]. split; [rewrite N0; destruct o as [[]|[]| | | |]; reflexivity|].
  split; [exact K|]. destruct value as [v|]; [apply V; reflexivity|exact Logic.I].
Qed.
Print Assumptions C147_own_structures_refuted.

(** A program with one structure of 32 bytes, a counter and more, which it changes on every packet; the packet's descriptor has 26 bytes. *)
Definition ex_counter := mkSmap 1 "allocated" 64 256 (BVV 64 1) (BVV 256 7) (BVV 256 8).
Definition ex_counter_fracs := mkSmap 2 "allocated_fracs" 64 8 (BVV 64 1) (BVV 8 100) (BVV 8 100).
Definition ex_pkt := mkSmap 3 "pkt" 64 208 (BVV 64 1) (BVV 208 4096) (BVV 208 4096).
Definition ex_pkt_fracs := mkSmap 4 "pkt_fracs" 64 8 (BVV 64 1) (BVV 8 100) (BVV 8 100).
Definition ex_pkt_data := mkSmap 5 "pkt_data" 64 8 (BVV 64 1514) (BVV 8 0) (BVV 8 0).
Definition ex_maps := [ex_counter; ex_counter_fracs; ex_pkt; ex_pkt_fracs; ex_pkt_data].
(** "Cell(64) does not change". *)
Definition ex_unchanged (m : smap) : spec := SIf (BEq (sm_now m) (sm_old m)) SDone (SFail true).
(** The specification that the program's cell does not change is verified, with the packet for a cell, although the only structure of the
    program does change. *)
Theorem C147_cell_is_packet_refuted : exists rs,
  symbex bf 9 9 [([], with_cell bf [] 64 ex_maps ex_unchanged)] [] = Verified [sm_obj ex_pkt] rs /\
  (forall m o, In m ex_maps -> sm_name m = origin_name o -> of_program o = true -> m = ex_counter) /\
  forall r, crun r [sm_obj ex_counter] (with_cell bf [] 64 ex_maps ex_unchanged) 0 = CFail.
Proof.
  eexists. split; [vm_compute; reflexivity|]. split.
  - intros m o I N0 P. cbn [ex_maps In] in I. destruct I as [<-|[<-|[<-|[<-|[<-|[]]]]]]; [reflexivity| | | |]; destruct o as [[]|[]| | | |]; discriminate.
  - intros r. reflexivity.
Qed.
Print Assumptions C147_cell_is_packet_refuted.

(** Cells: on the path where it is chosen, a cell stands for a structure indexed by addresses, with room, and with exactly one element in
    every execution of the path. *)
Theorem C147_cells_partial : forall s, solver_ok s -> forall cs value maps, (forall m, In m maps -> width (sm_len m) = 64 /\ exists o, sm_name m = origin_name o) ->
  (forall m, In m (cell_candidates s cs value maps) <->
     In m maps /\ sm_key m = 64 /\ fits 64 (Some value) m /\ forall r, holds r cs -> ev r (sm_len m) = 1) /\
  StronglySorted (fun a b => unused 64 (Some value) a <= unused 64 (Some value) b) (cell_candidates s cs value maps).
Proof.
  intros s SOK cs value maps H. assert (W : forall m, In m maps -> 1 < 2 ^ width (sm_len m)) by (intros m I; destruct (H m I) as [-> _]; reflexivity).
  assert (C : forall m, In m (cell_candidates s cs value maps) <->
     In m maps /\ sm_key m = 64 /\ fits 64 (Some value) m /\ forall r, holds r cs -> ev r (sm_len m) = 1).
  { intros m. rewrite (cell_candidates_in s SOK cs value maps m W). unfold fits. split.
    - intros (I & _ & K & V & L). repeat split; auto; [lia|]. intros v E. injection E as <-. exact V.
    - intros (I & K & (_ & V) & L). repeat split; auto. destruct (H m I) as (_ & o & ->). destruct o as [[]|[]| | | |]; reflexivity. }
  split; [exact C|]. assert (K : forall m, In m (cell_candidates s cs value maps) -> sm_key m = 64) by (intros m M; apply C in M; tauto).
  unfold cell_candidates in *. match goal with |- StronglySorted _ ?l => assert (S0 : StronglySorted (fun a b => sm_value a - value <= sm_value b - value) l) by apply sort_sorted; revert S0 K; generalize l end.
  induction l as [|x l IH]; intros S0 K; [constructor|]. inversion_clear S0 as [|? ? S1 S2]. constructor; [apply IH; [exact S1|intros m M; apply K; right; exact M]|].
  apply Forall_forall. intros y Y. rewrite Forall_forall in S2. specialize (S2 y Y). unfold unused. rewrite (K x (or_introl eq_refl)), (K y (or_intror Y)). lia.
Qed.
Print Assumptions C147_cells_partial.

(** One object on every path.  When the paths know the same objects, with the same names and sizes, a specification that declares a map and is
    verified reads, in every execution, a map with room for what it declared, and the same object in all of them. *)
Theorem C147_one_object_partial : forall s, solver_ok s -> forall key value (sd : list (list bexp * list smap * (smap -> spec))) fuel pfuel v rs,
  (forall cs maps k, In (cs, maps, k) sd -> forall m, choice_free (k m)) ->
  (forall cs maps k cs' maps' k', In (cs, maps, k) sd -> In (cs', maps', k') sd -> Forall2 same_shape maps maps') ->
  (forall cs maps k, In (cs, maps, k) sd -> NoDup (map sm_obj maps)) ->
  symbex s fuel pfuel (map (fun '(cs, maps, k) => (cs, with_map key value maps k)) sd) [] = Verified v rs ->
  forall cs maps k r, In (cs, maps, k) sd -> holds r cs ->
  exists m, In m maps /\ sm_obj m = nth 0 v 0 /\ fits key value m /\ crun r [] (k m) 0 <> CFail.
Proof.
  intros s SOK key value sd fuel pfuel v rs HC HS HD H cs maps k r I Hr.
  assert (SH : forall a b, Forall2 same_shape a b -> map sm_obj (map_candidates key value a) = map sm_obj (map_candidates key value b)).
  { intros a b F.
    assert (INS : forall w (x x' : smap) l l', (forall m m', same_shape m m' -> w m = w m') -> same_shape x x' -> Forall2 same_shape l l' -> Forall2 same_shape (insert w x l) (insert w x' l')).
    { intros w x x' l l' HW X L. induction L as [|y y' l l' Y L IH]; cbn [insert]; [constructor; [exact X|constructor]|]. rewrite (HW x x' X), (HW y y' Y).
      destruct (w x' <=? w y'); constructor; auto; constructor; auto. }
    assert (SRT : forall w l l', (forall m m', same_shape m m' -> w m = w m') -> Forall2 same_shape l l' -> Forall2 same_shape (sort_by w l) (sort_by w l')).
    { intros w l l' HW L. induction L as [|y y' l l' Y L IH]; cbn [sort_by]; [constructor|apply INS; assumption]. }
    assert (FIL : forall (f : smap -> bool) l l', (forall m m', same_shape m m' -> f m = f m') -> Forall2 same_shape l l' -> Forall2 same_shape (filter f l) (filter f l')).
    { intros f l l' HF L. induction L as [|y y' l l' Y L IH]; cbn [filter]; [constructor|]. rewrite (HF y y' Y). destruct (f y'); [constructor; assumption|exact IH]. }
    assert (Z : Forall2 same_shape (map_candidates key value a) (map_candidates key value b)).
    { unfold map_candidates. destruct value as [v0|]; apply SRT; try (intros m m' (_ & _ & A & B); unfold map_waste; rewrite A, ?B; reflexivity);
      repeat (apply FIL; [intros m m' (A & B & C & D); rewrite ?B, ?C, ?D; reflexivity|]); exact F. }
    induction Z as [|x y l l' X Z IH]; [reflexivity|]. cbn [map]. f_equal; [apply X|exact IH]. }
  set (sd' := map _ sd) in H. assert (I' : In (cs, with_map key value maps k) sd') by (apply (in_map (fun '(cs, maps, k) => (cs, with_map key value maps k)) sd _ I)).
  assert (CF : forall L ci sp, choice_free sp -> offers L ci sp) by (intros L ci sp; revert ci; induction sp; intros ci F; cbn [choice_free offers] in *; try tauto; try (destruct F; split; auto); auto).
  pose proof (success_honest s SOK [map sm_obj (map_candidates key value maps)] sd') as SU.
  assert (OF : forall cs sp, In (cs, sp) sd' -> offers [map sm_obj (map_candidates key value maps)] 0 sp).
  { intros cs1 sp1 J. apply in_map_iff in J as ([[cs2 maps2] k2] & E & J). injection E as <- <-. cbn [with_map bind offers nth_error]. unfold with_map, bind. cbn [offers nth_error].
    split; [f_equal; apply SH; eapply HS; eassumption|]. intros x. apply CF. destruct (find _ maps2); [eapply HC; exact J|exact Logic.I]. }
  pose proof (SU OF fuel pfuel v rs H cs _ r I' Hr) as HO. unfold with_map, bind in HO. cbn [honest] in HO. destruct HO as [HO _].
  apply in_map_iff in HO as (m & E & M). apply map_candidates_in in M as (M & _ & K & V). exists m. split; [exact M|]. split; [exact E|].
  split; [split; [exact K|]; intros v0 ->; exact V|].
  assert (FD : find (fun m0 => sm_obj m0 =? sm_obj m) maps = Some m).
  { specialize (HD cs maps k I). clear - HD M. induction maps as [|x maps IH]; [destruct M|]. cbn [map] in HD. inversion_clear HD as [|? ? N0 D]. cbn [find].
    destruct M as [->|M]; [rewrite N.eqb_refl; reflexivity|]. destruct (N.eqb_spec (sm_obj x) (sm_obj m)) as [X|X]; [elim N0; rewrite X; apply in_map; exact M|auto]. }
  apply symbex_ok in H; [|exact SOK].
  assert (Q : crun r v (with_map key value maps k) 0 <> CFail).
  { clear - H I' Hr. induction H as [|st ps sd1 rs (H1 & _) _ IH]; [destruct I'|]. destruct I' as [->|I']; [apply H1; exact Hr|auto]. }
  unfold with_map, bind in Q. cbn [crun] in Q. rewrite <- E, FD in Q. rewrite (choice_free_crun r [] v (k m) 0 1 (HC cs maps k I m)). exact Q.
Qed.
Print Assumptions C147_one_object_partial.
(** A routing table and a pool: the specification of a map of 16-bit values for 40-bit keys is bound to the table; it has two paths. *)
Definition ex_table (len : N) := mkSmap 1 "lpm_table" 96 16 (BVV 64 len) (BVV 16 0) (BVV 16 0).
Definition ex_pool := mkSmap 2 "pool_items" 64 64 (BVV 64 3) (BVV 64 0) (BVV 64 0).
Example C147_example : exists rs,
  symbex bf 9 9 (map (fun '(cs, maps, k) => (cs, with_map 40 (Some 16) maps k))
    [([], [ex_table 0; ex_pool], fun m => SIf (BUlt (sm_len m) (BVV 64 2)) SDone (SFail true)); ([], [ex_table 1; ex_pool], fun m => SIf (BUlt (sm_len m) (BVV 64 2)) SDone (SFail true))]) [] = Verified [1] rs /\
  map sm_obj (map_candidates 40 (Some 16) [ex_pool; ex_table 0]) = [1; 2].
Proof. eexists. split; vm_compute; reflexivity. Qed.

(** Refuted for cells: the object chosen on one path, where it has one element, is used on the others, where it may have any number. *)
Definition ex_ports (n : N) := mkSmap 1 "allocated" 64 8 (BVV 64 n) (BVV 8 0) (BVV 8 0).
Theorem C147_cell_elsewhere_refuted : exists v rs m,
  symbex bf 9 9 [([], with_cell bf [] 8 [ex_ports 1] (fun _ => SDone)); ([], with_cell bf [] 8 [ex_ports 2; ex_counter] (fun m => SIf (BEq (sm_len m) (BVV 64 2)) SDone (SFail true)))] [] = Verified v rs /\
  find (fun m => sm_obj m =? nth 0 v 0) [ex_ports 2; ex_counter] = Some m /\ forall r, ev r (sm_len m) = 2.
Proof. do 3 eexists. split; [vm_compute; reflexivity|]. split; [vm_compute; reflexivity|]. intros r. reflexivity. Qed.
Print Assumptions C147_cell_elsewhere_refuted.

(** Different declarations stand for different objects; so a specification with two declarations is not verified if only one structure has
    room for either. *)
Theorem C147_distinct : forall s, solver_ok s -> forall fuel pfuel cs maps key1 value1 key2 value2 k v rs, (exists r, holds r cs) ->
  (forall m1 m2, choice_free (k m1 m2)) -> NoDup (map sm_obj maps) ->
  symbex s fuel pfuel [(cs, with_map key1 value1 maps (fun m1 => with_map key2 value2 maps (k m1)))] [] = Verified v rs ->
  exists m1 m2, In m1 maps /\ In m2 maps /\ sm_obj m1 <> sm_obj m2 /\ fits key1 value1 m1 /\ fits key2 value2 m2 /\
  forall r, holds r cs -> crun r [] (k m1 m2) 0 <> CFail.
Proof.
  intros s SOK fuel pfuel cs maps key1 value1 key2 value2 k v rs [r0 Hr0] HC HD H.
  set (sp := with_map _ _ _ _) in H.
  set (L := [map sm_obj (map_candidates key1 value1 maps); map sm_obj (map_candidates key2 value2 maps)]).
  assert (CF : forall L ci sp, choice_free sp -> offers L ci sp) by (intros L0 ci sp0; revert ci; induction sp0; intros ci F; cbn [choice_free offers] in *; try tauto; try (destruct F; split; auto); auto).
  assert (OF : forall cs1 sp1, In (cs1, sp1) [(cs, sp)] -> offers L 0 sp1).
  { intros cs1 sp1 [E|[]]. injection E as <- <-. unfold sp, with_map, bind. cbn [offers nth_error L]. split; [reflexivity|]. intros x. destruct (find _ maps) as [m1|]; [|exact Logic.I].
    cbn [offers nth_error]. split; [reflexivity|]. intros y. apply CF. destruct (find _ maps); [apply HC|exact Logic.I]. }
  pose proof (success_honest s SOK L [(cs, sp)] OF fuel pfuel v rs H cs sp r0 (or_introl eq_refl) Hr0) as HO.
  apply symbex_ok in H; [|exact SOK]. inversion_clear H as [|? ? ? ? [H1 H2] _]. destruct H2 as [H2 _]. cbn [fst snd] in *.
  assert (FD : forall m, In m maps -> find (fun m0 => sm_obj m0 =? sm_obj m) maps = Some m).
  { clear - HD. intros m M. induction maps as [|x maps IH]; [destruct M|]. cbn [map] in HD. inversion_clear HD as [|? ? N0 D]. cbn [find].
    destruct M as [->|M]; [rewrite N.eqb_refl; reflexivity|]. destruct (N.eqb_spec (sm_obj x) (sm_obj m)) as [X|X]; [elim N0; rewrite X; apply in_map; exact M|auto]. }
  unfold sp, with_map, bind in HO. cbn [honest] in HO. destruct HO as [O1 O2].
  apply in_map_iff in O1 as (c1 & E1 & M1). apply map_candidates_in in M1 as (M1 & _ & K1 & V1).
  rewrite <- E1, (FD c1 M1) in O2. cbn [honest] in O2. destruct O2 as [O2 _]. apply in_map_iff in O2 as (c2 & E2 & M2). apply map_candidates_in in M2 as (M2 & _ & K2 & V2).
  exists c1, c2. split; [exact M1|]. split; [exact M2|].
  assert (CC : forall r v sp0 ci, choice_free sp0 -> calls r v sp0 ci = ci).
  { clear. intros r v sp0. induction sp0; intros ci F; cbn [choice_free calls] in *; try reflexivity; try contradiction.
    - destruct F. destruct (eb r c); auto.
    - destruct (eb r c); auto.
    - destruct (eb r c); auto. }
  split.
  { destruct (H2 r0 Hr0) as [LV ND]. unfold sp, with_map, bind in LV, ND. cbn [calls] in LV, ND. rewrite <- E1, (FD c1 M1) in LV, ND. cbn [calls] in LV, ND. rewrite <- E2, (FD c2 M2), CC in LV, ND by apply HC.
    destruct v as [|v1 [|v2 v']]; cbn [Datatypes.length] in LV; try (exfalso; lia). cbn [nth] in E1, E2. cbn [firstn] in ND. inversion_clear ND as [|? ? N0 _]. intros E. apply N0. left. congruence. }
  split; [split; [exact K1|]; intros v0 ->; exact V1|]. split; [split; [exact K2|]; intros v0 ->; exact V2|].
  intros r Hr. specialize (H1 r Hr). unfold sp, with_map, bind in H1. cbn [crun] in H1. rewrite <- E1, (FD c1 M1) in H1. cbn [crun] in H1. rewrite <- E2, (FD c2 M2) in H1.
  rewrite (choice_free_crun r [] v (k c1 c2) 0 2 (HC c1 c2)). exact H1.
Qed.
Print Assumptions C147_distinct.
Example C147_distinct_ex : exists rs,
  symbex bf 9 9 [([], with_map 40 (Some 16) [ex_pool; ex_table 0] (fun _ => with_map 64 None [ex_pool; ex_table 0] (fun _ => SDone)))] [] = Verified [1; 2] rs.
Proof. eexists. vm_compute. reflexivity. Qed.
