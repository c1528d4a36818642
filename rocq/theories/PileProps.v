(** Properties C09-C14: piles, circular sections and soil profiles. *)
From Coq Require Import List ZArith QArith Qabs Permutation.
From Verif Require Import Base PileModel PileSpec PileProofs.
Import ListNotations.
Local Open Scope Q_scope.

(** C09: accepted exactly when there is a section and the sections fill one interval, each
    elevation of it once; otherwise ValueError. *)
Theorem C09_accepted_iff_tiling : forall l, proper l ->
  ((exists p, make_pile l = Ok p) <-> l <> [] /\ exists t b, tiles_interval l t b).
Proof. exact pile_accepted_iff. Qed.
Print Assumptions C09_accepted_iff_tiling.

Theorem C09_accepted_pile_fills_its_interval : forall l p, proper l -> make_pile l = Ok p ->
  Permutation l p /\
  exists t b, pile_top p = Ok t /\ pile_bottom p = Ok b /\ b < t /\ tiles_interval l t b.
Proof. exact pile_fills. Qed.
Print Assumptions C09_accepted_pile_fills_its_interval.

Theorem C09_rejection_is_value_error : forall l e, make_pile l = Err e -> e = ValueError.
Proof. exact make_pile_err. Qed.
Print Assumptions C09_rejection_is_value_error.

Theorem C09_constructed_sections_are_proper : forall l,
  (forall s, In s l -> exists top bottom d t, circular top bottom d t = Ok s) -> proper l.
Proof. exact circular_sections_proper. Qed.
Print Assumptions C09_constructed_sections_are_proper.

Definition ex_s1 := mkSection 0 (-10) 7.5 1.6 11 42 23 23 44.
Definition ex_s2 := mkSection (-10) (-40) 7.5 1.8 12 42 23 23 44.

Example C09_example :
  proper [ex_s2; ex_s1] /\ make_pile [ex_s2; ex_s1] = Ok [ex_s1; ex_s2] /\
  make_pile [ex_s1; mkSection (-11) (-40) 7.5 1.8 12 42 23 23 44] = Err ValueError /\
  make_pile [ex_s1; mkSection (-9) (-40) 7.5 1.8 12 42 23 23 44] = Err ValueError.
Proof.
  split; [intros s [<-|[<-|[]]]; reflexivity|]. repeat split; vm_compute; reflexivity.
Qed.

(** C10: the outcome (stored sections, or rejection) does not depend on the order; every
    derived quantity is a function of the stored sections. *)
Theorem C10_order_independent : forall l l', proper l -> Permutation l l' ->
  make_pile l = make_pile l'.
Proof. exact make_pile_order. Qed.
Print Assumptions C10_order_independent.

Example C10_example : Permutation [ex_s2; ex_s1] [ex_s1; ex_s2] /\ proper [ex_s2; ex_s1].
Proof. split; [apply perm_swap|intros s [<-|[<-|[]]]; reflexivity]. Qed.

(** C11 *)
Theorem C11_length_is_sum : forall l p, make_pile l = Ok p ->
  exists len, pile_length p = Ok len /\ len == Qsum (map s_length l).
Proof. exact pile_length_sum. Qed.
Print Assumptions C11_length_is_sum.

Theorem C11_volume_is_sum : forall l p, make_pile l = Ok p ->
  pile_volume p == Qsum (map (fun s => s_area s * (s_top s - s_bottom s)) l).
Proof. exact pile_volume_sum. Qed.
Print Assumptions C11_volume_is_sum.

Theorem C11_positive : forall l p w, proper l -> make_pile l = Ok p ->
  (forall s, In s l -> 0 < s_area s) -> 0 < w ->
  (exists len, pile_length p = Ok len /\ 0 < len) /\ 0 < pile_volume p /\ 0 < pile_weight w p.
Proof. exact pile_positive. Qed.
Print Assumptions C11_positive.

(** The tip of an accepted pile is the lower end of its lowest section: the steel area and
    the footprint there are those of the section no other section reaches below. *)
Theorem C11_tip : forall l p, proper l -> make_pile l = Ok p ->
  exists s, In s l /\ (forall s', In s' l -> s_bottom s <= s_bottom s') /\
    pile_bottom p = Ok (s_bottom s) /\
    tip_area p = Ok (s_area s) /\ tip_footprint p = Ok (s_footprint s).
Proof. exact pile_tip. Qed.
Print Assumptions C11_tip.

Theorem C11_tubular : forall top bottom d wt p, create_tubular top bottom d wt = Ok p ->
  exists s, p = [s] /\ circular top bottom d (Some wt) = Ok s /\
    pile_length p = Ok (top - bottom) /\ pile_volume p == circ_area d wt * (top - bottom).
Proof. exact tubular_ok. Qed.
Print Assumptions C11_tubular.

Example C11_example :
  exists p, create_tubular 0 (-40) 7.5 0.07 = Ok p /\ 65 < pile_volume p /\ pile_volume p < 66.
Proof. eexists; split; [vm_compute; reflexivity|split; reflexivity]. Qed.

(** C11 refuted for walls thicker than the diameter: an accepted pile of negative weight. *)
Theorem C11_negative_weight_refuted :
  exists p, create_tubular 0 (-10) 1 1.5 = Ok p /\ pile_weight 78 p < 0.
Proof. exact negative_weight_witness. Qed.
Print Assumptions C11_negative_weight_refuted.

(** C12 *)
Theorem C12_acceptance : forall top bottom d t,
  (exists s, circular top bottom d t = Ok s) <->
  0 < d /\ bottom < top /\ (forall w, t = Some w -> 0 < w).
Proof. exact circular_accepted. Qed.
Print Assumptions C12_acceptance.

Theorem C12_area_balance : forall top bottom d t s, circular top bottom d t = Ok s ->
  s_area s + s_entrapped s == s_footprint s.
Proof. exact circular_area_balance. Qed.
Print Assumptions C12_area_balance.

Theorem C12_nonnegative_if_wall_within_radius : forall top bottom d t s,
  circular top bottom d t = Ok s -> (forall w, t = Some w -> w <= d / 2) ->
  0 < s_area s /\ 0 <= s_entrapped s /\ 0 <= s_inner s /\ 0 < s_inertia s /\
  s_inner s < s_outer s /\ s_area s <= s_footprint s.
Proof. exact circular_nonneg. Qed.
Print Assumptions C12_nonnegative_if_wall_within_radius.

Theorem C12_solid_without_thickness : forall top bottom d s, circular top bottom d None = Ok s ->
  s_entrapped s == 0 /\ s_inner s == 0 /\ s_area s == s_footprint s.
Proof. exact circular_solid. Qed.
Print Assumptions C12_solid_without_thickness.

Theorem C12_volumes : forall d t len,
  circ_volume d t len + circ_entrapped_volume d t len == circ_footprint d * len.
Proof. exact circ_volumes. Qed.
Print Assumptions C12_volumes.

(** C12: the perimeters, the area and the second moment of area belong to the same ring: the perimeters differ by 2 pi times the
    wall, the area is the wall times the mean perimeter, and the second moment is the area times (D^2 + d^2) / 16. *)
Theorem C12_ring_relations : forall top bottom d w s, circular top bottom d (Some w) = Ok s ->
  s_outer s - s_inner s == 2 * mpi * w /\ s_area s == w * ((s_outer s + s_inner s) / 2) /\
  s_inertia s == s_area s * ((d * d + (d - 2 * w) * (d - 2 * w)) / 16) /\ s_footprint s == s_outer s * d / 4.
Proof.
  intros top bottom d w s H. unfold circular in H. destruct (negb (Qltb 0 d)); [discriminate|]. destruct (negb (Qltb 0 w)); [discriminate|]. destruct (Qle_bool top bottom); [discriminate|].
  injection H as <-. cbn [s_outer s_inner s_area s_inertia s_footprint]. unfold proper_thickness, circ_outer, circ_inner, circ_area, circ_inertia, circ_footprint.
  repeat split; field.
Qed.
Print Assumptions C12_ring_relations.

Theorem C12_wall_thicker_than_radius_refuted :
  exists top bottom d w s, circular top bottom d (Some w) = Ok s /\ s_inner s < 0 /\ s_area s < 0 /\
    s_inertia s < 0.
Proof. exact thick_wall_witness. Qed.
Print Assumptions C12_wall_thicker_than_radius_refuted.

Example C12_example : exists s, circular 0 (-40) 7.5 (Some 0.07) = Ok s /\ 0.07 <= 7.5 / 2.
Proof. eexists; split; [vm_compute; reflexivity|vm_compute; discriminate]. Qed.

(** C13 *)
Theorem C13_accepted_profile_is_a_stack : forall ground l r, make_profile ground l = Ok r ->
  r = l /\ stack_of ground l (layers_down l).
Proof. exact profile_sound. Qed.
Print Assumptions C13_accepted_profile_is_a_stack.

Theorem C13_accepted_iff_stack : forall ground l, distinct_tops l ->
  ((exists r, make_profile ground l = Ok r) <-> exists d, stack_of ground l d).
Proof. exact profile_accepted_iff. Qed.
Print Assumptions C13_accepted_iff_stack.

Theorem C13_order_independent : forall ground l l', distinct_tops l -> Permutation l l' ->
  is_ok (make_profile ground l) = is_ok (make_profile ground l').
Proof. exact profile_order. Qed.
Print Assumptions C13_order_independent.

(** Layers thinner than the tolerance with equal tops are accepted in one order and rejected in
    the other. *)
Theorem C13_order_dependence_refuted :
  exists ground l l', proper_layers l /\ Permutation l l' /\
    is_ok (make_profile ground l) = true /\ is_ok (make_profile ground l') = false.
Proof. exact profile_order_witness. Qed.
Print Assumptions C13_order_dependence_refuted.

(** C13: constructed layers have a positive thickness and a weight above 10; others are refused. *)
Theorem C13_constructed_layers_are_proper : forall top bottom weight,
  ((exists x, make_layer top bottom weight = Ok x) <-> bottom < top /\ 10 < weight) /\
  (forall l, (forall x, In x l -> exists t b w, make_layer t b w = Ok x) -> proper_layers l).
Proof.
  intros top bottom weight. split.
  - unfold make_layer. destruct (Qltb 10 weight) eqn:E1; destruct (Qltb bottom top) eqn:E2; cbn; split; try (intros (x & X); discriminate);
      try (intros _; split; apply Qltb_true; auto); try (intros _; eexists; reflexivity); intros [A B]; apply Qltb_true in A; apply Qltb_true in B; congruence.
  - intros l H x I. destruct (H x I) as (t & b & w & E). unfold make_layer in E.
    destruct (Qltb 10 w); [|discriminate]. destruct (Qltb b t) eqn:E2; [|discriminate]. injection E as <-. apply Qltb_true in E2. exact E2.
Qed.
Print Assumptions C13_constructed_layers_are_proper.

Definition ex_layers := [mkLayer (-20) (-40) 19; mkLayer 0 (-20) 18].

Example C13_example :
  distinct_tops ex_layers /\ make_profile 0 ex_layers = Ok ex_layers /\
  make_profile 1 ex_layers = Err ValueError /\ make_profile 0 [] = Err IndexError /\
  make_profile 0 [mkLayer 0 (-20) 18; mkLayer (-19) (-40) 19] = Err ValueError.
Proof.
  split; [|repeat split; vm_compute; reflexivity].
  intros [|[|[|i]]] [|[|[|j]]] a b Ha Hb E; simpl in *; try discriminate; auto;
    inversion Ha; inversion Hb; subst; vm_compute in E; discriminate.
Qed.

(** C14 *)
Theorem C14_exact_when_layers_meet : forall ground l r, proper_layers l -> make_profile ground l = Ok r ->
  (forall i a b, nth_error (layers_down l) i = Some a -> nth_error (layers_down l) (S i) = Some b ->
     l_top b == l_bottom a) ->
  exists b, lowest_bottom l b /\ profile_bottom ground l == b.
Proof. exact profile_bottom_exact. Qed.
Print Assumptions C14_exact_when_layers_meet.

Theorem C14_drift_is_sum_of_gaps : forall ground l r, proper_layers l -> make_profile ground l = Ok r ->
  exists x, In x l /\ (forall y, In y l -> l_top x <= l_top y) /\
    profile_bottom ground l == l_bottom x + Qsum (gaps (layers_down l)).
Proof. exact profile_drift. Qed.
Print Assumptions C14_drift_is_sum_of_gaps.

(** Within a thousand kilometres of the datum the drift is at most 1 mm per interface. *)
Theorem C14_drift_bound : forall ground l r, proper_layers l -> make_profile ground l = Ok r ->
  (forall x, In x l -> Qabs (l_top x) <= 1000000 /\ Qabs (l_bottom x) <= 1000000) ->
  exists x, In x l /\ (forall y, In y l -> l_top x <= l_top y) /\
    Qabs (profile_bottom ground l - l_bottom x) <= 0.001 * inject_Z (Z.of_nat (length l - 1)).
Proof. exact profile_drift_bound. Qed.
Print Assumptions C14_drift_bound.

Theorem C14_exact_bottom_refuted :
  exists ground l r b, proper_layers l /\ make_profile ground l = Ok r /\ lowest_bottom l b /\
    ~ profile_bottom ground l == b.
Proof. exact profile_bottom_witness. Qed.
Print Assumptions C14_exact_bottom_refuted.

Example C14_example :
  proper_layers ex_layers /\ profile_bottom 0 ex_layers == -40 /\ lowest_bottom ex_layers (-40).
Proof.
  split; [intros x [<-|[<-|[]]]; reflexivity|]. split; [reflexivity|].
  split; [eexists; split; [left; reflexivity|reflexivity]|].
  intros x [<-|[<-|[]]]; vm_compute; discriminate.
Qed.
