(** C42: the conic function behind every PISA reaction curve. *)
From Coq Require Import List Reals Lra Lia.
From Verif Require Import Base ConicModel ConicSpec ConicProofs.
Import ListNotations.
Local Open Scope R_scope.

(** For every curvature in [0, 1), every positive ultimate point at least 0.01 from the origin and any
    stiffness, with no sample on the abscissa where the code divides by zero: the curve starts at the
    origin, never decreases, lies between the chord and the ultimate value, below the initial tangent and
    on the conic, passes through (x_u, y_u) and stays at y_u. *)
Theorem C42_conic_curve : forall x_u n k y_u m,
  1/100 <= x_u -> 0 < y_u -> 0 <= n -> n < 1 -> (7 <= m)%nat ->
  (forall x, In x (conic_x x_u m) -> 0 < x -> x < x_u -> (1 - n) * Rmax (y_u / x_u) k * x_u ^ 2 <> n * y_u * x) ->
  exists xs ys, conic x_u n k y_u m = Ok (xs, map Some ys) /\ length xs = m /\ length ys = m /\
    nth 0 xs 0 = 0 /\ nth 0 ys 0 = 0 /\ nondecreasing xs /\ nondecreasing ys /\
    In x_u xs /\ last xs 0 = 11/10 * x_u /\
    (forall i, (i < m)%nat -> let x := nth i xs 0 in let y := nth i ys 0 in
       y <= y_u /\ (x <= x_u -> y_u / x_u * x <= y) /\ (x_u <= x -> y = y_u) /\
       (x + 1/100 <= x_u -> y <= Rmax (y_u / x_u) k * x /\
                            on_conic n (Rmax 1 (k * x_u / y_u)) (x / x_u) (y / y_u))).
Proof.
  intros x_u n k y_u m X Y N0 N1 M R. assert (X0 : 0 < x_u) by lra.
  destruct (conic_x_spec x_u m X0 ltac:(lia)) as (L & ND & RG & Z & LA & IU).
  assert (SR : samples_regular x_u n k y_u m).
  { intros x I. destruct (RG x I) as [P _]. destruct (Rle_lt_dec x 0); [left; lra|]. destruct (Rle_lt_dec x_u x); [right; left; auto|right; right; apply R; auto]. }
  assert (KS : Rmax (y_u / x_u) k * x_u / y_u = Rmax 1 (k * x_u / y_u)).
  { unfold Rmax. assert (E : y_u / x_u <= k <-> 1 <= k * x_u / y_u).
    { split; intros H.
      - apply Rmult_le_reg_r with y_u; [lra|]. replace (k * x_u / y_u * y_u) with (k * x_u) by (field; lra).
        apply Rmult_le_compat_r with (r := x_u) in H; [|lra]. replace (y_u / x_u * x_u) with y_u in H by (field; lra). lra.
      - apply Rmult_le_reg_r with x_u; [lra|]. replace (y_u / x_u * x_u) with y_u by (field; lra).
        apply Rmult_le_compat_r with (r := y_u) in H; [|lra]. replace (k * x_u / y_u * y_u) with (k * x_u) in H by (field; lra). lra. }
    destruct (Rle_dec (y_u / x_u) k); destruct (Rle_dec 1 (k * x_u / y_u)); try reflexivity; try (exfalso; tauto). field; lra. }
  exists (conic_x x_u m), (conic_y x_u n k y_u m). split; [apply conic_ok; auto; lia|].
  split; [exact L|]. split; [unfold conic_y; rewrite map_length; exact L|]. split; [exact Z|].
  assert (NTH : forall i, (i < m)%nat -> nth i (conic_y x_u n k y_u m) 0 = conic_val x_u n (Rmax (y_u / x_u) k) y_u (nth i (conic_x x_u m) 0)).
  { intros i Hi. unfold conic_y. rewrite (nth_indep _ 0 (conic_val x_u n (Rmax (y_u / x_u) k) y_u 0)) by (rewrite map_length; lia). apply map_nth. }
  split; [rewrite NTH, Z by lia; apply val_zero; auto|]. split; [exact ND|]. split.
  { unfold conic_y. apply nondecreasing_map; auto. intros x y Ix Iy Lxy. apply val_mono; auto; [apply Rmax_l|apply RG; auto]. }
  split; [apply IU; lia|]. split; [exact LA|]. intros i Hi x y. subst x y. rewrite NTH by auto.
  assert (I : In (nth i (conic_x x_u m) 0) (conic_x x_u m)) by (apply nth_In; lia).
  destruct (val_bounds x_u n (Rmax (y_u / x_u) k) y_u X0 Y N0 N1 (Rmax_l _ _) _ (proj1 (RG _ I)) (SR _ I)) as (_ & U & C & T & O & E).
  split; [exact U|]. split; [exact C|]. split; [intros H; apply E; lra|]. intros H. split; [auto|]. rewrite <- KS. auto.
Qed.

(** No sample can hit the singular abscissa when the curvature is at most one half, or when the initial
    stiffness is large enough. *)
Theorem C42_no_division_by_zero : forall x_u n k y_u m,
  1/100 <= x_u -> 0 < y_u -> 0 <= n -> n < 1 -> (7 <= m)%nat -> (n <= 1/2 \/ n * y_u <= (1 - n) * k * x_u) ->
  forall x, In x (conic_x x_u m) -> 0 < x -> x < x_u -> (1 - n) * Rmax (y_u / x_u) k * x_u ^ 2 <> n * y_u * x.
Proof.
  intros x_u n k y_u m X Y N0 N1 M H x I P L.
  destruct (regular_if x_u n k y_u m ltac:(lra) Y N0 N1 ltac:(lia) H x I) as [E|[E|E]]; [lra|lra|exact E].
Qed.

Example C42_case : exists xs ys, conic 173.8 (72/100) 12 4 20 = Ok (xs, map Some ys) /\ length ys = 20%nat /\ nondecreasing ys /\ nth 0 ys 0 = 0.
Proof.
  destruct (C42_conic_curve 173.8 (72/100) 12 4 20) as (xs & ys & A & _ & B & _ & C & _ & D & _); try lra; try lia.
  - apply C42_no_division_by_zero; try lra; try lia. 
  - exists xs, ys. auto.
Qed.

(** A sample on the singular abscissa makes the whole call fail, whatever the other samples are. *)
Theorem C42_division_by_zero_refuted : forall x_u n k y_u m x,
  0 < x_u -> 0 < y_u -> 0 < n -> n < 1 -> (5 <= m)%nat -> In x (conic_x x_u m) -> 0 < x -> x + 1/100 <= x_u ->
  (1 - n) * Rmax (y_u / x_u) k * x_u ^ 2 = n * y_u * x ->
  conic x_u n k y_u m = Err ZeroDivisionError.
Proof.
  intros x_u n k y_u m x XU YU N0 N1 M I P L E. unfold conic. destruct (Req_EM_T x_u 0); [lra|].
  replace (m <? 5)%nat with false by (symmetry; apply Nat.ltb_ge; auto). cbv zeta.
  rewrite (mapM_err _ _ _ ZeroDivisionError _ x); auto.
  - intros z. unfold conic_point. cbv zeta. repeat match goal with |- context [if ?c then _ else _] => destruct c end; eauto.
  - apply point_singular; auto. apply Rmax_l.
Qed.

Example C42_division_by_zero_case : conic 2 (3/4) (3/4) 1 14 = Err ZeroDivisionError.
Proof.
  apply C42_division_by_zero_refuted with (x := 1); try lra; try lia.
  - unfold conic_x. apply in_or_app. right. apply in_or_app. left. replace 1 with (nth 3 (linspace (2/10 * 2) 2 (14 - 5)) 0).
    + apply nth_In. rewrite linspace_length. lia.
    + rewrite linspace_nth by lia. cbn. field.
  - replace (Rmax (1/2) (3/4)) with (3/4) by (unfold Rmax; destruct (Rle_dec (1/2) (3/4)); lra). lra.
Qed.

(** The curve leaves the origin whenever the ultimate displacement is below 0.01: the first sample, at
    zero displacement, already carries the full resistance. *)
Theorem C42_origin_refuted : forall x_u n k y_u m, 0 < x_u -> x_u < 1/100 -> 0 < y_u -> (5 <= m)%nat ->
  exists xs ys, conic x_u n k y_u m = Ok (xs, map Some ys) /\ nth 0 xs 0 = 0 /\ nth 0 ys 0 = y_u /\ (forall y, In y ys -> y = y_u).
Proof.
  intros x_u n k y_u m XU XS YU M. destruct (conic_x_spec x_u m XU M) as (L & ND & RG & Z & _).
  exists (conic_x x_u m), (map (fun _ => y_u) (conic_x x_u m)). split; [|split; [exact Z|split]].
  - unfold conic. destruct (Req_EM_T x_u 0); [lra|]. replace (m <? 5)%nat with false by (symmetry; apply Nat.ltb_ge; auto). cbv zeta.
    rewrite (mapM_ok _ _ _ (fun _ => Some y_u)); [cbn [bind]; rewrite map_map; reflexivity|].
    intros x I. destruct (RG x I) as [A B]. unfold conic_point. destruct (Rlt_dec (Rabs (x - x_u)) (1/100)) as [|C]; [reflexivity|].
    exfalso. apply C. apply Rabs_def1; lra.
  - rewrite (nth_indep _ 0 y_u) by (rewrite map_length; lia). apply (map_nth (fun _ => y_u)  (conic_x x_u m) 0 0).
  - intros y I. apply in_map_iff in I. destruct I as (w & <- & _). reflexivity.
Qed.

Print Assumptions C42_conic_curve.
Print Assumptions C42_no_division_by_zero.
Print Assumptions C42_division_by_zero_refuted.
Print Assumptions C42_origin_refuted.
