(** C47: Reese weak rock p-y curve. *)
From Coq Require Import List Reals Lra Lia Psatz.
From Verif Require Import Base ConicModel ConicSpec ConicProofs PisaModel PisaProofs ApiSandModel ApiClayProofs ReeseModel ReeseSpec ReeseProofs.
Import ListNotations.
Local Open Scope R_scope.

(** For every rock, pile width, depth, constant and number of points.  Missing for the full claim: the
    curve may drop, by no more than the factor q^0.00025, because the code uses 1.333 in place of 4/3. *)
Theorem C47_reese_partial : forall Ei qu RQD xr D k m, 0 < Ei -> 0 <= qu -> 0 <= xr -> 0 < D -> 0 < k ->
  let Pmax := rock_ultimate qu RQD xr D in let Epy := rock_stiffness Ei xr D in let yrm := k * D in
  let q := Pmax / (2 * Rpower yrm 0.25 * Epy) in
  exists y p, reese_weakrock Ei qu RQD xr D k m = Ok (y, p) /\
    length y = Nat.max 8 m /\ length p = Nat.max 8 m /\ nth 0 y 0 = 0 /\ nth 0 p 0 = 0 /\ nondecreasing y /\
    (forall v, In v p -> 0 <= v /\ v <= Pmax) /\ last p 0 = Pmax /\
    (forall i, (i < Nat.max 8 m)%nat -> nth 1 y 0 < nth i y 0 -> 16 * yrm <= nth i y 0 -> nth i p 0 = Pmax) /\
    (forall i, (i < Nat.max 8 m)%nat -> nth i y 0 <= nth 1 y 0 -> nth i p 0 = Rmin Pmax (Epy * nth i y 0)) /\
    (0 < q -> nth 1 y 0 = Rpower q 1.333) /\
    (forall i j, (i <= j)%nat -> (j < Nat.max 8 m)%nat -> Rmin 1 (Rpower q 0.00025) * nth i p 0 <= nth j p 0) /\
    (1 <= q -> nondecreasing p).
Proof.
  intros Ei qu RQD xr D k m HE HQ HX HD HK Pmax Epy yrm q.
  assert (Hy : 0 < yrm) by (apply Rmult_lt_0_compat; auto). assert (HP : 0 <= Pmax) by (apply ultimate_nonneg; auto). assert (HEp : 0 < Epy) by (apply stiffness_pos; auto).
  assert (HN : (8 <= Nat.max 8 m)%nat) by lia. set (n := Nat.max 8 m) in *. pose proof (r_pos yrm Hy) as RP.
  unfold reese_weakrock. fold n. rewrite nonzero_ok by lra. cbv zeta. rewrite ultimate_spec, stiffness_spec by auto. fold Pmax. fold Epy. fold yrm.
  rewrite nonzero_ok by (apply Rgt_not_eq; apply Rmult_lt_0_compat; [apply Rmult_lt_0_compat; lra|exact HEp]).
  assert (EQ : q = Pmax / (2 * rpow yrm 0.25 * Epy)) by (unfold q; rewrite rpow_pos by auto; reflexivity). rewrite <- EQ.
  set (yA := rpow q 1.333). set (y := reese_y yA yrm n).
  rewrite (mapM_ok _ _ _ (rock_p Pmax Epy yA yrm)) by (intros v _; unfold yA; rewrite EQ; apply f_ok; auto). cbn [bind].
  exists y, (map (rock_p Pmax Epy yA yrm) y). split; [reflexivity|].
  assert (LY : length y = n) by (unfold y, yA; rewrite EQ; apply y_length; auto).
  assert (SY : nondecreasing y) by (unfold y, yA; rewrite EQ; apply y_sorted; auto).
  assert (N1 : nth 1 y 0 = yA) by (unfold y, yA; rewrite EQ; apply y_nth1; auto).
  assert (NTH : forall i, (i < n)%nat -> nth i (map (rock_p Pmax Epy yA yrm) y) 0 = rock_p Pmax Epy yA yrm (nth i y 0)).
  { intros i Hi. rewrite (nth_indep _ 0 (rock_p Pmax Epy yA yrm 0)) by (rewrite map_length; lia). apply map_nth. }
  assert (Y0 : nth 0 y 0 = 0) by reflexivity.
  assert (Ypos : forall i, (i < n)%nat -> 0 <= nth i y 0) by (intros i Hi; rewrite <- Y0 at 1; apply SY; lia).
  split; [exact LY|]. split; [rewrite map_length; exact LY|]. split; [exact Y0|].
  split; [rewrite NTH, Y0 by lia; unfold yA; rewrite EQ; apply f_0; auto|]. split; [exact SY|].
  split. { intros v I. apply in_map_iff in I. destruct I as (s & <- & I). destruct (In_nth _ _ 0 I) as (i & Hi & <-). rewrite LY in Hi. unfold yA; rewrite EQ; split; [apply f_nonneg; auto|apply f_le]. }
  assert (FULL : forall v, yA < v -> 16 * yrm <= v -> rock_p Pmax Epy yA yrm v = Pmax) by (intros v; unfold yA; rewrite EQ; apply f_full; auto).
  assert (LAST : last y 0 = 1.2 * Rmax (1.05 * yA) (16 * yrm)) by (unfold y, yA; rewrite EQ; apply y_last; auto).
  assert (A0 : 0 <= yA) by apply rpow_nonneg.
  split. { rewrite last_nth0, map_length, LY, NTH by lia. rewrite <- LY, <- last_nth0, LAST. pose proof (Rmax_l (1.05 * yA) (16 * yrm)). pose proof (Rmax_r (1.05 * yA) (16 * yrm)). apply FULL; lra. }
  split. { intros i Hi. rewrite N1, NTH by auto. apply FULL. }
  split. { intros i Hi. rewrite N1, NTH by auto. intros L. unfold rock_p. destruct (Rle_dec (nth i y 0) yA); [reflexivity|contradiction]. }
  split. { intros HQp. rewrite N1. apply rpow_pos; auto. }
  assert (QM : forall i j, (i <= j)%nat -> (j < n)%nat -> Rmin 1 (Rpower q 0.00025) * nth i (map (rock_p Pmax Epy yA yrm) y) 0 <= nth j (map (rock_p Pmax Epy yA yrm) y) 0).
  { intros i j Hij Hj. rewrite !NTH by lia. fold (slack q). unfold yA. rewrite EQ. apply f_quasi; auto; [apply Ypos; lia|apply SY; lia]. }
  split; [exact QM|]. intros Q1 i j Hij Hj. rewrite map_length, LY in Hj. specialize (QM i j Hij Hj). fold (slack q) in QM. rewrite EQ, slack_1, Rmult_1_l in QM; auto. rewrite <- EQ. exact Q1.
Qed.

(** Monotonicity is refuted on a whole range: whatever the number of points, the third point is below the
    second when the two branches meet beyond 2.4 yrm and q is small. *)
Theorem C47_monotone_refuted : forall Ei qu RQD xr D k m, 0 < Ei -> 0 < qu -> 0 <= xr -> 0 < D -> 0 < k ->
  let Pmax := rock_ultimate qu RQD xr D in let Epy := rock_stiffness Ei xr D in let yrm := k * D in
  let q := Pmax / (2 * Rpower yrm 0.25 * Epy) in
  q <= 1/30 -> 2.4 * yrm <= 1.01 * Rpower q 1.333 -> 1.01 * Rpower q 1.333 < 16 * yrm ->
  exists y p, reese_weakrock Ei qu RQD xr D k m = Ok (y, p) /\ nth 1 y 0 < nth 2 y 0 /\ nth 2 p 0 < nth 1 p 0.
Proof.
  intros Ei qu RQD xr D k m HE HQ HX HD HK Pmax Epy yrm q L0 L1 L2.
  assert (Hy : 0 < yrm) by (apply Rmult_lt_0_compat; auto). assert (HEp : 0 < Epy) by (apply stiffness_pos; auto).
  assert (HP : 0 < Pmax). { unfold Pmax, rock_ultimate. pose proof (reduction_range RQD). apply Rmult_lt_0_compat; [apply Rmult_lt_0_compat; lra|]. destruct (Rle_dec (3 * D) xr); lra. }
  assert (HN : (8 <= Nat.max 8 m)%nat) by lia. set (n := Nat.max 8 m) in *. pose proof (r_pos yrm Hy) as RP.
  assert (EQ : q = Pmax / (2 * rpow yrm 0.25 * Epy)) by (unfold q; rewrite rpow_pos by auto; reflexivity).
  assert (Q0 : 0 < q) by (rewrite EQ; apply Rdiv_lt_0_compat; auto; apply Rmult_lt_0_compat; [apply Rmult_lt_0_compat; lra|exact HEp]).
  unfold reese_weakrock. fold n. rewrite nonzero_ok by lra. cbv zeta. rewrite ultimate_spec, stiffness_spec by (auto; lra). fold Pmax. fold Epy. fold yrm.
  rewrite nonzero_ok by (apply Rgt_not_eq; apply Rmult_lt_0_compat; [apply Rmult_lt_0_compat; lra|exact HEp]). rewrite <- EQ.
  set (yA := rpow q 1.333). set (y := reese_y yA yrm n). assert (EA : yA = Rpower q 1.333) by (apply rpow_pos; auto). rewrite <- EA in L1, L2.
  rewrite (mapM_ok _ _ _ (rock_p Pmax Epy yA yrm)) by (intros v _; unfold yA; rewrite EQ; apply f_ok; auto). cbn [bind].
  exists y, (map (rock_p Pmax Epy yA yrm) y). split; [reflexivity|].
  assert (LY : length y = n) by (unfold y, yA; rewrite EQ; apply y_length; auto).
  assert (A0 : 0 < yA) by (rewrite EA; apply Rpower_gt0).
  split.
  - unfold y, yA. rewrite EQ, y_nth1, y_nth2 by auto. rewrite <- EQ. fold yA.
    pose proof (Rmax_r (0.15 * Rmax (1.05 * yA) (16 * yrm)) (1.01 * yA)). assert (0 < 1 / INR (Nat.div n 2 - 1)).
    { apply Rdiv_lt_0_compat; [lra|]. apply lt_0_INR. pose proof (halves n HN). lia. } nra.
  - rewrite (nth_indep _ 0 (rock_p Pmax Epy yA yrm 0)) by (rewrite map_length; lia). rewrite map_nth.
    rewrite (nth_indep (map _ _) 0 (rock_p Pmax Epy yA yrm 0)) by (rewrite map_length; lia). rewrite map_nth.
    unfold y, yA. rewrite EQ. apply drop; auto; rewrite <- EQ; auto.
Qed.

(** RQD is clamped to 0..100: values outside act as the nearest bound. *)
Theorem C47_rqd_clamped : forall Ei qu RQD xr D k m, reese_weakrock Ei qu RQD xr D k m = reese_weakrock Ei qu (Rmin 100 (Rmax 0 RQD)) xr D k m.
Proof.
  intros. unfold reese_weakrock. assert (E : reese_alpha (Rmin 100 (Rmax 0 RQD)) = reese_alpha RQD); [|rewrite E; reflexivity].
  unfold reese_alpha. cbv zeta. assert (C : Rmax (Rmin 100 (Rmin 100 (Rmax 0 RQD))) 0 = Rmax (Rmin 100 RQD) 0); [|rewrite C; reflexivity]. unfold Rmin, Rmax. repeat destruct (Rle_dec _ _); lra.
Qed.

Lemma case_root : Rpower (0.0001 * 1) 0.25 = 1/10.
Proof. replace (0.0001 * 1) with ((1/10) ^ 4) by lra. rewrite <- Rpower_pow by lra. rewrite Rpower_mult. replace (INR 4 * 0.25) with 1 by (simpl; lra). apply Rpower_1. lra. Qed.
Lemma case_q : rock_ultimate 1000 0 0 1 / (2 * Rpower (0.0001 * 1) 0.25 * rock_stiffness 15000 0 1) = 1/300.
Proof. rewrite case_root. unfold rock_ultimate, rock_stiffness, rock_reduction. destruct (Rle_dec 0 0); [|lra]. destruct (Rle_dec (3 * 1) 0); [lra|]. field. Qed.
Lemma case_yA : 0.00034 <= Rpower (1/300) 1.333 <= 0.00107.
Proof.
  assert (G : forall c x, 0 < c -> 0 < x -> c ^ 5 <= x ^ 5 -> c <= x).
  { intros c x Hc Hx H. destruct (Rle_lt_dec c x); [auto|exfalso]. assert (x ^ 5 < c ^ 5) by (clear - r Hx; assert (x*x < c*c) by nra; assert (x*x*(x*x) < c*c*(c*c)) by nra; simpl; nra). lra. }
  assert (E5 : forall a b, 5 * a = INR b -> Rpower (1/300) a ^ 5 = (1/300) ^ b).
  { intros a b H. rewrite <- !Rpower_pow by (try apply Rpower_gt0; lra). rewrite Rpower_mult. f_equal. rewrite <- H. simpl. ring. }
  assert (M : forall a b, a <= b -> Rpower (1/300) b <= Rpower (1/300) a).
  { intros a b H. unfold Rpower. assert (N : ln (1/300) < 0) by (rewrite <- ln_1; apply ln_increasing; lra). destruct (Req_dec a b) as [->|NE]; [lra|]. left. apply exp_increasing. nra. }
  split.
  - eapply Rle_trans; [|apply (M 1.333 1.4); lra]. apply G; [lra|apply Rpower_gt0|]. rewrite (E5 1.4 7%nat) by (simpl; lra). lra.
  - eapply Rle_trans; [apply (M 1.2 1.333); lra|]. apply G; [apply Rpower_gt0|lra|]. rewrite (E5 1.2 6%nat) by (simpl; lra). lra.
Qed.
(** A one metre pile in rock of strength 1 MPa and modulus 15 MPa, with k = 0.0001 inside its documented range. *)
Example C47_refuted_case : exists y p, reese_weakrock 15000 1000 0 0 1 0.0001 20 = Ok (y, p) /\ nth 1 y 0 < nth 2 y 0 /\ nth 2 p 0 < nth 1 p 0.
Proof. pose proof case_yA. apply C47_monotone_refuted; try lra; rewrite case_q; lra. Qed.
Example C47_case : exists y p, reese_weakrock 15000 1000 0 0 1 0.0001 20 = Ok (y, p) /\ length p = 20%nat /\ last p 0 = 1000.
Proof.
  destruct (C47_reese_partial 15000 1000 0 0 1 0.0001 20) as (y & p & E & _ & L & _ & _ & _ & _ & LP & _); try lra. exists y, p. split; [exact E|]. split; [exact L|].
  rewrite LP. unfold rock_ultimate, rock_reduction. destruct (Rle_dec 0 0); [|lra]. destruct (Rle_dec (3 * 1) 0); lra.
Qed.

Print Assumptions C47_reese_partial.
Print Assumptions C47_monotone_refuted.
Print Assumptions C47_rqd_clamped.
