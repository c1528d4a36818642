(** Proofs about the API sand curve. *)
From Coq Require Import List Reals Lra Lia Psatz.
From Verif Require Import Base ConicModel ConicSpec ConicProofs PisaModel PisaProofs ApiSandModel ApiSandSpec.
Import ListNotations.
Local Open Scope R_scope.

(** ** Hyperbolic tangent *)
Lemma tanh_exp : forall x, tanh x = 1 - 2 / (exp (2 * x) + 1).
Proof.
  intros x. unfold tanh, sinh, cosh. replace (2 * x) with (x + x) by ring. rewrite exp_plus, exp_Ropp. pose proof (exp_pos x) as P.
  assert (0 < exp x * exp x) by (apply Rmult_lt_0_compat; auto).
  field. repeat split; nra.
Qed.

Lemma tanh_bounds : forall x, -1 < tanh x /\ tanh x < 1.
Proof.
  intros x. rewrite tanh_exp. pose proof (exp_pos (2 * x)) as P. assert (0 < / (exp (2 * x) + 1)) by (apply Rinv_0_lt_compat; lra).
  assert (/ (exp (2 * x) + 1) < 1). { rewrite <- Rinv_1. apply Rinv_lt_contravar; lra. } unfold Rdiv. lra.
Qed.

Lemma tanh_mono : forall x y, x <= y -> tanh x <= tanh y.
Proof.
  intros x y [L| ->]; [|lra]. rewrite !tanh_exp. pose proof (exp_pos (2 * x)). assert (exp (2 * x) < exp (2 * y)) by (apply exp_increasing; lra).
  assert (/ (exp (2 * y) + 1) < / (exp (2 * x) + 1)) by (apply Rinv_lt_contravar; [apply Rmult_lt_0_compat; lra|lra]). unfold Rdiv. lra.
Qed.

Lemma tanh_0 : tanh 0 = 0.
Proof. rewrite tanh_exp, Rmult_0_r, exp_0. field. Qed.

Lemma exp_nat : forall n x, exp (INR n * x) = exp x ^ n.
Proof.
  induction n as [|n IH]; intros x; [cbn; rewrite Rmult_0_l; apply exp_0|]. rewrite S_INR, Rmult_plus_distr_r, Rmult_1_l, exp_plus, IH. cbn [pow]. ring.
Qed.

Lemma exp_8 : 1999 <= exp 8.
Proof.
  replace 8 with (INR 128 * (1/16)) by (rewrite INR_IZR_INZ; cbn; lra). rewrite exp_nat.
  apply Rle_trans with ((1 + 1/16) ^ 128); [lra|]. apply pow_incr. split; [lra|]. left. apply exp_ineq1. lra.
Qed.

Lemma tanh_4 : 0.999 <= tanh 4.
Proof.
  rewrite tanh_exp. replace (2 * 4) with 8 by ring. pose proof exp_8 as E. assert (/ (exp 8 + 1) <= / 2000) by (apply Rinv_le_contravar; lra). unfold Rdiv. lra.
Qed.

(** ** Factors *)
Lemma api_k_pos : forall phi b, 5400 <= api_k phi b.
Proof. intros phi [|]; unfold api_k; apply Rmax_r. Qed.

Section Factors.
Variable phi : R.
Hypothesis P0 : 0 < phi.
Hypothesis P90 : phi < 90.
Let beta := deg (45 + phi / 2).

Lemma pi_pos : 0 < PI / 180.
Proof. pose proof PI_RGT_0. lra. Qed.

Lemma beta_range : PI / 4 < beta < PI / 2.
Proof. unfold beta, deg. pose proof pi_pos. split; nra. Qed.

Lemma tb_gt1 : 1 < tan beta.
Proof. destruct beta_range. rewrite <- tan_PI4. apply tan_increasing; [|auto|auto]. pose proof PI_RGT_0. lra. Qed.

Lemma sb_pos : 1/2 < sin beta.
Proof. destruct beta_range. pose proof PI_RGT_0. rewrite <- sin_PI6. apply sin_increasing_1; lra. Qed.

Lemma cb_pos : 0 < cos beta.
Proof. destruct beta_range. pose proof PI_RGT_0. apply cos_gt_0; lra. Qed.

Lemma tan_co : tan (PI / 2 - beta) = / tan beta.
Proof. unfold tan. rewrite sin_shift, cos_shift. pose proof sb_pos. pose proof cb_pos. field. split; lra. Qed.

Lemma ang_co : (45 + phi / 2 - phi) * (PI / 180) = PI / 2 - beta.
Proof. unfold beta, deg. field. Qed.
Lemma ang_co' : (45 - phi / 2) * (PI / 180) = PI / 2 - beta.
Proof. unfold beta, deg. field. Qed.

Lemma half_range : 0 < deg phi / 2 < PI / 4.
Proof. unfold deg. pose proof pi_pos. split; nra. Qed.
Lemma th_pos : 0 < tan (deg phi / 2).
Proof. destruct half_range. pose proof PI_RGT_0. apply tan_gt_0; lra. Qed.
Lemma th_lt1 : tan (deg phi / 2) < 1.
Proof. destruct half_range. pose proof PI_RGT_0. rewrite <- tan_PI4. apply tan_increasing; lra. Qed.
Lemma ch_pos : 0 < cos (deg phi / 2).
Proof. destruct half_range. pose proof PI_RGT_0. apply cos_gt_0; lra. Qed.

Lemma tphi : tan (deg phi) = 2 * tan (deg phi / 2) / (1 - tan (deg phi / 2) * tan (deg phi / 2)).
Proof.
  destruct half_range. pose proof PI_RGT_0. pose proof th_pos. pose proof th_lt1. replace (deg phi) with (2 * (deg phi / 2)) at 1 by field. apply tan_2a.
  - apply Rgt_not_eq. apply ch_pos.
  - apply Rgt_not_eq. apply cos_gt_0; lra.
  - nra.
Qed.

Lemma tphi_ge : 2 * tan (deg phi / 2) <= tan (deg phi).
Proof.
  rewrite tphi. pose proof th_pos. pose proof th_lt1. set (t := tan (deg phi / 2)) in *. assert (0 < 1 - t * t) by nra.
  apply Rmult_le_reg_r with (1 - t * t); auto. replace (2 * t / (1 - t * t) * (1 - t * t)) with (2 * t) by (field; lra). nra.
Qed.

Lemma factors_ok : api_factors phi = Ok (wedge_C1 phi, wedge_C2 phi, flow_C3 phi).
Proof.
  unfold api_factors. cbv zeta. rewrite ang_co, ang_co', tan_co. pose proof tb_gt1. pose proof ch_pos as CH.
  replace (phi / 2 * (PI / 180)) with (deg phi / 2) by (unfold deg; field).
  change (phi * (PI / 180)) with (deg phi). change ((45 + phi / 2) * (PI / 180)) with beta.
  assert (IT : 0 < / tan beta) by (apply Rinv_0_lt_compat; lra).
  rewrite !nonzero_ok by (apply Rgt_not_eq; try apply Rmult_lt_0_compat; auto).
  unfold wedge_C1, wedge_C2, flow_C3, Kp. fold beta. f_equal. f_equal; [f_equal|]; field; repeat split; lra.
Qed.

Lemma C1_pos : 0 < wedge_C1 phi.
Proof.
  unfold wedge_C1. fold beta. pose proof tb_gt1. pose proof sb_pos. pose proof th_pos. pose proof tphi_ge. pose proof ch_pos.
  set (t := tan (deg phi / 2)) in *. set (b := tan beta) in *. set (s := sin beta) in *. set (f := tan (deg phi)) in *. set (c := cos (deg phi / 2)) in *.
  assert (0 < f * s) by (apply Rmult_lt_0_compat; lra). assert (t < f * s) by nra.
  assert (0 < 0.4 * f * s * b / c) by (apply Rdiv_lt_0_compat; [|auto]; apply Rmult_lt_0_compat; [rewrite Rmult_assoc; apply Rmult_lt_0_compat; lra|lra]).
  assert (0 < b ^ 3 * t) by (apply Rmult_lt_0_compat; [apply pow_lt; lra|lra]).
  assert (0 < 0.4 * b * (f * s - t)) by (apply Rmult_lt_0_compat; lra). lra.
Qed.

Lemma Kp_gt1 : 1 < Kp phi.
Proof. unfold Kp. fold beta. pose proof tb_gt1. nra. Qed.

Lemma C2_pos : 0 < wedge_C2 phi.
Proof. unfold wedge_C2. pose proof Kp_gt1. assert (/ Kp phi < 1) by (rewrite <- Rinv_1; apply Rinv_lt_contravar; lra). lra. Qed.

Lemma C3_pos : 0 < flow_C3 phi.
Proof.
  unfold flow_C3. pose proof Kp_gt1. pose proof th_pos. pose proof tphi_ge. assert (0 < Kp phi ^ 2) by (apply pow_lt; lra).
  assert (0 < 0.4 * tan (deg phi) * Kp phi ^ 2) by (apply Rmult_lt_0_compat; [apply Rmult_lt_0_compat; lra|auto]).
  assert (1 < Kp phi ^ 4) by (apply Rlt_pow_R1; [auto|lia]).
  assert (0 < (Kp phi ^ 4 - 1) / Kp phi) by (apply Rdiv_lt_0_compat; lra). lra.
Qed.

Lemma ultimate_pos : forall sig X D, 0 < sig -> 0 <= X -> 0 < D -> 0 < sand_ultimate sig X phi D.
Proof.
  intros sig X D HS HX HD. unfold sand_ultimate. pose proof C1_pos. pose proof C2_pos. pose proof C3_pos. apply Rmin_pos.
  - apply Rmult_lt_0_compat; auto. apply Rmult_lt_0_compat; auto.
  - apply Rmult_lt_0_compat; auto. assert (0 <= wedge_C1 phi * X) by (apply Rmult_le_pos; lra). assert (0 < wedge_C2 phi * D) by (apply Rmult_lt_0_compat; auto). lra.
Qed.
End Factors.

Lemma ultimate_zero : forall X phi D, sand_ultimate 0 X phi D = 0.
Proof. intros. unfold sand_ultimate. rewrite Rmin_left; lra. Qed.

Definition sand_A (X D : R) (kind : loading) : R := match kind with Static => Rmax 0.9 (3 - 0.8 * X / D) | Cyclic => 0.9 end.
Lemma sand_A_ge : forall X D kind, 0.9 <= sand_A X D kind.
Proof. intros X D [|]; unfold sand_A; [apply Rmax_l|lra]. Qed.

Definition sand_k (phi : R) (b : bool) (k : R) : R := if Req_EM_T k 0 then api_k phi b else k.
Lemma sand_k_pos : forall phi b k, 0 <= k -> 0 < sand_k phi b k.
Proof. intros phi b k H. unfold sand_k. pose proof (api_k_pos phi b). destruct (Req_EM_T k 0); lra. Qed.

(** Extent of the curve when [ymax] is left at zero. *)
Definition sand_ymax (sig X phi D : R) (kind : loading) (b : bool) (k ymax : R) : R :=
  if Req_EM_T ymax 0 then
    4 * sand_A X D kind * (if Req_EM_T (sand_ultimate sig X phi D) 0 then (flow_C3 phi * D + wedge_C2 phi * D) / 2 else sand_ultimate sig X phi D) / (sand_k phi b k * Rmax X 0.1)
  else ymax.

Definition sand_p (sig X phi D : R) (kind : loading) (b : bool) (k v : R) : R :=
  let P := sand_ultimate sig X phi D in let A := sand_A X D kind in
  if Req_EM_T P 0 then 0 else A * P * tanh ((sand_k phi b k * X * v) / (A * P)).

Lemma api_sand_eq : forall sig X phi D kind b k ymax m, 0 < phi -> phi < 90 -> 0 < D -> 0 <= k ->
  api_sand sig X phi D kind b k ymax m =
  Ok (linspace 0 (sand_ymax sig X phi D kind b k ymax) (Nat.max 8 m), map (sand_p sig X phi D kind b k) (linspace 0 (sand_ymax sig X phi D kind b k ymax) (Nat.max 8 m))).
Proof.
  intros sig X phi D kind b k ymax m P0 P1 HD HK. unfold api_sand.
  replace (match kind with Static => nonzero D (Ok (Rmax 0.9 (3 - 0.8 * X / D))) | Cyclic => Ok 0.9 end) with (Ok (sand_A X D kind)).
  2:{ destruct kind; unfold sand_A; [rewrite nonzero_ok by lra; reflexivity|reflexivity]. }
  cbn [bind]. replace (if Req_EM_T k 0 then Ok (api_k phi b) else if Rlt_dec k 0 then Err ValueError else Ok k) with (Ok (sand_k phi b k)).
  2:{ unfold sand_k. destruct (Req_EM_T k 0); [reflexivity|]. destruct (Rlt_dec k 0); [lra|reflexivity]. }
  cbn [bind]. rewrite factors_ok by auto. cbn [bind].
  replace (Rmin (flow_C3 phi * sig * D) (wedge_C1 phi * sig * X + wedge_C2 phi * sig * D)) with (sand_ultimate sig X phi D) by (unfold sand_ultimate; f_equal; ring).
  reflexivity.
Qed.

Lemma sand_ymax_pos : forall sig X phi D kind b k ymax, 0 < phi -> phi < 90 -> 0 < D -> 0 <= k -> 0 <= sig -> 0 <= X -> 0 <= ymax -> 0 < sand_ymax sig X phi D kind b k ymax.
Proof.
  intros sig X phi D kind b k ymax P0 P1 HD HK HS HX HY. unfold sand_ymax. destruct (Req_EM_T ymax 0); [|lra].
  pose proof (sand_A_ge X D kind). pose proof (sand_k_pos phi b k HK). assert (0.1 <= Rmax X 0.1) by apply Rmax_r.
  apply Rdiv_lt_0_compat; [|apply Rmult_lt_0_compat; lra]. apply Rmult_lt_0_compat; [lra|].
  destruct (Req_EM_T (sand_ultimate sig X phi D) 0) as [Z|Z].
  - pose proof (C3_pos phi P0 P1). pose proof (C2_pos phi P0 P1). assert (0 < flow_C3 phi * D) by (apply Rmult_lt_0_compat; auto). assert (0 < wedge_C2 phi * D) by (apply Rmult_lt_0_compat; auto). lra.
  - destruct HS as [HS|HS]; [apply ultimate_pos; auto|]. rewrite <- HS, ultimate_zero in Z. contradiction.
Qed.

Lemma sand_p_mono : forall sig X phi D kind b k u v, 0 < phi -> phi < 90 -> 0 < D -> 0 <= k -> 0 <= sig -> 0 <= X -> u <= v ->
  sand_p sig X phi D kind b k u <= sand_p sig X phi D kind b k v.
Proof.
  intros sig X phi D kind b k u v P0 P1 HD HK HS HX L. unfold sand_p. cbv zeta. destruct (Req_EM_T (sand_ultimate sig X phi D) 0) as [Z|Z]; [lra|].
  assert (P : 0 < sand_ultimate sig X phi D). { destruct HS as [HS|HS]; [apply ultimate_pos; auto|]. rewrite <- HS, ultimate_zero in Z. contradiction. }
  pose proof (sand_A_ge X D kind). pose proof (sand_k_pos phi b k HK). assert (0 < sand_A X D kind * sand_ultimate sig X phi D) by (apply Rmult_lt_0_compat; lra).
  apply Rmult_le_compat_l; [lra|]. apply tanh_mono. apply Rmult_le_compat_r; [left; apply Rinv_0_lt_compat; auto|].
  apply Rmult_le_compat_l; [apply Rmult_le_pos; lra|auto].
Qed.
