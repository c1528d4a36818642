(** Property C128 for Reese's weak rock. *)
From Coq Require Import List Bool Arith ZArith Reals Lra Lia Psatz.
From Verif Require Import Base ConicModel ConicSpec ConicProofs PisaModel PisaProofs ApiSandModel ApiClayProofs ReeseModel ReeseSpec ReeseProofs ReeseProps AxialModel LateralModel LateralSpec LateralProofs LateralProps FirmSpec FirmLateralProofs.
Import ListNotations.
Local Open Scope R_scope.

(** The published curve: the lowest of the ultimate resistance, the straight line and the fourth root. *)
Definition rock_line (Pmax Epy yrm v : R) : R := Rmin Pmax (Rmin (Epy * v) (Pmax / 2 * rpow (v / yrm) 0.25)).
Definition rock_q (Pmax Epy yrm : R) : R := Pmax / (2 * Rpower yrm 0.25 * Epy).
(** how far the code's curve may lie above it, since the code uses 1.333 in place of 4/3 *)
Definition rock_slack (q : R) : R := Rmin (Rpower q 0.00025) (Rpower (/ q) 0.00025).

Lemma rpow_0 : forall a, rpow 0 a = 0. Proof. intros. unfold rpow. destruct (Rlt_dec 0 0); lra. Qed.

Lemma Rpower_inv : forall x a, 0 < x -> Rpower (/ x) a = / Rpower x a.
Proof. intros x a H. unfold Rpower. rewrite ln_Rinv by exact H. rewrite <- exp_Ropp. f_equal. ring. Qed.

Lemma line_mono : forall P E y P' E' y' v v', 0 < P <= P' -> 0 < E <= E' -> 0 < y' <= y -> 0 <= v <= v' -> rock_line P E y v <= rock_line P' E' y' v'.
Proof.
  intros P E y P' E' y' v v' HP HE Hy Hv. unfold rock_line.
  assert (A : E * v <= E' * v') by (apply Rmult_le_compat; lra).
  assert (B : v / y <= v' / y').
  { unfold Rdiv. apply Rmult_le_compat; [lra|left; apply Rinv_0_lt_compat; lra|lra|apply Rinv_le_contravar; lra]. }
  pose proof (rpow_mono (v / y) (v' / y') 0.25 ltac:(lra) B) as C. pose proof (rpow_nonneg (v / y) 0.25).
  assert (D : P / 2 * rpow (v / y) 0.25 <= P' / 2 * rpow (v' / y') 0.25) by (apply Rmult_le_compat; lra).
  unfold Rmin. repeat destruct (Rle_dec _ _); lra.
Qed.

(** the code's curve is no lower ... *)
Lemma above_line : forall P E yA y v, rock_line P E y v <= rock_p P E yA y v.
Proof. intros. unfold rock_line, rock_p, Rmin. repeat destruct (Rle_dec _ _); lra. Qed.

(** ... and hardly higher *)
Lemma near_line : forall P E y v, 0 < P -> 0 < E -> 0 < y -> 0 <= v -> let q := rock_q P E y in
  rock_slack q * rock_p P E (rpow q 1.333) y v <= rock_line P E y v.
Proof.
  intros P E y v HP HE Hy Hv q.
  assert (R0 : 0 < Rpower y 0.25) by apply Rpower_gt0.
  assert (Q0 : 0 < q) by (unfold q, rock_q; apply Rdiv_lt_0_compat; [exact HP|]; apply Rmult_lt_0_compat; [lra|exact HE]).
  assert (QH : P / 2 = q * Rpower y 0.25 * E) by (unfold q, rock_q; field; split; lra).
  set (a := Rpower q 0.00025). assert (A0 : 0 < a) by apply Rpower_gt0. assert (SL : rock_slack q = Rmin a (/ a)) by (unfold rock_slack; rewrite Rpower_inv by exact Q0; reflexivity).
  assert (IA : 0 < / a) by (apply Rinv_0_lt_compat; exact A0). assert (AI : a * / a = 1) by (apply Rinv_r; lra).
  set (s := rock_slack q) in *. assert (S1 : s <= a) by (rewrite SL; apply Rmin_l). assert (S2 : s <= / a) by (rewrite SL; apply Rmin_r).
  assert (S0 : 0 < s) by (rewrite SL; apply Rmin_glb_lt; assumption).
  assert (S3 : s <= 1) by (destruct (Rle_lt_dec a 1); [lra|]; assert (/ a <= 1); [|lra]; rewrite <- Rinv_1; apply Rinv_le_contravar; lra).
  destruct Hv as [Hv|<-].
  2: { unfold rock_line, rock_p. rewrite rpow_pos by exact Q0. destruct (Rle_dec 0 (Rpower q 1.333)) as [_|N]; [|pose proof (Rpower_gt0 q 1.333); lra].
       replace (0 / y) with 0 by (unfold Rdiv; ring). rewrite rpow_0, !Rmult_0_r. rewrite (Rmin_right P 0) by lra. rewrite (Rmin_left 0 0) by lra. rewrite (Rmin_right P 0) by lra. lra. }
  (* the root and the line, in terms of v^0.75 *)
  set (w := Rpower v 0.75). assert (W0 : 0 < w) by apply Rpower_gt0. set (t := Rpower v 0.25). assert (T0 : 0 < t) by apply Rpower_gt0.
  assert (WT : w * t = v) by (unfold w, t; rewrite <- Rpower_plus; replace (0.75 + 0.25) with 1 by lra; apply Rpower_1; exact Hv).
  assert (RT : P / 2 * rpow (v / y) 0.25 = q * E * t).
  { rewrite rpow_pos by (apply Rdiv_lt_0_compat; assumption). rewrite Rpower_div by assumption. fold t. rewrite QH. field. lra. }
  assert (LN : E * v = w * (E * t)) by (rewrite <- WT; ring).
  assert (ET : 0 < E * t) by (apply Rmult_lt_0_compat; assumption).
  unfold rock_line, rock_p. rewrite rpow_pos by exact Q0. rewrite RT, LN. replace (q * E * t) with (q * (E * t)) by ring. set (x := E * t) in *. clearbody x.
  assert (QA : Rpower (Rpower q 1.333) 0.75 = q * / a).
  { rewrite Rpower_mult. unfold a. rewrite <- Rpower_Ropp. rewrite <- (Rpower_1 q) at 2 by exact Q0. rewrite <- Rpower_plus. f_equal. lra. }
  assert (PW : s * P <= P) by nra. assert (PX : 0 < q * x) by (apply Rmult_lt_0_compat; assumption). assert (PV : 0 < w * x) by (apply Rmult_lt_0_compat; assumption).
  destruct (Rle_dec v (Rpower q 1.333)) as [L|L].
  - assert (WQ : w <= q * / a) by (rewrite <- QA; apply Rpower_mono; lra).
    assert (X : s * (w * x) <= q * x).
    { assert (s * w <= q); [|nra]. apply Rle_trans with (a * (q * / a)); [apply Rmult_le_compat; lra|]. replace (a * (q * / a)) with (q * (a * / a)) by ring. rewrite AI. lra. }
    assert (Y : s * (w * x) <= w * x) by nra.
    unfold Rmin. repeat destruct (Rle_dec _ _); nra.
  - assert (WQ : q * / a <= w) by (rewrite <- QA; apply Rpower_mono; [lra|apply Rpower_gt0|lra]).
    assert (X : s * (q * x) <= w * x).
    { assert (s * q <= w); [|nra]. apply Rle_trans with (/ a * q); [apply Rmult_le_compat_r; lra|lra]. }
    assert (Y : s * (q * x) <= q * x) by nra.
    unfold Rmin. repeat destruct (Rle_dec _ _); nra.
Qed.

Lemma reduction_mono : forall r r', r' <= r -> rock_reduction r <= rock_reduction r'.
Proof. intros r r' H. unfold rock_reduction. repeat destruct (Rle_dec _ _); lra. Qed.
Lemma ultimate_mono : forall qu qu' r r' x x' D, 0 < qu <= qu' -> r' <= r -> 0 <= x <= x' -> 0 < D -> 0 < rock_ultimate qu r x D <= rock_ultimate qu' r' x' D.
Proof.
  intros qu qu' r r' x x' D HQ HR HX HD. unfold rock_ultimate. pose proof (reduction_range r). pose proof (reduction_range r'). pose proof (reduction_mono r r' HR).
  assert (A : 0 < rock_reduction r * qu) by (apply Rmult_lt_0_compat; lra). assert (B : rock_reduction r * qu <= rock_reduction r' * qu') by (apply Rmult_le_compat; lra).
  assert (C : 0 < (if Rle_dec (3 * D) x then 5.2 * D else D + 1.4 * x)) by (destruct (Rle_dec _ _); lra).
  assert (E : (if Rle_dec (3 * D) x then 5.2 * D else D + 1.4 * x) <= (if Rle_dec (3 * D) x' then 5.2 * D else D + 1.4 * x')) by (repeat destruct (Rle_dec _ _); lra).
  split; [apply Rmult_lt_0_compat; assumption|apply Rmult_le_compat; lra].
Qed.
Lemma stiffness_mono : forall E E' x x' D, 0 < E <= E' -> 0 <= x <= x' -> 0 < D -> 0 < rock_stiffness E x D <= rock_stiffness E' x' D.
Proof.
  intros E E' x x' D HE HX HD. split; [apply stiffness_pos; lra|]. unfold rock_stiffness.
  assert (I0 : 0 < / D) by (apply Rinv_0_lt_compat; exact HD).
  assert (A : 0 <= x / D) by (apply Rmult_le_pos; lra). assert (B : x / D <= x' / D) by (apply Rmult_le_compat_r; lra).
  assert (T : forall z, ~ 3 * D <= z -> z / D <= 3) by (intros z N; apply (Rmult_le_reg_r D); [exact HD|]; unfold Rdiv; rewrite Rmult_assoc, Rinv_l by lra; lra).
  apply Rmult_le_compat; [lra| |lra|]; repeat destruct (Rle_dec _ _); try lra; pose proof (T x ltac:(assumption)); lra.
Qed.

(** The curve as the code computes it *)
Lemma rock_curve : forall Ei qu RQD xr D k m, 0 < Ei -> 0 < qu -> 0 <= xr -> 0 < D -> 0 < k ->
  let P := rock_ultimate qu RQD xr D in let E := rock_stiffness Ei xr D in
  exists y, reese_weakrock Ei qu RQD xr D k m = Ok (y, map (rock_p P E (rpow (rock_q P E (k * D)) 1.333) (k * D)) y) /\ (forall v, In v y -> 0 <= v) /\
    last (map (rock_p P E (rpow (rock_q P E (k * D)) 1.333) (k * D)) y) 0 = P.
Proof.
  intros Ei qu RQD xr D k m HE HQ HX HD HK P E.
  assert (Hy : 0 < k * D) by (apply Rmult_lt_0_compat; auto). assert (HEp : 0 < E) by (apply stiffness_pos; auto).
  assert (HP : 0 <= P) by (apply ultimate_nonneg; auto; lra). pose proof (r_pos (k * D) Hy) as RP.
  assert (EQ : rock_q P E (k * D) = P / (2 * rpow (k * D) 0.25 * E)) by (unfold rock_q; rewrite rpow_pos by auto; reflexivity).
  assert (RW : exists y, reese_weakrock Ei qu RQD xr D k m = Ok (y, map (rock_p P E (rpow (rock_q P E (k * D)) 1.333) (k * D)) y)).
  { unfold reese_weakrock. rewrite nonzero_ok by lra. cbv zeta. rewrite ultimate_spec, stiffness_spec by (auto; lra). fold P. fold E.
    rewrite nonzero_ok by (apply Rgt_not_eq; apply Rmult_lt_0_compat; [apply Rmult_lt_0_compat; lra|exact HEp]). rewrite <- EQ.
    rewrite (mapM_ok _ _ _ (rock_p P E (rpow (rock_q P E (k * D)) 1.333) (k * D))) by (intros v _; rewrite EQ; apply f_ok; auto). cbn [bind]. eexists. reflexivity. }
  destruct RW as [y RW]. exists y. split; [exact RW|].
  destruct (C47_reese_partial Ei qu RQD xr D k m HE ltac:(lra) HX HD HK) as (y0 & p0 & E0 & L1 & L2 & Y0 & P0 & SY & _ & LP & _). rewrite RW in E0.
  assert (y0 = y /\ p0 = map (rock_p P E (rpow (rock_q P E (k * D)) 1.333) (k * D)) y) as [-> ->] by (split; congruence).
  split; [|exact LP]. intros v Hv. destruct (In_nth _ _ 0 Hv) as (i & Hi & <-). rewrite <- Y0 at 1. apply SY; lia.
Qed.

Lemma in_curve : forall (f : R -> R) y v w, In (v, w) (combine y (map f y)) -> In v y /\ w = f v.
Proof.
  induction y as [|a y IH]; intros v w H; [contradiction|]. cbn [map combine] in H. destruct H as [H|H].
  - assert (a = v /\ f a = w) as [-> <-] by (split; congruence). split; [left; reflexivity|reflexivity].
  - destruct (IH v w H) as [A B]. split; [right; exact A|exact B].
Qed.

(** Weak rock that is no weaker (modulus, strength, quality designation, depth below the rock surface, constant k) resists no less
    up to a factor that differs from one because the code raises to 1.333 instead of 4/3, and its ultimate resistance is no less. *)
Theorem C128_weakrock_partial : forall Ei qu RQD xr k n Ei' qu' RQD' xr' k' n' D, 0 < Ei <= Ei' -> 0 < qu <= qu' -> RQD' <= RQD -> 0 <= xr <= xr' -> 0 < D -> 0 < k' <= k ->
  let q := rock_q (rock_ultimate qu RQD xr D) (rock_stiffness Ei xr D) (k * D) in
  exists y p y' p', reese_weakrock Ei qu RQD xr D k n = Ok (y, p) /\ reese_weakrock Ei' qu' RQD' xr' D k' n' = Ok (y', p') /\
    (forall v w v' w', In (v, w) (combine y p) -> In (v', w') (combine y' p') -> v <= v' -> rock_slack q * w <= w') /\
    last p 0 <= last p' 0.
Proof.
  intros Ei qu RQD xr k n Ei' qu' RQD' xr' k' n' D HE HQ HR HX HD HK q.
  destruct (rock_curve Ei qu RQD xr D k n ltac:(lra) ltac:(lra) ltac:(lra) HD ltac:(lra)) as (y & E & YP & L). destruct (rock_curve Ei' qu' RQD' xr' D k' n' ltac:(lra) ltac:(lra) ltac:(lra) HD ltac:(lra)) as (y' & E' & YP' & L').
  pose proof (ultimate_mono qu qu' RQD RQD' xr xr' D HQ HR HX HD) as MU. pose proof (stiffness_mono Ei Ei' xr xr' D HE HX HD) as MS.
  do 4 eexists. split; [exact E|]. split; [exact E'|]. split; [|rewrite L, L'; lra].
  intros v w v' w' I I' LV. apply in_curve in I, I'. destruct I as [I ->]. destruct I' as [I' ->].
  assert (K0 : 0 < k * D) by (apply Rmult_lt_0_compat; lra). assert (K1 : 0 < k' * D <= k * D) by (split; [apply Rmult_lt_0_compat; lra|apply Rmult_le_compat_r; lra]).
  eapply Rle_trans; [apply near_line; [lra|lra|exact K0|apply YP; exact I]|]. eapply Rle_trans; [|apply above_line].
  apply line_mono; [exact MU|exact MS|exact K1|]. split; [apply YP, I|exact LV].
Qed.
Print Assumptions C128_weakrock_partial.

(** The factor is hardly less than one. *)
Lemma slack_from : forall q a, 0 < a <= 1 -> a <= q <= / a -> Rpower a 0.00025 <= rock_slack q <= 1.
Proof.
  intros q a [A0 A1] [Q1 Q2]. unfold rock_slack.
  assert (Q0 : 0 < q) by lra. assert (IQ : a <= / q) by (rewrite <- (Rinv_inv a); apply Rinv_le_contravar; lra).
  split; [apply Rmin_glb; apply Rpower_mono; lra|].
  assert (O : forall x, 0 < x <= 1 -> Rpower x 0.00025 <= 1).
  { intros x [X0 X1]. pose proof (Rpower_mono 0.00025 x 1 ltac:(lra) X0 X1) as H. replace (Rpower 1 0.00025) with 1 in H by (unfold Rpower; rewrite ln_1, Rmult_0_r, exp_0; reflexivity). exact H. }
  destruct (Rle_lt_dec q 1); [eapply Rle_trans; [apply Rmin_l|apply O; lra]|eapply Rle_trans; [apply Rmin_r|apply O]]. split; [lra|]. rewrite <- Rinv_1. apply Rinv_le_contravar; lra.
Qed.
Lemma ln_10 : ln 10 <= 3.
Proof.
  pose proof (exp_ineq1_le (1/2)) as X. set (e := exp (1/2)) in *. assert (E3 : exp 3 = e ^ 6) by (unfold e; simpl; rewrite Rmult_1_r, <- !exp_plus; f_equal; lra).
  clearbody e. assert (A : 9/4 <= e * e) by nra. set (f := e * e) in *. assert (B : 10 <= e ^ 6) by (replace (e ^ 6) with (f * f * f) by (unfold f; ring); clearbody f; assert (5 <= f * f) by nra; nra).
  rewrite <- (ln_exp 3). destruct B as [B|B]; [left; apply ln_increasing; lra|rewrite E3, <- B; lra].
Qed.
Lemma slack_value : forall q, / 10 ^ 6 <= q <= 10 ^ 6 -> 0.995 <= rock_slack q <= 1.
Proof.
  intros q H. assert (P6 : 0 < 10 ^ 6) by (apply pow_lt; lra). assert (P1 : 1 <= 10 ^ 6) by (simpl; lra).
  destruct (slack_from q (/ 10 ^ 6)) as [A B].
  { split; [apply Rinv_0_lt_compat; exact P6|]. rewrite <- Rinv_1. apply Rinv_le_contravar; lra. }
  { rewrite Rinv_inv. exact H. }
  split; [|exact B]. eapply Rle_trans; [|exact A]. unfold Rpower. rewrite ln_Rinv by exact P6. rewrite ln_pow by lra. pose proof ln_10.
  eapply Rle_trans; [|apply exp_ineq1_le]. simpl INR. lra.
Qed.

(** ... so that for all rocks whose line and root meet between 10^-8 m and 10^8 m the comparison holds within half a percent. *)
Theorem C128_weakrock_percent_partial : forall Ei qu RQD xr k n Ei' qu' RQD' xr' k' n' D, 0 < Ei <= Ei' -> 0 < qu <= qu' -> RQD' <= RQD -> 0 <= xr <= xr' -> 0 < D -> 0 < k' <= k ->
  / 10 ^ 6 <= rock_q (rock_ultimate qu RQD xr D) (rock_stiffness Ei xr D) (k * D) <= 10 ^ 6 ->
  exists y p y' p', reese_weakrock Ei qu RQD xr D k n = Ok (y, p) /\ reese_weakrock Ei' qu' RQD' xr' D k' n' = Ok (y', p') /\
    (forall v w v' w', In (v, w) (combine y p) -> In (v', w') (combine y' p') -> v <= v' -> 0.995 * w <= w').
Proof.
  intros Ei qu RQD xr k n Ei' qu' RQD' xr' k' n' D HE HQ HR HX HD HK HS. destruct (slack_value _ HS) as [S0 _].
  destruct (C128_weakrock_partial Ei qu RQD xr k n Ei' qu' RQD' xr' k' n' D HE HQ HR HX HD HK) as (y & p & y' & p' & E & E' & C & _). exists y, p, y', p'. split; [exact E|]. split; [exact E'|].
  intros v w v' w' I I' L. eapply Rle_trans; [|exact (C v w v' w' I I' L)]. apply Rmult_le_compat_r; [|exact S0].
  destruct (C47_reese_partial Ei qu RQD xr D k n ltac:(lra) ltac:(lra) ltac:(lra) HD ltac:(lra)) as (y0 & p0 & E0 & _ & _ & _ & _ & _ & B & _). rewrite E in E0.
  assert (p0 = p) by congruence. subst p0. apply B. exact (in_combine_r _ _ _ _ I).
Qed.
Print Assumptions C128_weakrock_percent_partial.

(** Without the factor it is false, already of a rock and itself: the curve falls. *)
Theorem C128_weakrock_refuted : forall Ei qu RQD xr D k m, 0 < Ei -> 0 < qu -> 0 <= xr -> 0 < D -> 0 < k ->
  let q := rock_q (rock_ultimate qu RQD xr D) (rock_stiffness Ei xr D) (k * D) in
  q <= 1/30 -> 2.4 * (k * D) <= 1.01 * Rpower q 1.333 -> 1.01 * Rpower q 1.333 < 16 * (k * D) ->
  exists y p, reese_weakrock Ei qu RQD xr D k m = Ok (y, p) /\ ~ outdone y p y p.
Proof.
  intros Ei qu RQD xr D k m HE HQ HX HD HK q L0 L1 L2. destruct (C47_monotone_refuted Ei qu RQD xr D k m HE HQ HX HD HK L0 L1 L2) as (y & p & E & A & B). exists y, p. split; [exact E|].
  destruct (C47_reese_partial Ei qu RQD xr D k m HE ltac:(lra) HX HD HK) as (y0 & p0 & E0 & N1 & N2 & _). rewrite E in E0. assert (y0 = y /\ p0 = p) as [-> ->] by (split; congruence).
  intros [O _]. assert (I : forall i, (i < 8)%nat -> In (nth i y 0, nth i p 0) (combine y p)).
  { intros i Hi. rewrite <- (combine_nth y p i 0 0) by congruence. apply nth_In. rewrite combine_length. lia. }
  specialize (O _ _ _ _ (I 1%nat ltac:(lia)) (I 2%nat ltac:(lia)) ltac:(lra)). lra.
Qed.
Print Assumptions C128_weakrock_refuted.

(** The springs of two such rocks *)
Theorem C128_weakrock_springs_partial : forall Ei qu RQD k zt pm ym Ei' qu' RQD' k' zt' pm' ym' u u' pl pl' e s e' s',
  let m := Reese_weakrock Ei qu RQD k zt pm ym in let m' := Reese_weakrock Ei' qu' RQD' k' zt' pm' ym' in
  good_place pl -> good_place pl' -> no_shallower pl pl' -> value Ei pl = Ok e -> value qu pl = Ok s -> value Ei' pl' = Ok e' -> value qu' pl' = Ok s' ->
  0 < e <= e' -> 0 < s <= s' -> RQD' <= RQD -> 0 <= zt <= zt' -> 0 < k' <= k -> no_weaker m m' pl -> 0 <= at_X pm (q_X pl) -> 0 < at_X ym' (q_X pl) ->
  / 10 ^ 6 <= rock_q (rock_ultimate s RQD (q_X pl + zt) (q_D pl)) (rock_stiffness e (q_X pl + zt) (q_D pl)) (k * q_D pl) <= 10 ^ 6 ->
  exists y p y' p', py_spring_fct m u pl 0 15 = Ok (y, map Some p) /\ py_spring_fct m' u' pl' 0 15 = Ok (y', map Some p') /\
    (forall v w v' w', In (v, w) (combine y p) -> In (v', w') (combine y' p') -> v <= v' -> 0.995 * w <= w').
Proof.
  intros Ei qu RQD k zt pm ym Ei' qu' RQD' k' zt' pm' ym' u u' pl pl' e s e' s' m m' G G' (_ & EX & _ & _ & ED & _) V1 V2 V1' V2' HE HS HR HZ HK [NP NY] PM YM HQ.
  assert (HD : 0 < q_D pl) by apply G. assert (HX : 0 <= q_X pl) by apply G.
  destruct (C128_weakrock_percent_partial e s RQD (q_X pl + zt) k 15 e' s' RQD' (q_X pl + zt') k' 15 (q_D pl) HE HS HR ltac:(lra) HD HK HQ) as (y & p & y' & p' & E & E' & C).
  unfold py_spring_fct. rewrite !inside_ok by (apply g_depth; assumption). unfold m, m', py_curve. rewrite V1, V2, V1', V2'. cbn [bind]. rewrite EX, ED, E, E'. cbn [numbers bind p_multiplier y_multiplier].
  rewrite !scaled_numbers. do 4 eexists. split; [reflexivity|]. split; [reflexivity|]. cbn [m m' p_multiplier y_multiplier] in NP, NY.
  assert (CM : forall a b (l l' : list R) v w, In (v, w) (combine (map (fun x => x * a) l) (map (fun x => x * b) l')) -> exists v0 w0, In (v0, w0) (combine l l') /\ v = v0 * a /\ w = w0 * b).
  { clear. intros a b. induction l as [|x l IH]; intros [|x' l'] v w H; try contradiction. cbn [map combine] in H. destruct H as [H|H].
    - exists x, x'. split; [left; reflexivity|]. split; congruence.
    - destruct (IH l' v w H) as (v0 & w0 & I & J). exists v0, w0. split; [right; exact I|exact J]. }
  destruct (C47_reese_partial e s RQD (q_X pl + zt) (q_D pl) k 15 ltac:(lra) ltac:(lra) ltac:(lra) HD ltac:(lra)) as (y0 & p0 & E0 & N1 & _ & Y0 & _ & SY & B & _). rewrite E in E0. assert (y0 = y /\ p0 = p) as [-> ->] by (split; congruence).
  destruct (C47_reese_partial e' s' RQD' (q_X pl + zt') (q_D pl) k' 15 ltac:(lra) ltac:(lra) ltac:(lra) HD ltac:(lra)) as (y1 & p1 & E1 & N1' & _ & Y0' & _ & SY' & B' & _). rewrite E' in E1. assert (y1 = y' /\ p1 = p') as [-> ->] by (split; congruence).
  intros v w v' w' I I' L. apply CM in I, I'. destruct I as (v0 & w0 & I & -> & ->). destruct I' as (v0' & w0' & I' & -> & ->).
  assert (Y1 : 0 <= v0') by (destruct (In_nth _ _ 0 (in_combine_l _ _ _ _ I')) as (i & Hi & <-); rewrite <- Y0' at 1; apply (SY' 0%nat i); [apply Nat.le_0_l|exact Hi]).
  assert (W1 : 0 <= w0) by (apply B; exact (in_combine_r _ _ _ _ I)). assert (W1' : 0 <= w0') by (apply B'; exact (in_combine_r _ _ _ _ I')).
  assert (LV : v0 <= v0') by (apply (Rmult_le_reg_r (at_X ym (q_X pl))); [lra|]; eapply Rle_trans; [exact L|]; apply Rmult_le_compat_l; lra).
  pose proof (C v0 w0 v0' w0' I I' LV) as CW. replace (0.995 * (w0 * at_X pm (q_X pl))) with (0.995 * w0 * at_X pm (q_X pl)) by ring. apply Rmult_le_compat; lra.
Qed.
Print Assumptions C128_weakrock_springs_partial.

(** A one metre pile in rock of strength 1 MPa and modulus 15 MPa, and in rock of 1.2 MPa and 20 MPa *)
Example C128_weakrock_case : exists y p y' p', reese_weakrock 15000 1000 0 0 1 0.0001 20 = Ok (y, p) /\ reese_weakrock 20000 1200 0 0 1 0.0001 20 = Ok (y', p') /\
  (forall v w v' w', In (v, w) (combine y p) -> In (v', w') (combine y' p') -> v <= v' -> 0.995 * w <= w') /\ ~ outdone y p y p.
Proof.
  pose proof case_yA as CY. pose proof case_q as CQ. fold (rock_q (rock_ultimate 1000 0 0 1) (rock_stiffness 15000 0 1) (0.0001 * 1)) in CQ.
  destruct (C128_weakrock_percent_partial 15000 1000 0 0 0.0001 20 20000 1200 0 0 0.0001 20 1) as (y & p & y' & p' & E & E' & C); try lra; try (split; lra).
  destruct (C128_weakrock_refuted 15000 1000 0 0 1 0.0001 20) as (y0 & p0 & E0 & N); try lra; try (rewrite CQ; lra).
  rewrite E in E0. assert (y0 = y /\ p0 = p) as [-> ->] by (split; congruence). exists y, p, y', p'. split; [exact E|]. split; [exact E'|]. split; [exact C|exact N].
Qed.

(** The same as springs *)
Example C128_weakrock_spring_case : let pl := mkPlace 50 0 10 5 1 20 true in
  let rock e s := Reese_weakrock (PNum e) (PNum s) 0 0.0001 0 (MNum 1) (MNum 1) in
  good_place pl /\ no_shallower pl pl /\ value (PNum 15000) pl = Ok 15000 /\ value (PNum 1000) pl = Ok 1000 /\ no_weaker (rock 15000 1000) (rock 20000 1200) pl /\
  / 10 ^ 6 <= rock_q (rock_ultimate 1000 0 (q_X pl + 0) (q_D pl)) (rock_stiffness 15000 (q_X pl + 0) (q_D pl)) (0.0001 * q_D pl) <= 10 ^ 6.
Proof.
  intros pl rock. split; [constructor; cbn; lra|]. split; [unfold no_shallower; repeat split; lra|].
  assert (V : forall c, value (PNum c) pl = Ok c).
  { intros c. unfold value, in_layer. cbn [top_bottom bind fst snd]. rewrite at_depth_between by (cbn; lra). f_equal. unfold LateralSpec.between. ring. }
  split; [apply V|]. split; [apply V|]. split; [split; cbn; lra|]. cbn [pl q_X q_D]. replace (0 + 0) with 0 by ring.
  pose proof case_q as CQ. fold (rock_q (rock_ultimate 1000 0 0 1) (rock_stiffness 15000 0 1) (0.0001 * 1)) in CQ. rewrite CQ. simpl. lra.
Qed.
