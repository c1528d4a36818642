(** Lemmas for the weak rock curve. *)
From Coq Require Import List Reals Lra Lia Psatz.
From Verif Require Import Base ConicModel ConicSpec ConicProofs PisaModel PisaProofs ApiSandModel ApiClayProofs ReeseModel ReeseSpec.
Import ListNotations.
Local Open Scope R_scope.

Lemma alpha_spec : forall RQD, reese_alpha RQD = rock_reduction RQD.
Proof.
  intros RQD. unfold reese_alpha, rock_reduction. cbv zeta. destruct (Rle_dec RQD 0).
  - rewrite Rmin_right, Rmax_right by (try rewrite Rmin_right by lra; lra). lra.
  - destruct (Rle_dec 100 RQD); [rewrite Rmin_left, Rmax_left by lra|rewrite Rmin_right, Rmax_left by lra]; lra.
Qed.
Lemma reduction_range : forall RQD, 1/3 <= rock_reduction RQD <= 1.
Proof. intros RQD. unfold rock_reduction. destruct (Rle_dec RQD 0); [lra|]. destruct (Rle_dec 100 RQD); lra. Qed.

Lemma ultimate_spec : forall qu RQD xr D, 0 < D -> 0 <= qu ->
  Rmin (5.2 * reese_alpha RQD * qu * D) (reese_alpha RQD * qu * D * (1 + 1.4 * xr / D)) = rock_ultimate qu RQD xr D.
Proof.
  intros qu RQD xr D HD HQ. rewrite alpha_spec. unfold rock_ultimate. pose proof (reduction_range RQD). set (a := rock_reduction RQD) in *.
  replace (a * qu * D * (1 + 1.4 * xr / D)) with (a * qu * (D + 1.4 * xr)) by (field; lra). replace (5.2 * a * qu * D) with (a * qu * (5.2 * D)) by ring.
  assert (0 <= a * qu) by (apply Rmult_le_pos; lra). destruct (Rle_dec (3 * D) xr).
  - apply Rmin_left. apply Rmult_le_compat_l; lra.
  - apply Rmin_right. apply Rmult_le_compat_l; lra.
Qed.
Lemma stiffness_spec : forall Ei xr D, 0 < D -> Ei * Rmin 500 (100 + 400 * xr / (3 * D)) = rock_stiffness Ei xr D.
Proof.
  intros Ei xr D HD. unfold rock_stiffness. f_equal. replace (400 * xr / (3 * D)) with (400/3 * (xr / D)) by (field; lra).
  assert (Q : 3 * D <= xr <-> 3 <= xr / D).
  { split; intros L; [apply frac_ge; auto|]. apply (Rmult_le_compat_r D) in L; [|lra]. unfold Rdiv in L. rewrite Rmult_assoc, Rinv_l in L by lra. lra. }
  destruct (Rle_dec (3 * D) xr); [apply Rmin_left|apply Rmin_right]; destruct (Rle_dec 3 (xr / D)); try tauto; lra.
Qed.
Lemma ultimate_nonneg : forall qu RQD xr D, 0 < D -> 0 <= qu -> 0 <= xr -> 0 <= rock_ultimate qu RQD xr D.
Proof.
  intros qu RQD xr D HD HQ HX. unfold rock_ultimate. pose proof (reduction_range RQD). apply Rmult_le_pos; [apply Rmult_le_pos; lra|]. destruct (Rle_dec (3 * D) xr); lra.
Qed.
Lemma stiffness_pos : forall Ei xr D, 0 < D -> 0 < Ei -> 0 <= xr -> 0 < rock_stiffness Ei xr D.
Proof.
  intros Ei xr D HD HE HX. unfold rock_stiffness. assert (0 <= xr / D) by (apply Rmult_le_pos; [lra|left; apply Rinv_0_lt_compat; lra]).
  apply Rmult_lt_0_compat; [lra|]. destruct (Rle_dec (3 * D) xr); lra.
Qed.

Lemma rpow_pos : forall x a, 0 < x -> rpow x a = Rpower x a.
Proof. intros. unfold rpow. destruct (Rlt_dec 0 x); [reflexivity|contradiction]. Qed.
Lemma Rpower_gt0 : forall x a, 0 < Rpower x a. Proof. intros. apply exp_pos. Qed.
Lemma rpow_nonneg : forall x a, 0 <= rpow x a.
Proof. intros. unfold rpow. destruct (Rlt_dec 0 x); [left; apply Rpower_gt0|lra]. Qed.
Lemma rpow_mono : forall x y a, 0 <= a -> x <= y -> rpow x a <= rpow y a.
Proof. intros x y a Ha H. unfold rpow at 1. destruct (Rlt_dec 0 x); [|apply rpow_nonneg]. rewrite rpow_pos by lra. apply Rpower_mono; auto. Qed.
Lemma fourth : forall x, 0 < x -> (2 * rpow x 0.25) ^ 4 = 16 * x.
Proof.
  intros x H. rewrite rpow_pos by auto. replace ((2 * Rpower x 0.25) ^ 4) with (16 * Rpower x 0.25 ^ 4) by ring. f_equal.
  rewrite <- Rpower_pow by apply Rpower_gt0. rewrite Rpower_mult. replace (0.25 * INR 4) with 1 by (simpl; lra). apply Rpower_1; auto.
Qed.
Lemma Rpower_16 : Rpower 16 0.25 = 2.
Proof. replace 16 with (2 ^ 4) by ring. rewrite <- Rpower_pow by lra. rewrite Rpower_mult. replace (INR 4 * 0.25) with 1 by (simpl; lra). apply Rpower_1. lra. Qed.
Lemma Rpower_div : forall x y a, 0 < x -> 0 < y -> Rpower (x / y) a = Rpower x a / Rpower y a.
Proof. intros x y a Hx Hy. unfold Rdiv. unfold Rpower. rewrite ln_mult by (auto; apply Rinv_0_lt_compat; auto). rewrite ln_Rinv by auto.
  replace (a * (ln x + - ln y)) with (a * ln x + - (a * ln y)) by ring. rewrite exp_plus, exp_Ropp. reflexivity. Qed.

Section Rock.
Variables (Pmax Epy yrm : R) (n : nat).
Hypothesis HP : 0 <= Pmax.
Hypothesis HE : 0 < Epy.
Hypothesis Hy : 0 < yrm.
Hypothesis HN : (8 <= n)%nat.
Let q := Pmax / (2 * rpow yrm 0.25 * Epy).
Let yA := rpow q 1.333.
Let ymax := Rmax (1.05 * yA) (16 * yrm).
Let y := reese_y yA yrm n.
Definition rock_p (Pmax Epy yA yrm v : R) : R := if Rle_dec v yA then Rmin Pmax (Epy * v) else Rmin Pmax (Pmax / 2 * rpow (v / yrm) 0.25).
Let f := rock_p Pmax Epy yA yrm.

Lemma r_pos : 0 < rpow yrm 0.25. Proof. rewrite rpow_pos by auto. apply Rpower_gt0. Qed.
Lemma q_nonneg : 0 <= q.
Proof. unfold q. apply Rmult_le_pos; auto. left. apply Rinv_0_lt_compat. pose proof r_pos. apply Rmult_lt_0_compat; lra. Qed.
Lemma q_half : Pmax / 2 = q * rpow yrm 0.25 * Epy. Proof. unfold q. pose proof r_pos. field. split; lra. Qed.
Lemma yA_nonneg : 0 <= yA. Proof. apply rpow_nonneg. Qed.
Lemma ymax_bounds : 1.05 * yA <= ymax /\ 16 * yrm <= ymax. Proof. split; [apply Rmax_l|apply Rmax_r]. Qed.
Lemma yA_lt_ymax : yA < ymax. Proof. pose proof yA_nonneg. pose proof ymax_bounds. lra. Qed.

Lemma y_eq : y = [0] ++ linspace yA (Rmax (0.15 * ymax) (1.01 * yA)) (Nat.div n 2) ++ linspace (Rmax (yA * 1.02) (0.25 * ymax)) ymax (n - Nat.div n 2 - 2) ++ [1.2 * ymax].
Proof. unfold y, reese_y. rewrite fourth by auto. fold ymax. cbv zeta. rewrite linspace_length. reflexivity. Qed.
Lemma halves : (4 <= Nat.div n 2)%nat /\ (2 <= n - Nat.div n 2 - 2)%nat.
Proof. pose proof (Nat.div_mod n 2 ltac:(lia)). pose proof (Nat.mod_upper_bound n 2 ltac:(lia)). lia. Qed.
Lemma y_length : length y = n.
Proof. rewrite y_eq, !app_length, !linspace_length. pose proof halves as [h1 h2]. cbn [length]. lia. Qed.
Lemma y1_order : yA <= Rmax (0.15 * ymax) (1.01 * yA) /\ Rmax (0.15 * ymax) (1.01 * yA) <= Rmax (yA * 1.02) (0.25 * ymax) /\ Rmax (yA * 1.02) (0.25 * ymax) <= ymax.
Proof.
  pose proof yA_nonneg. pose proof ymax_bounds as [B1 B2]. split; [eapply Rle_trans; [|apply Rmax_r]; lra|]. split.
  - apply Rmax_lub; [eapply Rle_trans; [|apply Rmax_r]; lra|eapply Rle_trans; [|apply Rmax_l]; lra].
  - apply Rmax_lub; lra.
Qed.
Lemma y_sorted : nondecreasing y.
Proof.
  rewrite y_eq. pose proof y1_order as (O1 & O2 & O3). pose proof yA_nonneg. pose proof ymax_bounds as [B1 B2].
  apply nondecreasing_cons.
  - intros x I. rewrite !in_app_iff in I. destruct I as [I|[I|[<-|[]]]]; [apply linspace_in in I; lra|apply linspace_in in I; lra|lra].
  - apply nondecreasing_app; [apply linspace_nondecr; auto| |].
    + apply nondecreasing_app; [apply linspace_nondecr; auto|apply nondecreasing_1|]. intros a b I [<-|[]]. apply linspace_in in I; lra.
    + intros a b I J. apply linspace_in in I; auto. apply in_app_iff in J. destruct J as [J|[<-|[]]]; [apply linspace_in in J; auto; lra|lra].
Qed.
Lemma y_nth1 : nth 1 y 0 = yA.
Proof.
  rewrite y_eq. cbn [app nth]. rewrite app_nth1 by (rewrite linspace_length; pose proof halves; lia). apply linspace_ends. pose proof halves; lia.
Qed.
Lemma y_nth2 : nth 2 y 0 = yA + (Rmax (0.15 * ymax) (1.01 * yA) - yA) * (1 / INR (Nat.div n 2 - 1)).
Proof.
  rewrite y_eq. cbn [app nth]. rewrite app_nth1 by (rewrite linspace_length; pose proof halves; lia). rewrite linspace_nth by (pose proof halves; lia). reflexivity.
Qed.
Lemma y_last : last y 0 = 1.2 * ymax.
Proof. rewrite y_eq, !app_assoc. apply last_last. Qed.
Lemma y_has_ymax : In ymax y.
Proof.
  rewrite y_eq, !in_app_iff. right; right; left. pose proof halves as [_ H]. destruct (linspace_ends (Rmax (yA * 1.02) (0.25 * ymax)) ymax (n - Nat.div n 2 - 2) H) as [_ E].
  rewrite <- E at 1. apply nth_In. rewrite linspace_length. lia.
Qed.

Lemma f_ok : forall v, reese_p Pmax Epy yA yrm v = Ok (f v).
Proof. intros v. unfold reese_p, f, rock_p. destruct (Rle_dec v yA); [reflexivity|]. rewrite nonzero_ok by lra. reflexivity. Qed.
Lemma f_le : forall v, f v <= Pmax.
Proof. intros v. unfold f, rock_p. destruct (Rle_dec v yA); apply Rmin_l. Qed.
Lemma f_nonneg : forall v, 0 <= v -> 0 <= f v.
Proof.
  intros v H. unfold f, rock_p. destruct (Rle_dec v yA); apply Rmin_glb; auto; apply Rmult_le_pos; try lra. apply rpow_nonneg.
Qed.
Lemma f_0 : f 0 = 0.
Proof. unfold f, rock_p. pose proof yA_nonneg. destruct (Rle_dec 0 yA); [|contradiction]. rewrite Rmult_0_r. apply Rmin_right. auto. Qed.
Lemma f_full : forall v, yA < v -> 16 * yrm <= v -> f v = Pmax.
Proof.
  intros v L1 L2. unfold f, rock_p. destruct (Rle_dec v yA); [lra|]. apply Rmin_left.
  assert (16 <= v / yrm) by (apply frac_ge; auto). rewrite rpow_pos by lra. pose proof (Rpower_mono 0.25 16 (v / yrm) ltac:(lra) ltac:(lra) H). rewrite Rpower_16 in H0. nra.
Qed.

(** The exponent 1.333 in place of 4/3 makes the two branches meet only up to this factor. *)
Definition slack (q : R) : R := Rmin 1 (Rpower q 0.00025).
Lemma slack_range : 0 < slack q <= 1.
Proof. unfold slack. split; [apply Rmin_glb_lt; [lra|apply Rpower_gt0]|apply Rmin_l]. Qed.
Lemma rpow_div : forall v, 0 < v -> Pmax / 2 * rpow (v / yrm) 0.25 = q * Epy * Rpower v 0.25.
Proof.
  intros v H. rewrite q_half. rewrite (rpow_pos (v / yrm)) by (apply Rdiv_lt_0_compat; auto). rewrite Rpower_div by auto. rewrite rpow_pos by auto.
  pose proof (Rpower_gt0 yrm 0.25). field. lra.
Qed.
Lemma yA_join : 0 < q -> q * Epy * Rpower yA 0.25 = Epy * yA * Rpower q 0.00025.
Proof.
  intros H. unfold yA. rewrite rpow_pos by auto. rewrite Rpower_mult. 
  replace (q * Epy * Rpower q (1.333 * 0.25)) with (Epy * (Rpower q 1 * Rpower q (1.333 * 0.25))) by (rewrite Rpower_1 by auto; ring).
  rewrite Rmult_assoc, <- !Rpower_plus. do 2 f_equal. lra.
Qed.
Lemma f_quasi : forall u v, 0 <= u -> u <= v -> slack q * f u <= f v.
Proof.
  intros u v Hu Huv. pose proof slack_range as [S0 S1]. pose proof yA_nonneg as A0.
  destruct (Rle_dec v yA) as [Lv|Lv].
  - assert (f u <= f v). { unfold f, rock_p. destruct (Rle_dec u yA), (Rle_dec v yA); try lra. apply Rle_min_compat_l. apply Rmult_le_compat_l; lra. }
    pose proof (f_nonneg u Hu). nra.
  - destruct (Rle_dec u yA) as [Lu|Lu].
    + destruct q_nonneg as [Q|Q].
      * assert (AP : 0 < yA) by (unfold yA; rewrite rpow_pos by auto; apply Rpower_gt0).
        assert (V : Pmax / 2 * rpow (v / yrm) 0.25 >= Epy * yA * Rpower q 0.00025).
        { rewrite rpow_div by lra. rewrite <- yA_join by auto. apply Rle_ge, Rmult_le_compat_l; [apply Rmult_le_pos; lra|]. apply Rpower_mono; lra. }
        unfold f, rock_p. destruct (Rle_dec u yA); [|contradiction]. destruct (Rle_dec v yA); [contradiction|]. apply Rmin_glb.
        -- apply (Rle_trans _ (1 * Rmin Pmax (Epy * u))); [apply Rmult_le_compat_r; auto; apply Rmin_glb; auto; apply Rmult_le_pos; lra|]. pose proof (Rmin_l Pmax (Epy * u)). lra.
        -- apply Rge_le in V. eapply Rle_trans; [|exact V]. apply (Rle_trans _ (slack q * (Epy * yA))); [apply Rmult_le_compat_l; [lra|]|].
           ++ eapply Rle_trans; [apply Rmin_r|]. apply Rmult_le_compat_l; lra.
           ++ rewrite Rmult_comm. apply Rmult_le_compat_l; [apply Rmult_le_pos; lra|]. apply Rmin_r.
      * assert (PZ : Pmax = 0) by (pose proof q_half; rewrite <- Q in H; lra). pose proof (f_le u). pose proof (f_nonneg u Hu). pose proof (f_nonneg v ltac:(lra)). assert (f u = 0) by lra. rewrite H2. lra.
    + assert (f u <= f v).
      { unfold f, rock_p. destruct (Rle_dec u yA), (Rle_dec v yA); try lra. apply Rle_min_compat_l. apply Rmult_le_compat_l; [lra|]. apply rpow_mono; [lra|]. apply Rmult_le_compat_r; [left; apply Rinv_0_lt_compat; auto|auto]. }
      pose proof (f_nonneg u Hu). nra.
Qed.
Lemma slack_1 : 1 <= q -> slack q = 1.
Proof.
  intros H. unfold slack. apply Rmin_left. pose proof (Rpower_mono 0.00025 1 q ltac:(lra) ltac:(lra) H). unfold Rpower in H0 at 1. rewrite ln_1, Rmult_0_r, exp_0 in H0. exact H0.
Qed.
End Rock.

Lemma small_power : forall a b c, 0 <= a -> a <= b -> b ^ 10 <= c -> a ^ 10 <= c.
Proof. intros a b c A B C. apply Rle_trans with (b ^ 10); [apply pow_incr; auto|auto]. Qed.
Lemma tenth_power : (301/300) ^ 10 <= 1.034.
Proof. cbn [pow]. lra. Qed.
Lemma hundredth_power : 1.034 ^ 10 <= 1.3975.
Proof. cbn [pow]. lra. Qed.
Lemma thousandth_power : 1.3975 ^ 10 <= 29.
Proof. cbn [pow]. lra. Qed.
Lemma big_power : (301/300) ^ (10 * 10 * 10) < 30.
Proof.
  rewrite !pow_mult. assert (A0 : 0 <= 301/300) by lra. assert (L : 29 < 30) by lra. pose proof tenth_power as A. revert A0 A. generalize (301/300). intros x A0 A.
  apply Rle_lt_trans with 29; [|exact L].
  apply small_power with 1.3975; [repeat apply pow_le; exact A0| |exact thousandth_power].
  apply small_power with 1.034; [apply pow_le; exact A0|exact A|exact hundredth_power].
Qed.
Lemma Rpower_lt1 : forall x a, 0 < x -> x < 1 -> 0 < a -> Rpower x a < 1.
Proof. intros x a H0 H1 Ha. unfold Rpower. rewrite <- exp_0. apply exp_increasing. pose proof (ln_increasing x 1 H0 H1). rewrite ln_1 in H. nra. Qed.
Lemma drop_factor : forall q, 0 < q -> q <= 1/30 -> Rpower q 0.00025 * Rpower (301/300) 0.25 < 1.
Proof.
  intros q H0 H1. assert (X : exists b, 0 < b /\ b < 30 /\ Rpower (301/300) 0.25 = Rpower b 0.00025).
  { exists ((301/300) ^ (10 * 10 * 10)). split; [apply pow_lt; lra|]. split; [exact big_power|].
    rewrite <- Rpower_pow by lra. rewrite Rpower_mult. f_equal. rewrite !mult_INR. cbn [INR]. lra. }
  destruct X as (b & B0 & B & ->).
  rewrite Rpower_mult_distr by auto. apply Rpower_lt1; [apply Rmult_lt_0_compat; auto| |lra]. apply (Rle_lt_trans _ (1/30 * b)); [apply Rmult_le_compat_r; lra|lra].
Qed.

Lemma drop : forall Pmax Epy yrm n, 0 < Pmax -> 0 < Epy -> 0 < yrm -> (8 <= n)%nat ->
  let q := Pmax / (2 * rpow yrm 0.25 * Epy) in let yA := rpow q 1.333 in let y := reese_y yA yrm n in
  q <= 1/30 -> 2.4 * yrm <= 1.01 * yA -> 1.01 * yA < 16 * yrm ->
  rock_p Pmax Epy yA yrm (nth 2 y 0) < rock_p Pmax Epy yA yrm (nth 1 y 0).
Proof.
  intros Pmax Epy yrm n HP HE Hy HN q yA y Hq L1 L2. assert (Q : 0 < q).
  { unfold q. apply Rdiv_lt_0_compat; auto. pose proof (r_pos yrm Hy). apply Rmult_lt_0_compat; lra. }
  assert (AP : 0 < yA) by (unfold yA; rewrite rpow_pos by auto; apply Rpower_gt0).
  unfold y, yA, q. rewrite y_nth1, y_nth2 by (auto; lra). fold q. fold yA.
  rewrite (Rmax_right (0.15 * Rmax (1.05 * yA) (16 * yrm))) by (unfold Rmax; destruct (Rle_dec (1.05 * yA) (16 * yrm)); lra).
  assert (H3 : 3 <= INR (Nat.div n 2 - 1)). { replace 3 with (INR 3) by (simpl; lra). apply le_INR. pose proof (halves n HN). lia. }
  set (h := INR (Nat.div n 2 - 1)) in *. set (v := yA + (1.01 * yA - yA) * (1 / h)).
  assert (I3 : 0 < 1 / h <= 1/3). { split; [apply Rdiv_lt_0_compat; lra|]. unfold Rdiv. rewrite !Rmult_1_l. apply Rinv_le_contravar; lra. }
  assert (V : yA < v /\ v <= yA * (301/300)) by (unfold v; split; nra).
  unfold rock_p. destruct (Rle_dec yA yA); [|lra]. destruct (Rle_dec v yA); [lra|].
  rewrite (rpow_div Pmax Epy yrm HE Hy) by lra. fold q.
  assert (T1 : q * Epy * Rpower v 0.25 < Epy * yA).
  { apply (Rle_lt_trans _ (q * Epy * (Rpower yA 0.25 * Rpower (301/300) 0.25))).
    - apply Rmult_le_compat_l; [apply Rmult_le_pos; lra|]. rewrite Rpower_mult_distr by lra. apply Rpower_mono; lra.
    - rewrite <- Rmult_assoc. replace (q * Epy * Rpower yA 0.25) with (Epy * yA * Rpower q 0.00025) by (symmetry; apply (yA_join Pmax Epy yrm Q)).
      rewrite Rmult_assoc. rewrite <- (Rmult_1_r (Epy * yA)) at 2. apply Rmult_lt_compat_l; [apply Rmult_lt_0_compat; auto|]. apply drop_factor; auto. }
  assert (T2 : q * Epy * Rpower v 0.25 < Pmax).
  { assert (E : q * Epy * Rpower (16 * yrm) 0.25 = Pmax).
    { rewrite <- Rpower_mult_distr by lra. rewrite Rpower_16. pose proof (q_half Pmax Epy yrm HE Hy) as QH. fold q in QH. rewrite rpow_pos in QH by auto. lra. }
    rewrite <- E. apply Rmult_lt_compat_l; [apply Rmult_lt_0_compat; auto|]. unfold Rpower. apply exp_increasing. apply Rmult_lt_compat_l; [lra|]. apply ln_increasing; lra. }
  unfold Rmin at 1. destruct (Rle_dec Pmax (q * Epy * Rpower v 0.25)); [lra|]. apply Rmin_glb_lt; auto.
Qed.
