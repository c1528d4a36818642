(** Storage with 24 significant bits, rounding towards zero: a [rnd] that is in order, keeps signs and is
    accurate to 2^-23 (float32 without its bounds on the exponent). *)
From Coq Require Import List Bool Arith ZArith QArith Qpower Reals Qreals Lia Lqa Lra.
From Verif Require Import Base PileModel CreateModel FullModel FullSpec LiveSpec.
Local Open Scope R_scope.

Lemma Q2R_two_nat : forall n, Q2R (Qpower 2 (Z.of_nat n)) = 2 ^ n.
Proof.
  induction n as [|n IH]; [unfold Q2R; cbn; lra|]. rewrite Nat2Z.inj_succ. unfold Z.succ. rewrite (Qeq_eqR _ _ (Qpower_plus 2 (Z.of_nat n) 1 ltac:(discriminate))), Q2R_mult, IH.
  replace (Q2R (Qpower 2 1)) with 2 by (unfold Q2R; cbn; lra). cbn [pow]. lra.
Qed.
Lemma Q2R_two : forall k, Q2R (Qpower 2 k) = powerRZ 2 k.
Proof.
  intros k. destruct (Z_le_gt_dec 0 k) as [L|L].
  - rewrite <- (Z2Nat.id k L), Q2R_two_nat, <- pow_powerRZ. reflexivity.
  - assert (E : k = (- Z.of_nat (Z.to_nat (- k)))%Z) by (rewrite Z2Nat.id; lia). rewrite E. rewrite (Qeq_eqR _ _ (Qpower_opp 2 _)), Q2R_inv.
    + rewrite Q2R_two_nat, powerRZ_neg', <- pow_powerRZ. reflexivity.
    + intros Z. apply Qeq_eqR in Z. rewrite Q2R_two_nat in Z. replace (Q2R 0) with 0 in Z by (unfold Q2R; cbn; lra). pose proof (pow_lt 2 (Z.to_nat (- k)) ltac:(lra)). lra.
Qed.

(** 2^n <= x < 2^(n+1) *)
Definition exponent (x : R) : Z := (up (ln x / ln 2) - 1)%Z.
Lemma exponent_spec : forall x, 0 < x -> powerRZ 2 (exponent x) <= x < 2 * powerRZ 2 (exponent x).
Proof.
  intros x X. pose proof ln_lt_2 as L2. assert (N2 : 0 < ln 2) by lra. destruct (archimed (ln x / ln 2)) as [A1 A2]. unfold exponent. set (u := up (ln x / ln 2)) in *.
  assert (EX : x = Rpower 2 (ln x / ln 2)) by (unfold Rpower; replace (ln x / ln 2 * ln 2) with (ln x) by (field; lra); symmetry; apply exp_ln; auto).
  assert (T : 2 * powerRZ 2 (u - 1) = powerRZ 2 u) by (replace u with (1 + (u - 1))%Z at 2 by lia; rewrite powerRZ_add, powerRZ_1 by lra; lra).
  rewrite T, !powerRZ_Rpower by lra. split; rewrite EX; [apply Rle_Rpower; [lra|rewrite minus_IZR; lra]|apply Rpower_lt; lra].
Qed.

Definition mantissa_bits : Z := 23.
Definition chop (x : R) : Q := let n := exponent x in (inject_Z (up (x * powerRZ 2 (mantissa_bits - n)) - 1) * Qpower 2 (n - mantissa_bits))%Q.
Definition rnd32 (x : R) : Q := if Rlt_dec 0 x then chop x else if Rlt_dec x 0 then (- chop (- x))%Q else 0%Q.

Lemma chop_spec : forall x, 0 < x -> powerRZ 2 (exponent x) <= Q2R (chop x) <= x /\ x - Q2R (chop x) <= powerRZ 2 (- mantissa_bits) * x.
Proof.
  intros x X. destruct (exponent_spec x X) as [E1 E2]. unfold chop. set (n := exponent x) in *. cbv zeta. rewrite Q2R_mult, Q2R_two. assert (QI : forall k, Q2R (inject_Z k) = IZR k) by (intros k; unfold Q2R; cbn [inject_Z Qnum Qden]; rewrite Rinv_1; ring). rewrite !QI.
  set (h := powerRZ 2 (n - mantissa_bits)). assert (H0 : 0 < h) by (apply powerRZ_lt; lra).
  assert (EH : powerRZ 2 (mantissa_bits - n) = / h). { unfold h. replace (mantissa_bits - n)%Z with (- (n - mantissa_bits))%Z by lia. apply powerRZ_neg'. }
  rewrite EH. destruct (archimed (x * / h)) as [A1 A2]. set (u := up (x * / h)) in *. rewrite minus_IZR.
  assert (XH : x * / h * h = x) by (field; lra).
  assert (N : powerRZ 2 n = powerRZ 2 mantissa_bits * h) by (unfold h; rewrite <- powerRZ_add by lra; f_equal; lia).
  assert (B : IZR (2 ^ 23 + 1) <= IZR u).
  { apply IZR_le. cut (2 ^ 23 < u)%Z; [lia|]. apply lt_IZR. eapply Rle_lt_trans; [|exact A1]. apply Rmult_le_reg_r with h; [lra|]. rewrite XH. eapply Rle_trans; [|exact E1]. rewrite N. apply Req_le. f_equal.
    unfold mantissa_bits. rewrite (powerRZ_Rpower 2 23 ltac:(lra)). change 23%Z with (Z.of_nat 23). rewrite <- powerRZ_Rpower, <- pow_powerRZ by lra. rewrite <- pow_IZR. reflexivity. }
  assert (B23 : powerRZ 2 mantissa_bits = IZR (2 ^ 23)). { unfold mantissa_bits. change 23%Z with (Z.of_nat 23) at 1. rewrite <- pow_powerRZ, pow_IZR. reflexivity. }
  rewrite plus_IZR in B.
  split; [split|].
  - rewrite N, B23. apply Rmult_le_compat_r; lra.
  - apply Rle_trans with (x * / h * h); [apply Rmult_le_compat_r; lra|rewrite XH; apply Rle_refl].
  - apply Rle_trans with h.
    + apply Rle_trans with ((x * / h - (IZR u - 1)) * h); [replace ((x * / h - (IZR u - 1)) * h) with (x * / h * h - (IZR u - 1) * h) by ring; rewrite XH; apply Rle_refl|]. apply Rle_trans with (1 * h); [apply Rmult_le_compat_r; lra|lra].
    + replace h with (powerRZ 2 (- mantissa_bits) * powerRZ 2 n) by (unfold h; rewrite <- powerRZ_add by lra; f_equal; lia). apply Rmult_le_compat_l; [left; apply powerRZ_lt; lra|exact E1].
Qed.

Lemma chop_pos : forall x, 0 < x -> (0 < chop x)%Q.
Proof. intros x X. destruct (chop_spec x X) as [[A _] _]. apply Rlt_Qlt. replace (Q2R 0) with 0 by (unfold Q2R; cbn; lra). eapply Rlt_le_trans; [|exact A]. apply powerRZ_lt. lra. Qed.

Lemma chop_mono : forall x y, 0 < x -> x <= y -> (chop x <= chop y)%Q.
Proof.
  intros x y X XY. assert (Y : 0 < y) by lra. destruct (Z_lt_le_dec (exponent x) (exponent y)) as [L|L].
  - apply Rle_Qle. destruct (chop_spec x X) as [[_ A] _]. destruct (chop_spec y Y) as [[B _] _]. destruct (exponent_spec x X) as [_ E].
    apply Rle_trans with (powerRZ 2 (exponent y)); [|exact B]. eapply Rle_trans; [exact A|]. left. eapply Rlt_le_trans; [exact E|].
    replace (2 * powerRZ 2 (exponent x)) with (powerRZ 2 (exponent x + 1)) by (rewrite powerRZ_add, powerRZ_1 by lra; lra). rewrite !powerRZ_Rpower by lra. apply Rle_Rpower; [lra|]. apply IZR_le. lia.
  - assert (E : exponent x = exponent y).
    { apply Z.le_antisymm; [|exact L]. unfold exponent. pose proof ln_lt_2. assert (ln x / ln 2 <= ln y / ln 2) by (apply Rmult_le_compat_r; [left; apply Rinv_0_lt_compat; lra|]; destruct XY as [XY|XY]; [left; apply ln_increasing; auto|subst; apply Rle_refl]).
      destruct (archimed (ln x / ln 2)) as [A1 A2]. destruct (archimed (ln y / ln 2)) as [B1 B2]. cut (up (ln x / ln 2) <= up (ln y / ln 2))%Z; [lia|]. apply Z.lt_succ_r, lt_IZR. rewrite succ_IZR. lra. }
    unfold chop. rewrite E. cbv zeta. set (h := powerRZ 2 (mantissa_bits - exponent y)). assert (H0 : 0 < h) by (apply powerRZ_lt; lra).
    apply Qmult_le_compat_r; [|apply Qpower_pos; discriminate]. rewrite <- Zle_Qle. assert (x * h <= y * h) by (apply Rmult_le_compat_r; lra).
    destruct (archimed (x * h)) as [A1 A2]. destruct (archimed (y * h)) as [B1 B2]. cut (up (x * h) <= up (y * h))%Z; [lia|]. apply Z.lt_succ_r, lt_IZR. rewrite succ_IZR. lra.
Qed.

Lemma storage32 : storage rnd32.
Proof.
  unfold storage, rnd32. split; [|split; [|split]].
  - intros x y XY. destruct (Rlt_dec 0 x) as [X|X].
    + destruct (Rlt_dec 0 y); [apply chop_mono; auto|lra].
    + destruct (Rlt_dec x 0) as [X'|X'].
      * pose proof (chop_pos (- x) ltac:(lra)) as P. destruct (Rlt_dec 0 y) as [Y|Y]; [pose proof (chop_pos y Y); Lqa.lra|]. destruct (Rlt_dec y 0) as [Y'|Y']; [|Lqa.lra].
        pose proof (chop_mono (- y) (- x) ltac:(lra) ltac:(lra)). Lqa.lra.
      * destruct (Rlt_dec 0 y) as [Y|Y]; [pose proof (chop_pos y Y); Lqa.lra|]. destruct (Rlt_dec y 0); [lra|Lqa.lra].
  - destruct (Rlt_dec 0 0); [lra|reflexivity].
  - intros x X. destruct (Rlt_dec 0 x); [apply chop_pos; auto|lra].
  - intros x X. destruct (Rlt_dec 0 x); [lra|]. destruct (Rlt_dec x 0); [|lra]. pose proof (chop_pos (- x) ltac:(lra)). Lqa.lra.
Qed.

Lemma accurate32 : accurate (powerRZ 2 (-23)) rnd32.
Proof.
  assert (P : forall x, 0 < x -> Rabs (Q2R (chop x) - x) <= powerRZ 2 (-23) * x).
  { intros x X. destruct (chop_spec x X) as [[_ A] B]. rewrite Rabs_minus_sym, Rabs_pos_eq by lra. exact B. }
  intros x. unfold rnd32. destruct (Rlt_dec 0 x) as [X|X].
  - rewrite (Rabs_pos_eq x) by lra. apply P; auto.
  - destruct (Rlt_dec x 0) as [Y|Y].
    + rewrite (Rabs_left x Y). specialize (P (- x) ltac:(lra)). rewrite Q2R_opp. replace (- Q2R (chop (- x)) - x) with (- (Q2R (chop (- x)) - - x)) by ring. rewrite Rabs_Ropp. exact P.
    + replace x with 0 by lra. replace (Q2R 0) with 0 by (unfold Q2R; cbn; lra). rewrite Rminus_0_r, Rabs_R0. lra.
Qed.
