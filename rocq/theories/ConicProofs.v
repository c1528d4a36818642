From Coq Require Import List Bool Arith ZArith Reals Lra Lia Psatz.
From Verif Require Import Base ConicModel ConicSpec.
Import ListNotations.
Local Open Scope R_scope.

(** ** The normalised conic *)
Section Point.
Variables n s X : R.
Hypothesis N0 : 0 <= n.
Hypothesis N1 : n < 1.
Hypothesis S1 : 1 <= s.
Hypothesis X0 : 0 <= X.
Hypothesis X1 : X < 1.

Let a := 1 - 2 * n.
Let b := 2 * n * X - (1 - n) * (1 + s * X).
Let c := (1 - n) * (s * X) - n * X ^ 2.
Let disc := b ^ 2 - 4 * a * c.
Let f Y := a * Y ^ 2 + b * Y + c.

Lemma f_conic : forall Y, f Y = (1 - n) * (Y - s * X) * (Y - 1) - n * (Y - X) ^ 2.
Proof. intros Y. unfold f, a, b, c. ring. Qed.

Lemma f_X : 0 <= f X.
Proof. rewrite f_conic. replace ((1 - n) * (X - s * X) * (X - 1) - n * (X - X) ^ 2) with ((1 - n) * (X * ((s - 1) * (1 - X)))) by ring.
  apply Rmult_le_pos; [lra|]. apply Rmult_le_pos; [lra|]. apply Rmult_le_pos; lra. Qed.

Lemma f_1 : f 1 <= 0.
Proof. rewrite f_conic. replace ((1 - n) * (1 - s * X) * (1 - 1) - n * (1 - X) ^ 2) with (- (n * (1 - X) ^ 2)) by ring.
  assert (0 <= n * (1 - X) ^ 2) by (apply Rmult_le_pos; [lra|apply pow2_ge_0]). lra. Qed.

Lemma square_f : forall Y, (2 * a * Y + b) ^ 2 = disc + 4 * a * f Y.
Proof. intros Y. unfold disc, f. ring. Qed.

Lemma disc_nonneg : 0 <= disc.
Proof.
  pose proof f_X. pose proof f_1. destruct (Rle_dec 0 a) as [A|A].
  - pose proof (square_f 1). pose proof (pow2_ge_0 (2 * a * 1 + b)). assert (0 <= a * (- f 1)) by (apply Rmult_le_pos; lra). lra.
  - pose proof (square_f X). pose proof (pow2_ge_0 (2 * a * X + b)). assert (0 <= (- a) * f X) by (apply Rmult_le_pos; lra). lra.
Qed.

Let q := sqrt disc.
Lemma q2 : q * q = disc. Proof. apply sqrt_sqrt, disc_nonneg. Qed.
Lemma q0 : 0 <= q. Proof. apply sqrt_pos. Qed.

Lemma sq_le : forall u v, 0 <= v -> u * u <= v * v -> u <= v.
Proof. intros u v V H. destruct (Rle_dec u v); auto. exfalso. assert (v < u) by lra. assert (v * v < u * u); [|lra]. apply Rmult_le_0_lt_compat; lra. Qed.

Lemma slope_X : 0 <= - b - 2 * a * X.
Proof. replace (- b - 2 * a * X) with ((1 - n) * ((1 - X) + (s - 1) * X)) by (unfold a, b; ring).
  apply Rmult_le_pos; [lra|]. assert (0 <= (s - 1) * X) by (apply Rmult_le_pos; lra). lra. Qed.

(** The denominator and the zero of the code's formula *)
Hypothesis D : - b + q <> 0.
Let Y := 2 * c / (- b + q).

Lemma Y_slope : 2 * a * Y + b = - q.
Proof.
  assert (E : (- b + q) * (- b - q) = 4 * a * c) by (replace ((- b + q) * (- b - q)) with (b ^ 2 - q * q) by ring; rewrite q2; unfold disc; ring).
  assert (Y * (- b + q) = 2 * c) by (unfold Y; field; auto).
  assert (K : (- b + q) * (2 * a * Y + b + q) = 0).
  { replace ((- b + q) * (2 * a * Y + b + q)) with (2 * a * (Y * (- b + q)) - (- b + q) * (- b - q)) by ring. rewrite H, E. ring. }
  apply Rmult_integral in K. destruct K; [contradiction|lra].
Qed.

Lemma Y_root : f Y = 0.
Proof.
  assert (P : Y * (- b + q) = 2 * c) by (unfold Y; field; auto).
  pose proof Y_slope as E. unfold f. assert (a * Y * 2 = - q - b) by lra.
  assert (2 * (a * Y ^ 2 + b * Y + c) = 0); [|lra].
  replace (2 * (a * Y ^ 2 + b * Y + c)) with ((a * Y * 2) * Y + 2 * b * Y + 2 * c) by ring. rewrite H, <- P. ring.
Qed.

Lemma Y_ge_X : X <= Y.
Proof.
  pose proof Y_slope as E. pose proof q0. pose proof q2 as Q2. pose proof f_X as FX. pose proof slope_X as SX. pose proof (square_f X) as SQ.
  destruct (Rtotal_order a 0) as [A|[A|A]].
  - (* a < 0 *)
    assert (- (2 * a * X + b) <= q). { apply sq_le; auto. rewrite Q2. assert (0 <= (- a) * f X) by (apply Rmult_le_pos; lra). replace (- (2 * a * X + b) * - (2 * a * X + b)) with ((2 * a * X + b) ^ 2) by ring. lra. }
    assert (2 * a * Y <= 2 * a * X) by lra. apply Rmult_le_reg_l with (- a); lra.
  - (* a = 0 *)
    pose proof Y_root as F. unfold f in F, FX. rewrite A in *. assert (b < 0).
    { destruct (Rtotal_order b 0) as [B|[B|B]]; [auto| |]; exfalso.
      - apply D. assert (q = - b) by lra. lra.
      - lra. }
    assert (b * Y + c = 0) by lra. assert (0 <= b * X + c) by lra. apply Rmult_le_reg_l with (- b); lra.
  - assert (q <= - b - 2 * a * X). { apply sq_le; auto. rewrite Q2. assert (0 <= a * f X) by (apply Rmult_le_pos; lra). replace ((- b - 2 * a * X) * (- b - 2 * a * X)) with ((2 * a * X + b) ^ 2) by ring. lra. }
    assert (2 * a * X <= 2 * a * Y) by lra. apply Rmult_le_reg_l with a; lra.
Qed.

Lemma slope_1 : a <= 0 -> 0 <= - b - 2 * a.
Proof.
  intros A. replace (- b - 2 * a) with ((1 - n) * ((s - 1) * X) + (3 * n - 1) * (1 - X)) by (unfold a, b; ring).
  unfold a in A. assert (0 <= (1 - n) * ((s - 1) * X)) by (repeat apply Rmult_le_pos; lra). assert (0 <= (3 * n - 1) * (1 - X)) by (apply Rmult_le_pos; lra). lra.
Qed.

Lemma Y_le_1 : Y <= 1.
Proof.
  pose proof Y_slope as E. pose proof q0. pose proof q2 as Q2. pose proof f_1 as F1. pose proof (square_f 1) as SQ.
  destruct (Rtotal_order a 0) as [A|[A|A]].
  - pose proof (slope_1 ltac:(lra)) as S.
    assert (q <= - b - 2 * a). { apply sq_le; auto. rewrite Q2. assert (0 <= a * f 1) by nra. replace ((- b - 2 * a) * (- b - 2 * a)) with ((2 * a * 1 + b) ^ 2) by ring. lra. }
    assert (2 * a <= 2 * a * Y) by lra. apply Rmult_le_reg_l with (- a); lra.
  - pose proof Y_root as F. unfold f in F, F1. rewrite A in *. assert (b < 0).
    { destruct (Rtotal_order b 0) as [B|[B|B]]; [auto| |]; exfalso.
      - apply D. assert (q = - b) by lra. lra.
      - lra. }
    apply Rmult_le_reg_l with (- b); lra.
  - assert (- (2 * a + b) <= q). { apply sq_le; auto. rewrite Q2. assert (0 <= a * - f 1) by (apply Rmult_le_pos; lra). replace (- (2 * a + b) * - (2 * a + b)) with ((2 * a * 1 + b) ^ 2) by ring. lra. }
    apply Rmult_le_reg_l with a; lra.
Qed.

Lemma Y_conic : on_conic n s X Y.
Proof. unfold on_conic. pose proof Y_root as F. rewrite f_conic in F. lra. Qed.

Lemma n0_min : n = 0 -> Y = Rmin 1 (s * X).
Proof.
  intros N. assert (A : a = 1) by (unfold a; lra). pose proof Y_conic as C. unfold on_conic in C. rewrite N in C.
  assert (K : (Y - s * X) * (Y - 1) = 0) by lra. pose proof Y_slope as E. pose proof q0. unfold b in E. rewrite N, A in E.
  apply Rmult_integral in K. destruct K as [K|K].
  - rewrite Rmin_right; lra.
  - rewrite Rmin_left; lra.
Qed.

Lemma Y_le_tangent : Y <= s * X.
Proof.
  pose proof Y_conic as C. unfold on_conic in C. pose proof Y_le_1 as L. destruct (Rle_lt_dec 1 Y) as [G|G].
  - assert (Y = 1) by lra. rewrite H in C. assert (n * (1 - X) ^ 2 = 0) by lra. apply Rmult_integral in H0. destruct H0 as [Z|Z].
    + rewrite (n0_min Z). apply Rmin_r.
    + exfalso. assert (0 < (1 - X) ^ 2) by (apply pow_lt; lra). lra.
  - destruct (Rle_lt_dec Y (s * X)) as [|T]; auto. exfalso.
    assert (0 <= n * (Y - X) ^ 2) by (apply Rmult_le_pos; [lra|apply pow2_ge_0]).
    assert (0 < (1 - n) * (Y - s * X) * (1 - Y)) by (repeat apply Rmult_lt_0_compat; lra). lra.
Qed.

(** Beyond Y the conic function is negative. *)
Lemma beyond : forall Z, 0 < n -> Y < Z -> Z <= 1 -> f Z < 0.
Proof.
  intros Z NP L1 L2. pose proof Y_root as F. pose proof Y_slope as E. pose proof q0. pose proof Y_le_1.
  assert (FF : forall W, f W = (W - Y) * (a * (W + Y) + b)). { intros W. replace (f W) with (f W - f Y) by lra. unfold f. ring. }
  assert (F1 : f 1 < 0). { rewrite f_conic. replace ((1 - n) * (1 - s * X) * (1 - 1) - n * (1 - X) ^ 2) with (- (n * (1 - X) ^ 2)) by ring. assert (0 < n * (1 - X) ^ 2) by (apply Rmult_lt_0_compat; [lra|apply pow_lt; lra]). lra. }
  assert (T : a * (1 + Y) + b < 0). { pose proof (FF 1) as G. destruct (Rlt_le_dec (a * (1 + Y) + b) 0); auto. exfalso. assert (0 <= (1 - Y) * (a * (1 + Y) + b)) by (apply Rmult_le_pos; lra). lra. }
  rewrite FF. assert (a * (Z + Y) + b < 0); [|nra].
  set (t := (Z - Y) / (1 - Y)). assert (TY : t * (1 - Y) = Z - Y) by (unfold t; field; lra). assert (0 < t) by (apply Rmult_lt_reg_r with (1 - Y); lra).
  assert (t <= 1) by (apply Rmult_le_reg_r with (1 - Y); lra).
  replace (a * (Z + Y) + b) with (t * (a * (1 + Y) + b) + (1 - t) * (2 * a * Y + b)).
  - assert (t * (a * (1 + Y) + b) < 0) by nra. assert ((1 - t) * (2 * a * Y + b) <= 0) by nra. lra.
  - replace (t * (a * (1 + Y) + b) + (1 - t) * (2 * a * Y + b)) with (a * (t * (1 - Y)) + 2 * a * Y + b) by ring. rewrite TY. ring.
Qed.
End Point.

Definition cb (n s X : R) := 2 * n * X - (1 - n) * (1 + s * X).
Definition cc (n s X : R) := (1 - n) * (s * X) - n * X ^ 2.
Definition cdisc (n s X : R) := cb n s X ^ 2 - 4 * (1 - 2 * n) * cc n s X.
Definition cden (n s X : R) := - cb n s X + sqrt (cdisc n s X).
Definition cY (n s X : R) := 2 * cc n s X / cden n s X.

Lemma den_nonzero : forall n s X, 0 <= n -> n < 1 -> 1 <= s -> 0 <= X -> X < 1 -> (X = 0 \/ (1 - n) * s <> n * X) -> cden n s X <> 0.
Proof.
  intros n s X N0 N1 S1 X0 X1 H E. unfold cden in E.
  pose proof (disc_nonneg n s X N0 N1 S1 X0 X1) as DN. fold (cb n s X) (cc n s X) in DN. change (0 <= cdisc n s X) in DN.
  assert (B : cb n s X = sqrt (cdisc n s X)) by lra.
  assert (B0 : 0 <= cb n s X) by (rewrite B; apply sqrt_pos).
  assert (Q : cb n s X * cb n s X = cdisc n s X) by (rewrite B; apply sqrt_sqrt; auto).
  assert (Z : (1 - 2 * n) * cc n s X = 0) by (unfold cdisc in Q; lra).
  pose proof (slope_X n s X N1 S1 X0 X1) as SX. cbv zeta in SX. change (0 <= - cb n s X - 2 * (1 - 2 * n) * X) in SX.
  apply Rmult_integral in Z. destruct Z as [Z|Z].
  - assert (P : 0 < - cb n s X).
    { unfold cb. replace (- (2 * n * X - (1 - n) * (1 + s * X))) with ((1 - n) * ((1 - X) + (s - 1) * X) + 2 * (1 - 2 * n) * X) by ring. rewrite Z.
      assert (0 <= (s - 1) * X) by (apply Rmult_le_pos; lra). assert (0 < (1 - n) * (1 - X + (s - 1) * X)) by (apply Rmult_lt_0_compat; lra). lra. }
    lra.
  - unfold cc in Z. assert (Z' : X * ((1 - n) * s - n * X) = 0) by (rewrite <- Z; ring). apply Rmult_integral in Z'. destruct Z' as [Z'|Z'].
    + unfold cb in B0. rewrite Z' in B0. lra.
    + destruct H as [H|H]; [|apply H; lra]. unfold cb in B0. rewrite H in B0. lra.
Qed.

Lemma norm_bounds : forall n s X, 0 <= n -> n < 1 -> 1 <= s -> 0 <= X -> X < 1 -> cden n s X <> 0 ->
  X <= cY n s X /\ cY n s X <= 1 /\ cY n s X <= s * X /\ on_conic n s X (cY n s X).
Proof.
  intros n s X N0 N1 S1 X0 X1 D.
  split; [exact (Y_ge_X n s X N0 N1 S1 X0 X1 D)|]. split; [exact (Y_le_1 n s X N0 N1 S1 X0 X1 D)|].
  split; [exact (Y_le_tangent n s X N0 N1 S1 X0 X1 D)|exact (Y_conic n s X N0 N1 S1 X0 X1 D)].
Qed.

Lemma norm_mono : forall n s X1 X2, 0 <= n -> n < 1 -> 1 <= s -> 0 <= X1 -> X1 <= X2 -> X2 < 1 -> cden n s X1 <> 0 -> cden n s X2 <> 0 ->
  cY n s X1 <= cY n s X2.
Proof.
  intros n s X1 X2 N0 N1 S1 A B C D1 D2.
  destruct (norm_bounds n s X1 N0 N1 S1 A ltac:(lra) D1) as (L1 & U1 & T1 & C1).
  destruct (norm_bounds n s X2 N0 N1 S1 ltac:(lra) C D2) as (L2 & U2 & T2 & C2).
  destruct (Rle_lt_dec n 0) as [Z|P].
  - assert (n = 0) by lra.
    assert (M : forall X, 0 <= X -> X < 1 -> cden n s X <> 0 -> cY n s X = Rmin 1 (s * X)) by (intros X P0 P1 P2; exact (n0_min n s X N0 N1 S1 P0 P1 P2 H)).
    rewrite (M X1), (M X2) by lra. assert (s * X1 <= s * X2) by (apply Rmult_le_compat_l; lra). unfold Rmin. destruct (Rle_dec 1 (s * X1)), (Rle_dec 1 (s * X2)); lra.
  - destruct (Rle_lt_dec (cY n s X1) X2) as [|G]; [lra|]. destruct (Rle_lt_dec (cY n s X1) (cY n s X2)) as [|W]; auto. exfalso.
    pose proof (beyond n s X2 N0 N1 S1 ltac:(lra) C D2 (cY n s X1) P W U1) as F0.
    assert (F : (1 - n) * (cY n s X1 - s * X2) * (cY n s X1 - 1) - n * (cY n s X1 - X2) ^ 2 < 0) by (rewrite <- f_conic; exact F0). clear F0.
    unfold on_conic in C1. set (Y := cY n s X1) in *.
    assert (E : (1 - n) * (Y - s * X2) * (Y - 1) - n * (Y - X2) ^ 2 - ((1 - n) * (Y - s * X1) * (Y - 1) - n * (Y - X1) ^ 2) = (X2 - X1) * ((1 - n) * (s * (1 - Y)) + n * ((Y - X1) + (Y - X2)))) by ring.
    assert (0 <= (1 - n) * (s * (1 - Y))) by (repeat apply Rmult_le_pos; lra).
    assert (0 <= n * ((Y - X1) + (Y - X2))) by (apply Rmult_le_pos; lra).
    assert (0 <= (X2 - X1) * ((1 - n) * (s * (1 - Y)) + n * ((Y - X1) + (Y - X2)))) by (apply Rmult_le_pos; lra). lra.
Qed.

(** ** The function of the code *)
Definition conic_val (x_u n k y_u x : R) : R :=
  if Rlt_dec x x_u then if Rlt_dec (Rabs (x - x_u)) (1/100) then y_u else y_u * cY n (k * x_u / y_u) (x / x_u) else y_u.

(** No division by zero at abscissa [x]. *)
Definition regular (x_u n k y_u x : R) : Prop := x = 0 \/ x_u <= x \/ (1 - n) * k * x_u ^ 2 <> n * y_u * x.

Section Curve.
Variables x_u n k y_u : R.
Hypothesis XU : 0 < x_u.
Hypothesis YU : 0 < y_u.
Hypothesis N0 : 0 <= n.
Hypothesis N1 : n < 1.
Hypothesis K : y_u / x_u <= k.

Lemma ratio_ge1 : 1 <= k * x_u / y_u.
Proof.
  apply Rmult_le_reg_r with y_u; auto. replace (k * x_u / y_u * y_u) with (k * x_u) by (field; lra).
  apply Rmult_le_compat_r with (r := x_u) in K; [|lra]. replace (y_u / x_u * x_u) with y_u in K by (field; lra). lra.
Qed.

Lemma frac_range : forall x, 0 <= x -> x < x_u -> 0 <= x / x_u /\ x / x_u < 1.
Proof.
  intros x A B. split.
  - apply Rmult_le_pos; [auto|]. left. apply Rinv_0_lt_compat; auto.
  - apply Rmult_lt_reg_r with x_u; auto. replace (x / x_u * x_u) with x by (field; lra). lra.
Qed.

Lemma regular_den : forall x, 0 <= x -> x < x_u -> regular x_u n k y_u x -> cden n (k * x_u / y_u) (x / x_u) <> 0.
Proof.
  intros x A B R. destruct (frac_range x A B). apply den_nonzero; auto using ratio_ge1.
  destruct R as [->|[R|R]]; [left; field; lra|lra|right]. intros E. apply R.
  apply Rmult_eq_compat_r with (r := x_u * y_u) in E. replace ((1 - n) * (k * x_u / y_u) * (x_u * y_u)) with ((1 - n) * k * x_u ^ 2) in E by (field; lra).
  rewrite E. field. lra.
Qed.

Lemma point_val : forall x, 0 <= x -> regular x_u n k y_u x -> conic_point x_u n k y_u x = Ok (Some (conic_val x_u n k y_u x)).
Proof.
  intros x X0 R. unfold conic_point, conic_val.
  destruct (Rlt_dec (Rabs (x - x_u)) (1 / 100)) as [C|C].
  - destruct (Rlt_dec x x_u); reflexivity.
  - destruct (Rlt_dec x x_u) as [L|L]; [|reflexivity].
    destruct (Req_EM_T y_u 0) as [Z|_]; [lra|].
    assert (EB : 2 * n * x / x_u - (1 - n) * (1 + x * k / y_u) = cb n (k * x_u / y_u) (x / x_u)) by (unfold cb; field; lra).
    assert (EC : x * (k / y_u) * (1 - n) - n * (x ^ 2 / x_u ^ 2) = cc n (k * x_u / y_u) (x / x_u)) by (unfold cc; field; lra).
    cbv zeta. rewrite EB, EC. fold (cdisc n (k * x_u / y_u) (x / x_u)). destruct (frac_range x X0 L) as [F0 F1].
    destruct (Rlt_dec (cdisc n (k * x_u / y_u) (x / x_u)) 0) as [D|D].
    { exfalso. pose proof (disc_nonneg n (k * x_u / y_u) (x / x_u) N0 N1 ratio_ge1 F0 F1) as DN. fold (cb n (k * x_u / y_u) (x / x_u)) (cc n (k * x_u / y_u) (x / x_u)) in DN. unfold cdisc in D. lra. }
    fold (cden n (k * x_u / y_u) (x / x_u)).
    destruct (Req_EM_T (cden n (k * x_u / y_u) (x / x_u)) 0) as [E|E]; [exfalso; exact (regular_den x X0 L R E)|].
    do 2 f_equal. unfold cY. field. exact E.
Qed.

Lemma val_bounds : forall x, 0 <= x -> regular x_u n k y_u x -> 0 <= conic_val x_u n k y_u x /\ conic_val x_u n k y_u x <= y_u /\
  (x <= x_u -> y_u / x_u * x <= conic_val x_u n k y_u x) /\ (x + 1/100 <= x_u -> conic_val x_u n k y_u x <= k * x) /\
  (x + 1/100 <= x_u -> on_conic n (k * x_u / y_u) (x / x_u) (conic_val x_u n k y_u x / y_u)) /\
  (x_u - 1/100 < x -> conic_val x_u n k y_u x = y_u).
Proof.
  intros x X0 R. unfold conic_val.
  assert (CH : forall w, w <= x_u -> 0 <= w -> y_u / x_u * w <= y_u).
  { intros w W W0. replace y_u with (y_u / x_u * x_u) at 2 by (field; lra). apply Rmult_le_compat_l; auto. left. apply Rdiv_lt_0_compat; auto. }
  destruct (Rlt_dec x x_u) as [L|L].
  - destruct (Rlt_dec (Rabs (x - x_u)) (1/100)) as [C|C].
    + split; [lra|]. split; [lra|]. split; [intros; apply CH; auto|]. rewrite Rabs_left in C by lra. split; [intros; lra|]. split; intros; lra.
    + destruct (frac_range x X0 L) as [F0 F1].
      destruct (norm_bounds n (k * x_u / y_u) (x / x_u) N0 N1 ratio_ge1 F0 F1 (regular_den x X0 L R)) as (B1 & B2 & B3 & B4).
      set (Y := cY n (k * x_u / y_u) (x / x_u)) in *.
      split; [apply Rmult_le_pos; lra|]. split; [replace y_u with (y_u * 1) at 2 by ring; apply Rmult_le_compat_l; lra|].
      split; [intros _; replace (y_u / x_u * x) with (y_u * (x / x_u)) by (field; lra); apply Rmult_le_compat_l; lra|].
      split; [intros _; replace (k * x) with (y_u * (k * x_u / y_u * (x / x_u))) by (field; lra); apply Rmult_le_compat_l; lra|].
      split; [intros _; replace (y_u * Y / y_u) with Y by (field; lra); exact B4|].
      intros G. exfalso. apply C. rewrite Rabs_left by lra. lra.
  - split; [lra|]. split; [lra|]. split; [intros; apply CH; auto|]. split; [intros; lra|]. split; intros; [lra|reflexivity].
Qed.

Lemma val_mono : forall x x', 0 <= x -> x <= x' -> regular x_u n k y_u x -> regular x_u n k y_u x' -> conic_val x_u n k y_u x <= conic_val x_u n k y_u x'.
Proof.
  intros x x' X0 L R R'. destruct (val_bounds x X0 R) as (_ & U & _).
  destruct (Rlt_le_dec (x_u - 1/100) x') as [G|G].
  - destruct (val_bounds x' ltac:(lra) R') as (_ & _ & _ & _ & _ & E). rewrite (E G). exact U.
  - unfold conic_val. destruct (Rlt_dec x x_u); [|lra]. destruct (Rlt_dec x' x_u); [|lra].
    rewrite !Rabs_left by lra. destruct (Rlt_dec (- (x - x_u)) (1/100)); [lra|]. destruct (Rlt_dec (- (x' - x_u)) (1/100)); [lra|].
    apply Rmult_le_compat_l; [lra|]. destruct (frac_range x X0 ltac:(lra)), (frac_range x' ltac:(lra) ltac:(lra)).
    apply norm_mono; auto using ratio_ge1.
    + apply Rmult_le_compat_r; auto. left. apply Rinv_0_lt_compat. auto.
    + apply regular_den; auto; lra.
    + apply regular_den; auto; lra.
Qed.

Lemma val_zero : 1/100 <= x_u -> conic_val x_u n k y_u 0 = 0.
Proof.
  intros H. unfold conic_val. destruct (Rlt_dec 0 x_u); [|lra]. rewrite Rabs_left by lra. destruct (Rlt_dec (- (0 - x_u)) (1/100)); [lra|].
  unfold cY, cc. replace (0 / x_u) with 0 by (field; lra). unfold Rdiv. ring.
Qed.
End Curve.

(** ** Lists *)
Lemma linspace_length : forall a b n, length (linspace a b n) = n.
Proof. intros a b [|[|n]]; [reflexivity|reflexivity|]. unfold linspace. rewrite map_length, seq_length. reflexivity. Qed.

Lemma linspace_nth : forall a b n i, (i < n)%nat -> (2 <= n)%nat -> nth i (linspace a b n) 0 = a + (b - a) * (INR i / INR (n - 1)).
Proof.
  intros a b n i Hi Hn. destruct n as [|[|m]]; [lia|lia|]. replace (S (S m) - 1)%nat with (S m) by lia. unfold linspace.
  rewrite (nth_indep _ 0 (a + (b - a) * (INR 0 / INR (S m)))) by (rewrite map_length, seq_length; auto).
  rewrite (map_nth (fun i => a + (b - a) * (INR i / INR (S m)))), seq_nth by auto. reflexivity.
Qed.

Lemma linspace_in : forall a b n x, a <= b -> In x (linspace a b n) -> a <= x /\ x <= b.
Proof.
  intros a b n x L I. destruct n as [|[|m]]; [contradiction|destruct I as [<-|[]]; lra|].
  apply (In_nth _ _ 0) in I. rewrite linspace_length in I. destruct I as (i & Hi & <-). rewrite linspace_nth by lia.
  replace (S (S m) - 1)%nat with (S m) by lia. assert (P : 0 < INR (S m)) by (apply lt_0_INR; lia).
  assert (0 <= INR i / INR (S m)) by (apply Rmult_le_pos; [apply pos_INR|left; apply Rinv_0_lt_compat; auto]).
  assert (INR i / INR (S m) <= 1). { apply Rmult_le_reg_r with (INR (S m)); auto. replace (INR i / INR (S m) * INR (S m)) with (INR i) by (field; lra). rewrite Rmult_1_l. apply le_INR. lia. }
  split; nra.
Qed.

Lemma linspace_ends : forall a b n, (2 <= n)%nat -> nth 0 (linspace a b n) 0 = a /\ nth (n - 1) (linspace a b n) 0 = b.
Proof.
  intros a b n H. rewrite !linspace_nth by lia. assert (P : 0 < INR (n - 1)) by (apply lt_0_INR; lia). split; [change (INR 0) with 0|]; field; lra.
Qed.

Lemma linspace_nondecr : forall a b n, a <= b -> nondecreasing (linspace a b n).
Proof.
  intros a b n L i j Hij Hj. rewrite linspace_length in Hj. destruct n as [|[|m]]; [lia| |].
  - assert (i = 0 /\ j = 0)%nat as [-> ->] by lia. lra.
  - rewrite !linspace_nth by lia. replace (S (S m) - 1)%nat with (S m) by lia. assert (P : 0 < INR (S m)) by (apply lt_0_INR; lia).
    assert (INR i / INR (S m) <= INR j / INR (S m)) by (apply Rmult_le_compat_r; [left; apply Rinv_0_lt_compat; auto|apply le_INR; auto]). nra.
Qed.

Lemma nondecreasing_app : forall l l', nondecreasing l -> nondecreasing l' -> (forall x y, In x l -> In y l' -> x <= y) -> nondecreasing (l ++ l').
Proof.
  intros l l' A B C i j Hij Hj. rewrite app_length in Hj. destruct (lt_dec j (length l)).
  - rewrite !app_nth1 by lia. apply A; lia.
  - rewrite (app_nth2 l l' 0) with (n := j) by lia. destruct (lt_dec i (length l)).
    + rewrite app_nth1 by lia. apply C; apply nth_In; lia.
    + rewrite app_nth2 by lia. apply B; lia.
Qed.

Lemma nondecreasing_map : forall (f : R -> R) l, nondecreasing l -> (forall x y, In x l -> In y l -> x <= y -> f x <= f y) -> nondecreasing (map f l).
Proof.
  intros f l A H i j Hij Hj. rewrite map_length in Hj.
  rewrite (nth_indep _ 0 (f 0)), (nth_indep (map f l) 0 (f 0)) by (rewrite map_length; lia). rewrite !(map_nth f).
  apply H; [apply nth_In; lia|apply nth_In; lia|apply A; auto].
Qed.

Lemma nondecreasing_1 : forall x, nondecreasing [x].
Proof. intros x i j Hij Hj. cbn in Hj. assert (i = 0 /\ j = 0)%nat as [-> ->] by lia. lra. Qed.

Lemma nondecreasing_cons : forall a l, (forall x, In x l -> a <= x) -> nondecreasing l -> nondecreasing (a :: l).
Proof. intros a l H N. apply (nondecreasing_app [a] l); auto using nondecreasing_1. intros x y [<-|[]] I. auto. Qed.

Lemma conic_x_spec : forall x_u m, 0 < x_u -> (5 <= m)%nat -> length (conic_x x_u m) = m /\ nondecreasing (conic_x x_u m) /\
  (forall x, In x (conic_x x_u m) -> 0 <= x /\ x <= 11/10 * x_u) /\ nth 0 (conic_x x_u m) 0 = 0 /\ last (conic_x x_u m) 0 = 11/10 * x_u /\
  ((7 <= m)%nat -> In x_u (conic_x x_u m)).
Proof.
  intros x_u m P H. unfold conic_x.
  assert (LI : forall x, In x (linspace (2/10 * x_u) x_u (m - 5)) -> 2/10 * x_u <= x /\ x <= x_u) by (intros x I; apply (linspace_in (2/10 * x_u) x_u (m - 5) x); [lra|exact I]).
  split; [rewrite !app_length, linspace_length; cbn; lia|]. split; [|split; [|split; [|split]]].
  - apply nondecreasing_app.
    + cbn [map]. apply nondecreasing_cons; [intros x [<-|[<-|[<-|[]]]]; lra|]. apply nondecreasing_cons; [intros x [<-|[<-|[]]]; lra|]. apply nondecreasing_cons; [intros x [<-|[]]; lra|]. apply nondecreasing_1.
    + apply nondecreasing_app; [apply linspace_nondecr; lra|apply nondecreasing_1|]. intros x y I [<-|[]]. apply LI in I. lra.
    + intros x y I J. apply in_app_or in J. cbn [map] in I. assert (x <= 1/10 * x_u) by (destruct I as [<-|[<-|[<-|[<-|[]]]]]; lra).
      destruct J as [J|[<-|[]]]; [apply LI in J|]; lra.
  - intros x I. apply in_app_or in I. destruct I as [I|I]; [cbn [map] in I; destruct I as [<-|[<-|[<-|[<-|[]]]]]; lra|].
    apply in_app_or in I. destruct I as [I|[<-|[]]]; [apply LI in I; lra|lra].
  - cbn. ring.
  - rewrite app_assoc. apply last_last.
  - intros G. apply in_or_app. right. apply in_or_app. left. destruct (linspace_ends (2/10 * x_u) x_u (m - 5) ltac:(lia)) as [_ E]. rewrite <- E at 1. apply nth_In. rewrite linspace_length. lia.
Qed.

Lemma mapM_ok : forall A B (f : A -> res B) (g : A -> B) l, (forall x, In x l -> f x = Ok (g x)) -> mapM f l = Ok (map g l).
Proof. intros A B f g l. induction l as [|x t IH]; intros H; [reflexivity|]. cbn [mapM map]. rewrite (H x) by (left; auto). cbn [bind]. rewrite IH by (intros; apply H; right; auto). reflexivity. Qed.

Definition conic_y (x_u n k y_u : R) (m : nat) : list R := map (conic_val x_u n (Rmax (y_u / x_u) k) y_u) (conic_x x_u m).
(** No sample falls on the one abscissa at which the formula divides by zero. *)
Definition samples_regular (x_u n k y_u : R) (m : nat) : Prop := forall x, In x (conic_x x_u m) -> regular x_u n (Rmax (y_u / x_u) k) y_u x.

Lemma conic_ok : forall x_u n k y_u m, 0 < x_u -> 0 < y_u -> 0 <= n -> n < 1 -> (5 <= m)%nat -> samples_regular x_u n k y_u m ->
  conic x_u n k y_u m = Ok (conic_x x_u m, map Some (conic_y x_u n k y_u m)).
Proof.
  intros x_u n k y_u m XU YU N0 N1 M SR. unfold conic. destruct (Req_EM_T x_u 0); [lra|]. replace (m <? 5)%nat with false by (symmetry; apply Nat.ltb_ge; auto).
  cbv zeta. rewrite (mapM_ok _ _ _ (fun x => Some (conic_val x_u n (Rmax (y_u / x_u) k) y_u x))).
  - cbn [bind]. unfold conic_y. rewrite map_map. reflexivity.
  - intros x I. apply point_val; auto; [apply Rmax_l|]. apply (conic_x_spec x_u m XU M). exact I.
Qed.

(** Plainly sufficient for regularity *)
Lemma regular_if : forall x_u n k y_u m, 0 < x_u -> 0 < y_u -> 0 <= n -> n < 1 -> (5 <= m)%nat -> (n <= 1/2 \/ n * y_u <= (1 - n) * k * x_u) -> samples_regular x_u n k y_u m.
Proof.
  intros x_u n k y_u m XU YU N0 N1 M H x I. unfold regular. destruct (conic_x_spec x_u m XU M) as (_ & _ & R & _). destruct (R x I) as [X0 _].
  destruct (Rle_lt_dec x 0) as [Z|Z]; [left; lra|]. destruct (Rle_lt_dec x_u x) as [G|G]; [right; left; auto|right; right].
  set (k' := Rmax (y_u / x_u) k). assert (K1 : y_u / x_u <= k') by apply Rmax_l. assert (K2 : k <= k') by apply Rmax_r.
  assert (Y1 : y_u <= k' * x_u). { apply Rmult_le_compat_r with (r := x_u) in K1; [|lra]. replace (y_u / x_u * x_u) with y_u in K1 by (field; lra). exact K1. }
  assert (Y2 : k * x_u <= k' * x_u) by (apply Rmult_le_compat_r; lra).
  assert (B : n * y_u <= (1 - n) * (k' * x_u)). { destruct H as [H|H]; nra. }
  assert (P : 0 < (1 - n) * (k' * x_u)) by (apply Rmult_lt_0_compat; lra).
  assert (n * y_u * x < (1 - n) * k' * x_u ^ 2); [|lra].
  replace ((1 - n) * k' * x_u ^ 2) with ((1 - n) * (k' * x_u) * x_u) by ring. nra.
Qed.

Lemma mapM_err : forall A B (f : A -> res B) e l x, In x l -> (forall z, (exists y, f z = Ok y) \/ f z = Err e) -> f x = Err e -> mapM f l = Err e.
Proof.
  intros A B f e l x. induction l as [|a t IH]; intros I H E; [contradiction|]. cbn [mapM]. destruct (H a) as [[y Ha]|Ha]; rewrite Ha; cbn [bind]; [|reflexivity].
  destruct I as [->|I]; [congruence|]. rewrite IH; auto.
Qed.

Lemma point_singular : forall x_u n k y_u x, 0 < x_u -> 0 < y_u -> 0 < n -> n < 1 -> y_u / x_u <= k -> 0 < x -> x + 1/100 <= x_u ->
  (1 - n) * k * x_u ^ 2 = n * y_u * x -> conic_point x_u n k y_u x = Err ZeroDivisionError.
Proof.
  intros x_u n k y_u x XU YU N0 N1 K P L E. unfold conic_point. rewrite Rabs_left by lra.
  destruct (Rlt_dec (- (x - x_u)) (1/100)); [lra|]. destruct (Rlt_dec x x_u); [|lra]. destruct (Req_EM_T y_u 0); [lra|]. cbv zeta.
  set (b := 2 * n * x / x_u - (1 - n) * (1 + x * k / y_u)).
  assert (C : x * (k / y_u) * (1 - n) - n * (x ^ 2 / x_u ^ 2) = 0).
  { replace (x * (k / y_u) * (1 - n)) with ((1 - n) * k * x_u ^ 2 * (x / (y_u * x_u ^ 2))) by (field; lra). rewrite E. field. lra. }
  assert (B : 0 <= b).
  { assert (K' : y_u <= k * x_u). { apply Rmult_le_compat_r with (r := x_u) in K; [|lra]. replace (y_u / x_u * x_u) with y_u in K by (field; lra). exact K. }
    assert (E1 : (1 - n) * (k * x_u) = n * y_u * x / x_u) by (apply Rmult_eq_reg_r with x_u; [|lra]; replace ((1 - n) * (k * x_u) * x_u) with ((1 - n) * k * x_u ^ 2) by ring; rewrite E; field; lra).
    assert (E2 : (1 - n) * y_u <= n * y_u * x / x_u) by (rewrite <- E1; apply Rmult_le_compat_l; lra).
    assert (E3 : (1 - n) * (x * k / y_u) = n * (x / x_u) * (x / x_u)).
    { replace ((1 - n) * (x * k / y_u)) with ((1 - n) * (k * x_u) * (x / (y_u * x_u))) by (field; lra). rewrite E1. field. lra. }
    assert (E4 : 1 - n <= n * (x / x_u)).
    { apply Rmult_le_reg_r with y_u; [lra|]. replace (n * (x / x_u) * y_u) with (n * y_u * x / x_u) by (field; lra). exact E2. }
    assert (F0 : 0 < x / x_u) by (apply Rdiv_lt_0_compat; lra).
    assert (F1 : x / x_u < 1) by (apply Rmult_lt_reg_r with x_u; [lra|]; replace (x / x_u * x_u) with x by (field; lra); lra).
    unfold b. replace (2 * n * x / x_u) with (2 * n * (x / x_u)) by (field; lra). rewrite Rmult_plus_distr_l, E3. 
    assert (n * (x / x_u) * (x / x_u) <= n * (x / x_u)) by nra. lra. }
  rewrite C. replace (b ^ 2 - 4 * (1 - 2 * n) * 0) with (b * b) by ring. destruct (Rlt_dec (b * b) 0); [nra|].
  rewrite sqrt_square by exact B. destruct (Req_EM_T (- b + b) 0); [reflexivity|lra].
Qed.
