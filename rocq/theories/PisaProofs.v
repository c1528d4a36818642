(** Proofs about the PISA curves. *)
From Coq Require Import List Reals Lra Lia Psatz.
From Verif Require Import Base ConicModel ConicSpec ConicProofs ConicProps PisaModel PisaSpec.
Import ListNotations.
Local Open Scope R_scope.

Lemma nonzero_ok : forall A d (r : res A), d <> 0 -> nonzero d r = r.
Proof. intros A d r H. unfold nonzero. destruct (Req_EM_T d 0); [contradiction|reflexivity]. Qed.

Lemma last_nth0 : forall (l : list R), last l 0 = nth (length l - 1) l 0.
Proof.
  induction l as [|a [|b t] IH]; [reflexivity|reflexivity|]. change (last (a :: b :: t) 0) with (last (b :: t) 0). rewrite IH. cbn [length].
  replace (S (S (length t)) - 1)%nat with (S (S (length t) - 1)) by lia. reflexivity.
Qed.

Lemma nth_scale : forall c l i, nth i (map (fun v => v * c) l) 0 = nth i l 0 * c.
Proof. intros c l i. rewrite <- (map_nth (fun v => v * c)). f_equal. ring. Qed.

Lemma scaled_curve : forall x_u n k y_u m num G0 scale,
  1/100 <= x_u -> 0 < y_u -> 0 <= n -> n < 1 -> (7 <= m)%nat -> 0 <= num -> 0 < G0 -> 0 <= scale ->
  (forall x, In x (conic_x x_u m) -> 0 < x -> x < x_u -> (1 - n) * Rmax (y_u / x_u) k * x_u ^ 2 <> n * y_u * x) ->
  exists xs ys, scaled (conic x_u n k y_u m) num G0 scale = Ok (xs, map Some ys) /\
    pisa_curve m n (Rmax 1 (k * x_u / y_u)) (1/100 / x_u) (x_u * (num / G0)) (y_u * scale) xs ys.
Proof.
  intros x_u n k y_u m num G0 scale X Y N0 N1 M NU G SC R.
  destruct (C42_conic_curve x_u n k y_u m X Y N0 N1 M R) as (xs & ys & E & Lx & Ly & X0 & Y0 & NX & NY & IU & LX & P).
  assert (F : 0 <= num / G0) by (apply Rmult_le_pos; [auto|left; apply Rinv_0_lt_compat; auto]).
  exists (map (fun v => v * (num / G0)) xs), (map (fun v => v * scale) ys). split.
  { unfold scaled. rewrite E. cbn [bind fst snd]. rewrite nonzero_ok by lra. rewrite !map_map. reflexivity. }
  assert (LL : nth (m - 1) ys 0 = y_u).
  { destruct (P (m - 1)%nat ltac:(lia)) as (_ & _ & H & _). apply H. rewrite <- Lx, <- last_nth0, LX. lra. }
  unfold pisa_curve. rewrite !map_length, !nth_scale, X0, Y0. split; [exact Lx|]. split; [exact Ly|].
  split; [ring|]. split; [ring|]. split; [apply nondecreasing_map; auto; intros; apply Rmult_le_compat_r; auto|].
  split; [apply nondecreasing_map; auto; intros; apply Rmult_le_compat_r; auto|].
  split; [apply in_map_iff; exists x_u; auto|].
  split; [rewrite last_nth0, map_length, nth_scale, <- last_nth0, LX; ring|].
  split; [rewrite last_nth0, map_length, nth_scale, Ly, LL; ring|].
  intros i Hi. destruct (P i Hi) as (U & C & T & O). exists (nth i xs 0 / x_u), (nth i ys 0 / y_u).
  rewrite !nth_scale. split; [field; lra|]. split; [field; lra|].
  assert (I : In (nth i xs 0) xs) by (apply nth_In; lia).
  assert (XB : 0 <= nth i xs 0 /\ nth i xs 0 <= 11/10 * x_u).
  { pose proof (NX 0%nat i ltac:(lia) ltac:(lia)) as H0. rewrite X0 in H0. split; [exact H0|]. rewrite <- LX, last_nth0. apply NX; lia. }
  assert (IX : 0 < / x_u) by (apply Rinv_0_lt_compat; lra). assert (IY : 0 < / y_u) by (apply Rinv_0_lt_compat; lra).
  assert (EX : nth i xs 0 = nth i xs 0 / x_u * x_u) by (field; lra). assert (EY : nth i ys 0 = nth i ys 0 / y_u * y_u) by (field; lra).
  split. { split; [apply Rmult_le_pos; lra|]. apply Rmult_le_reg_r with x_u; [lra|]. rewrite <- EX. lra. }
  assert (Y1 : nth i ys 0 / y_u <= 1) by (apply Rmult_le_reg_r with y_u; [lra|]; rewrite <- EY; lra).
  assert (X1 : 1 <= nth i xs 0 / x_u -> nth i ys 0 / y_u = 1).
  { intros H. rewrite T; [field; lra|]. rewrite EX. apply Rmult_le_compat_r with (r := x_u) in H; lra. }
  split.
  { destruct (Rle_lt_dec 1 (nth i xs 0 / x_u)) as [H|H].
    - rewrite (X1 H). apply Rmin_r.
    - apply Rle_trans with (nth i xs 0 / x_u); [apply Rmin_l|]. apply Rmult_le_reg_r with y_u; [lra|]. rewrite <- EY.
      apply Rle_trans with (y_u / x_u * nth i xs 0); [right; field; lra|]. apply C. rewrite EX. apply Rmult_lt_compat_r with (r := x_u) in H; lra. }
  split; [exact Y1|]. split; [exact X1|]. intros H. apply Rmult_le_compat_r with (r := x_u) in H; [|lra].
  assert (Hx : nth i xs 0 + 1/100 <= x_u) by (replace ((nth i xs 0 / x_u + 1 / 100 / x_u) * x_u) with (nth i xs 0 + 1/100) in H by (field; lra); lra).
  destruct (O Hx) as [TG OC]. split; [|exact OC].
  destruct OC as []. apply Rmult_le_reg_r with y_u; [lra|]. rewrite <- EY.
  assert (KS : Rmax 1 (k * x_u / y_u) * (nth i xs 0 / x_u) * y_u = Rmax (y_u / x_u) k * nth i xs 0); [|lra].
  replace (Rmax (y_u / x_u) k) with (Rmax 1 (k * x_u / y_u) * (y_u / x_u)); [field; lra|].
  rewrite Rmult_comm. rewrite <- RmaxRmult by (apply Rmult_le_pos; lra). f_equal; field; lra.
Qed.

(** The hypothesis about singular samples follows from a stiffness condition. *)
Lemma scaled_curve' : forall x_u n k y_u m num G0 scale,
  1/100 <= x_u -> 0 < y_u -> 0 <= n -> n < 1 -> (7 <= m)%nat -> 0 <= num -> 0 < G0 -> 0 <= scale ->
  (n <= 1/2 \/ n * y_u <= (1 - n) * k * x_u) ->
  exists xs ys, scaled (conic x_u n k y_u m) num G0 scale = Ok (xs, map Some ys) /\
    pisa_curve m n (Rmax 1 (k * x_u / y_u)) (1/100 / x_u) (x_u * (num / G0)) (y_u * scale) xs ys.
Proof. intros. apply scaled_curve; auto. apply C42_no_division_by_zero; auto. Qed.

Lemma mulr : forall a X D, a * X / D = a * (X / D).
Proof. intros. unfold Rdiv. ring. Qed.

Lemma frac01 : forall X D c, 0 < D -> 0 <= X -> X <= c * D -> 0 <= X / D /\ X / D <= c.
Proof.
  intros X D c P A B. split; [apply Rmult_le_pos; [auto|left; apply Rinv_0_lt_compat; auto]|].
  apply Rmult_le_reg_r with D; auto. replace (X / D * D) with X by (field; lra). lra.
Qed.

Lemma frac_ge : forall X D c, 0 < D -> c * D <= X -> c <= X / D.
Proof. intros X D c P A. apply Rmult_le_reg_r with D; auto. replace (X / D * D) with X by (field; lra). lra. Qed.

Lemma exp_neg : forall c r, c <= 0 -> 0 <= r -> 0 < exp (c * r) <= 1.
Proof.
  intros c r A B. split; [apply exp_pos|]. rewrite <- exp_0. destruct (Req_dec (c * r) 0) as [->|N]; [lra|].
  left. apply exp_increasing. assert (0 <= - c * r) by (apply Rmult_le_pos; lra). lra.
Qed.

Lemma scales : forall Su D, 0 <= Su -> 0 < D -> 0 <= Su * D /\ 0 <= Su * D ^ 2 /\ 0 <= Su * D ^ 3.
Proof. intros Su D A B. assert (0 < D ^ 2) by (apply pow_lt; auto). assert (0 < D ^ 3) by (apply pow_lt; auto). split; [|split]; apply Rmult_le_pos; lra. Qed.

(** [scaled_curve'] with every parameter given in the form a statement wants. *)
Lemma curve_as : forall x_u n k y_u m num G0 scale n' s' e' xu' yu',
  1/100 <= x_u -> 0 < y_u -> 0 <= n -> n < 1 -> (7 <= m)%nat -> 0 <= num -> 0 < G0 -> 0 <= scale ->
  (n <= 1/2 \/ n * y_u <= (1 - n) * k * x_u) ->
  n = n' -> Rmax 1 (k * x_u / y_u) = s' -> 1/100 / x_u = e' -> x_u * (num / G0) = xu' -> y_u * scale = yu' ->
  exists xs ys, scaled (conic x_u n k y_u m) num G0 scale = Ok (xs, map Some ys) /\ pisa_curve m n' s' e' xu' yu' xs ys.
Proof. intros. subst. apply scaled_curve'; auto. Qed.

(** The stiffness condition of the Dunkirk base shear curve, by its Bernstein coefficients on the box. *)
Lemma dunkirk_Hb_stiff : forall d r, 0 <= d -> d <= 1 -> 2 <= r -> r <= 6 ->
  (0.09978 + 0.7974 * d + (0.004994 - 0.07005 * d) * r) * (0.09952 + 0.7996 * d + (0.03988 - 0.1606 * d) * r) <=
  (1 - (0.09978 + 0.7974 * d + (0.004994 - 0.07005 * d) * r)) * (6.505 - 2.985 * d + (-0.007969 - 0.4299 * d) * r) *
  (0.5150 + 2.883 * d + (0.1695 - 0.7018 * d) * r).
Proof.
  intros d r D0 D1 R0 R1.
  assert (Z : forall c i j k l, 0 <= c -> 0 <= c * (d ^ i * (1 - d) ^ j) * ((r - 2) ^ k * (6 - r) ^ l)).
  { intros c i j k l H. assert (0 <= d ^ i) by (apply pow_le; lra). assert (0 <= (1 - d) ^ j) by (apply pow_le; lra).
    assert (0 <= (r - 2) ^ k) by (apply pow_le; lra). assert (0 <= (6 - r) ^ l) by (apply pow_le; lra).
    apply Rmult_le_pos; [apply Rmult_le_pos; [auto|apply Rmult_le_pos; auto]|apply Rmult_le_pos; auto]. }
  apply Rminus_le. apply Ropp_le_cancel. rewrite Ropp_0. unfold Q2R. cbn [QArith_base.Qnum QArith_base.Qden].
  match goal with |- 0 <= ?g => replace g with (
    153552591298623/2000000000000000 * (d ^ 0 * (1 - d) ^ 3) * ((r - 2) ^ 0 * (6 - r) ^ 3) +
    578177300135337/2000000000000000 * (d ^ 0 * (1 - d) ^ 3) * ((r - 2) ^ 1 * (6 - r) ^ 2) +
    86533320080597/250000000000000 * (d ^ 0 * (1 - d) ^ 3) * ((r - 2) ^ 2 * (6 - r) ^ 1) +
    66913835763529/500000000000000 * (d ^ 0 * (1 - d) ^ 3) * ((r - 2) ^ 3 * (6 - r) ^ 0) +
    2586136971993109/10000000000000000 * (d ^ 1 * (1 - d) ^ 2) * ((r - 2) ^ 0 * (6 - r) ^ 3) +
    3094389135949483/5000000000000000 * (d ^ 1 * (1 - d) ^ 2) * ((r - 2) ^ 1 * (6 - r) ^ 2) +
    4690325249614803/10000000000000000 * (d ^ 1 * (1 - d) ^ 2) * ((r - 2) ^ 2 * (6 - r) ^ 1) +
    545149927471329/5000000000000000 * (d ^ 1 * (1 - d) ^ 2) * ((r - 2) ^ 3 * (6 - r) ^ 0) +
    5519754077059817/40000000000000000 * (d ^ 2 * (1 - d) ^ 1) * ((r - 2) ^ 0 * (6 - r) ^ 3) +
    12242645303199583/40000000000000000 * (d ^ 2 * (1 - d) ^ 1) * ((r - 2) ^ 1 * (6 - r) ^ 2) +
    7701814399006539/40000000000000000 * (d ^ 2 * (1 - d) ^ 1) * ((r - 2) ^ 2 * (6 - r) ^ 1) +
    750266897838429/40000000000000000 * (d ^ 2 * (1 - d) ^ 1) * ((r - 2) ^ 3 * (6 - r) ^ 0) +
    582958331919841/40000000000000000 * (d ^ 3 * (1 - d) ^ 0) * ((r - 2) ^ 0 * (6 - r) ^ 3) +
    1676216250665459/40000000000000000 * (d ^ 3 * (1 - d) ^ 0) * ((r - 2) ^ 1 * (6 - r) ^ 2) +
    487552268002847/40000000000000000 * (d ^ 3 * (1 - d) ^ 0) * ((r - 2) ^ 2 * (6 - r) ^ 1) +
    818381855117/40000000000000000 * (d ^ 3 * (1 - d) ^ 0) * ((r - 2) ^ 3 * (6 - r) ^ 0)) by field end.
  repeat apply Rplus_le_le_0_compat; apply Z; lra.
Qed.
