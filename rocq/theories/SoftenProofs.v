(** Which curves of the program soften. *)
From Coq Require Import List Bool Arith ZArith Reals Lra Lia Psatz Permutation.
From Verif Require Import Base ConicModel ConicSpec ConicProofs PisaModel PisaProofs ApiSandModel ApiSandSpec ApiSandProofs ApiClayModel ApiClaySpec ApiClayProofs ApiClayProps ReeseModel ReeseSpec ReeseProofs FirmProofs
  PisaSpec PisaProps ReeseProps AxialModel AxialSpec AxialProofs AxialProps LateralModel LateralSpec LateralProofs MomentProofs SoftenSpec.
Import ListNotations.
Local Open Scope R_scope.

(** ** Lists *)
Lemma softens_scale : forall x y cx cy, 0 <= cx -> 0 <= cy -> softens x y -> softens (map (fun v => v * cx) x) (map (fun v => v * cy) y).
Proof.
  intros x y cx cy CX CY (X0 & Y0 & H). assert (N : forall c l i, nth i (map (fun v => v * c) l) 0 = nth i l 0 * c).
  { intros c l i. rewrite <- (Rmult_0_l c) at 1. exact (map_nth (fun v => v * c) l 0 i). }
  split; [rewrite N, X0; ring|]. split; [rewrite N, Y0; ring|]. intros i. rewrite !N. specialize (H i).
  replace (nth i y 0 * cy * (nth 1 x 0 * cx)) with (cx * cy * (nth i y 0 * nth 1 x 0)) by ring.
  replace (nth 1 y 0 * cy * (nth i x 0 * cx)) with (cx * cy * (nth 1 y 0 * nth i x 0)) by ring. apply Rmult_le_compat_l; [apply Rmult_le_pos; auto|exact H].
Qed.

Lemma softens_map : forall (f : R -> R) l, (2 <= length l)%nat -> nth 0 l 0 = 0 -> f 0 = 0 -> (forall v, In v l -> f v * nth 1 l 0 <= f (nth 1 l 0) * v) -> softens l (map f l).
Proof.
  intros f l L Z F H. assert (N : forall i, nth i (map f l) 0 = f (nth i l 0)) by (intros i; rewrite <- F at 1; apply map_nth).
  split; [exact Z|]. split; [rewrite N, Z; exact F|]. intros i. rewrite !N. destruct (Nat.lt_ge_cases i (length l)) as [I|I]; [apply H, nth_In, I|].
  rewrite (nth_overflow l) by lia. rewrite F. lra.
Qed.

Lemma map_Some_inj : forall a b : list R, map Some a = map Some b -> a = b.
Proof. induction a as [|x t IH]; intros [|y s] H; try discriminate; [reflexivity|]. injection H as -> H. f_equal. apply IH. exact H. Qed.

(** ** The conic *)
Lemma norm_secant : forall n s X1 X2, 0 <= n -> n < 1 -> 1 <= s -> 0 < X1 -> X1 <= X2 -> X2 < 1 -> cden n s X1 <> 0 -> cden n s X2 <> 0 ->
  cY n s X2 * X1 <= cY n s X1 * X2.
Proof.
  intros n s X1 X2 N0 N1 S1 A B C D1 D2.
  destruct (norm_bounds n s X1 N0 N1 S1 ltac:(lra) ltac:(lra) D1) as (L1 & U1 & T1 & C1).
  destruct (norm_bounds n s X2 N0 N1 S1 ltac:(lra) C D2) as (L2 & U2 & T2 & C2).
  destruct (Rle_lt_dec n 0) as [Z|P].
  - assert (EN : n = 0) by lra.
    assert (M : forall X, 0 <= X -> X < 1 -> cden n s X <> 0 -> cY n s X = Rmin 1 (s * X)) by (intros X P0 P1 P2; exact (n0_min n s X N0 N1 S1 P0 P1 P2 EN)).
    rewrite (M X1), (M X2) by lra. unfold Rmin. destruct (Rle_dec 1 (s * X1)), (Rle_dec 1 (s * X2)); nra.
  - destruct (Rle_lt_dec (cY n s X2 * X1) (cY n s X1 * X2)) as [|W]; [auto|exfalso].
    set (t := X1 / X2). assert (X2P : 0 < X2) by lra. assert (T0 : 0 < t) by (apply Rdiv_lt_0_compat; lra).
    assert (E1 : t * X2 = X1) by (unfold t; field; lra).
    assert (TL : t <= 1) by (apply Rmult_le_reg_r with X2; lra).
    assert (G : cY n s X1 < t * cY n s X2).
    { apply Rmult_lt_reg_r with X2; auto. replace (t * cY n s X2 * X2) with (cY n s X2 * (t * X2)) by ring. rewrite E1. exact W. }
    assert (GU : t * cY n s X2 <= 1) by nra.
    pose proof (beyond n s X1 N0 N1 S1 ltac:(lra) ltac:(lra) D1 (t * cY n s X2) P G GU) as F0.
    assert (F : (1 - n) * (t * cY n s X2 - s * X1) * (t * cY n s X2 - 1) - n * (t * cY n s X2 - X1) ^ 2 < 0) by (rewrite <- f_conic; exact F0). clear F0.
    unfold on_conic in C2. set (Y := cY n s X2) in *. rewrite <- E1 in F.
    assert (E : (1 - n) * (t * Y - s * (t * X2)) * (t * Y - 1) - n * (t * Y - t * X2) ^ 2 = t * ((1 - n) * (Y - s * X2) * (t * Y - 1) - t * ((1 - n) * (Y - s * X2) * (Y - 1)))) by (rewrite C2; ring).
    assert (E2 : (1 - n) * (Y - s * X2) * (t * Y - 1) - t * ((1 - n) * (Y - s * X2) * (Y - 1)) = (1 - n) * (s * X2 - Y) * (1 - t)) by ring.
    rewrite E, E2 in F. assert (0 <= t * ((1 - n) * (s * X2 - Y) * (1 - t))) by (apply Rmult_le_pos; [lra|]; apply Rmult_le_pos; [apply Rmult_le_pos|]; lra). lra.
Qed.

(** The samples keep clear of the interval in which the program replaces the resistance by the ultimate one. *)
Lemma samples_clear : forall x_u m, 0 < x_u -> (7 <= m)%nat -> INR (m - 6) <= 80 * x_u -> forall x, In x (conic_x x_u m) -> x + 1/100 <= x_u \/ x_u <= x.
Proof.
  intros x_u m P M H x I. assert (P1 : 1 <= INR (m - 6)) by (change 1 with (INR 1); apply le_INR; lia).
  unfold conic_x in I. apply in_app_or in I. destruct I as [I|I].
  - cbn [map] in I. destruct I as [<-|[<-|[<-|[<-|[]]]]]; left; lra.
  - apply in_app_or in I. destruct I as [I|[<-|[]]]; [|right; lra].
    destruct (In_nth _ _ 0 I) as (i & Hi & <-). rewrite linspace_length in Hi. rewrite linspace_nth by lia. replace (m - 5 - 1)%nat with (m - 6)%nat by lia.
    destruct (Nat.eq_dec i (m - 6)) as [->|NE].
    + right. replace (2 / 10 * x_u + (x_u - 2 / 10 * x_u) * (INR (m - 6) / INR (m - 6))) with x_u by (field; lra). lra.
    + left. assert (HI : INR i + 1 <= INR (m - 6)) by (rewrite <- S_INR; apply le_INR; lia).
      assert (E : 2 / 10 * x_u + (x_u - 2 / 10 * x_u) * (INR i / INR (m - 6)) = x_u - 8 / 10 * x_u * ((INR (m - 6) - INR i) / INR (m - 6))) by (field; lra).
      rewrite E. assert (1 / 100 <= 8 / 10 * x_u * ((INR (m - 6) - INR i) / INR (m - 6))); [|lra].
      assert (L : 1 / INR (m - 6) <= (INR (m - 6) - INR i) / INR (m - 6)) by (apply Rmult_le_compat_r; [left; apply Rinv_0_lt_compat; lra|lra]).
      assert (K : 8 / 10 * x_u * (1 / INR (m - 6)) <= 8 / 10 * x_u * ((INR (m - 6) - INR i) / INR (m - 6))) by (apply Rmult_le_compat_l; lra).
      apply Rle_trans with (2 := K). apply Rmult_le_reg_r with (INR (m - 6)); [lra|]. replace (8 / 10 * x_u * (1 / INR (m - 6)) * INR (m - 6)) with (8 / 10 * x_u) by (field; lra). lra.
Qed.

(** A result without error had no sample on the singular abscissa. *)
Lemma ok_regular : forall x_u n k y_u m r, 0 < x_u -> 0 < y_u -> 0 <= n -> n < 1 -> (7 <= m)%nat -> INR (m - 6) <= 80 * x_u -> conic x_u n k y_u m = Ok r -> samples_regular x_u n k y_u m.
Proof.
  intros x_u n k y_u m r XU YU N0 N1 M SP E x I. unfold regular. destruct (conic_x_spec x_u m XU ltac:(lia)) as (_ & _ & R & _). destruct (R x I) as [X0 _].
  destruct (Rle_lt_dec x 0) as [Z|Z]; [left; lra|]. destruct (samples_clear x_u m XU M SP x I) as [G|G]; [|right; left; exact G]. right. right. intros EQ.
  assert (K1 : y_u / x_u <= Rmax (y_u / x_u) k) by apply Rmax_l. assert (QP : 0 < y_u / x_u) by (apply Rdiv_lt_0_compat; auto).
  destruct (Rle_lt_dec n 0) as [NZ|NP].
  - assert (n = 0) by lra. subst n. assert (0 < (1 - 0) * Rmax (y_u / x_u) k * x_u ^ 2) by (apply Rmult_lt_0_compat; [lra|apply pow_lt; auto]). lra.
  - unfold conic in E. destruct (Req_EM_T x_u 0); [discriminate|]. replace (m <? 5)%nat with false in E by (symmetry; apply Nat.ltb_ge; lia). cbv zeta in E.
    rewrite (mapM_err _ _ _ ZeroDivisionError (conic_x x_u m) x I) in E; [discriminate| |apply point_singular; auto].
    intros z. unfold conic_point. destruct (Rlt_dec (Rabs (z - x_u)) (1 / 100)); [left; eauto|]. destruct (Rlt_dec z x_u); [|left; eauto]. destruct (Req_EM_T y_u 0); [right; reflexivity|]. cbv zeta.
    destruct (Rlt_dec _ 0); [left; eauto|]. destruct (Req_EM_T _ 0); [right; reflexivity|left; eauto].
Qed.

Lemma conic_softens : forall x_u n k y_u m xs ys, 0 < x_u -> 0 < y_u -> 0 <= n -> n < 1 -> (7 <= m)%nat -> INR (m - 6) <= 80 * x_u ->
  conic x_u n k y_u m = Ok (xs, map Some ys) -> softens xs ys.
Proof.
  intros x_u n k y_u m xs ys XU YU N0 N1 M SP E. pose proof (ok_regular x_u n k y_u m _ XU YU N0 N1 M SP E) as SR.
  assert (P1 : 1 <= INR (m - 6)) by (change 1 with (INR 1); apply le_INR; lia).
  rewrite (conic_ok x_u n k y_u m XU YU N0 N1 ltac:(lia) SR) in E. injection E as <- EY.
  assert (ys = conic_y x_u n k y_u m) as ->.
  { symmetry. apply map_Some_inj. exact EY. }
  destruct (conic_x_spec x_u m XU ltac:(lia)) as (L & ND & RG & Z & _ & _). set (K := Rmax (y_u / x_u) k) in *. assert (KK : y_u / x_u <= K) by apply Rmax_l.
  assert (NX : nth 1 (conic_x x_u m) 0 = 2/100 * x_u) by reflexivity. assert (I1 : In (2/100 * x_u) (conic_x x_u m)) by (rewrite <- NX; apply nth_In; lia).
  unfold conic_y. fold K. apply softens_map; [lia|exact Z|apply val_zero; auto; lra|]. intros v I. rewrite NX. set (x1 := 2/100 * x_u) in *.
  assert (B1 : y_u / x_u * x1 <= conic_val x_u n K y_u x1) by (destruct (val_bounds x_u n K y_u XU YU N0 N1 KK x1 ltac:(unfold x1; lra) (SR x1 I1)) as (_ & _ & VB & _); apply VB; unfold x1; lra).
  destruct (samples_clear x_u m XU M SP v I) as [G|G].
  - destruct (Rle_lt_dec v 0) as [V0|V0].
    { assert (v = 0) as -> by (pose proof (RG v I); lra). rewrite val_zero by (auto; lra). lra. }
    assert (V1 : x1 <= v).
    { clear - I V0 XU M. unfold conic_x in I. apply in_app_or in I. unfold x1. destruct I as [I|I]; [cbn [map] in I; destruct I as [<-|[<-|[<-|[<-|[]]]]]; lra|].
      apply in_app_or in I. destruct I as [I|[<-|[]]]; [apply (linspace_in (2/10 * x_u) x_u) in I; lra|lra]. }
    unfold conic_val. destruct (Rlt_dec v x_u); [|lra]. destruct (Rlt_dec x1 x_u); [|lra]. rewrite !Rabs_left by lra. destruct (Rlt_dec (- (v - x_u)) (1/100)); [lra|]. destruct (Rlt_dec (- (x1 - x_u)) (1/100)); [lra|].
    assert (S1 : 1 <= K * x_u / y_u) by (apply ratio_ge1; auto).
    destruct (frac_range x_u XU v ltac:(lra) ltac:(lra)) as [F0 F1]. assert (H1 : 0 < x1 / x_u) by (apply Rdiv_lt_0_compat; unfold x1; lra).
    assert (H2 : x1 / x_u <= v / x_u) by (apply Rmult_le_compat_r; [left; apply Rinv_0_lt_compat; auto|auto]).
    pose proof (norm_secant n (K * x_u / y_u) (x1 / x_u) (v / x_u) N0 N1 S1 H1 H2 F1
      (regular_den x_u n K y_u XU YU N0 N1 KK x1 ltac:(unfold x1; lra) ltac:(lra) (SR x1 I1)) (regular_den x_u n K y_u XU YU N0 N1 KK v ltac:(lra) ltac:(lra) (SR v I))) as NS.
    set (Y1 := cY n (K * x_u / y_u) (x1 / x_u)) in *. set (Y2 := cY n (K * x_u / y_u) (v / x_u)) in *.
    apply Rmult_le_compat_r with (r := x_u * y_u) in NS; [|left; apply Rmult_lt_0_compat; auto].
    replace (Y2 * (x1 / x_u) * (x_u * y_u)) with (y_u * Y2 * x1) in NS by (field; lra). replace (Y1 * (v / x_u) * (x_u * y_u)) with (y_u * Y1 * v) in NS by (field; lra). exact NS.
  - assert (conic_val x_u n K y_u v = y_u) as -> by (unfold conic_val; destruct (Rlt_dec v x_u); [lra|reflexivity]).
    assert (X1 : 0 < x1) by (unfold x1; lra). apply Rmult_le_compat_r with (r := v) in B1; [|lra].
    assert (y_u * x1 <= y_u / x_u * x1 * v); [|lra]. replace (y_u / x_u * x1 * v) with (y_u * x1 * (v / x_u)) by (field; lra).
    assert (1 <= v / x_u) by (apply Rmult_le_reg_r with x_u; auto; replace (v / x_u * x_u) with v by (field; lra); lra).
    assert (0 < y_u * x1) by (apply Rmult_lt_0_compat; auto). nra.
Qed.

Lemma scaled_softens : forall x_u n k y_u m num G0 sc xs ys, 0 < x_u -> 0 < y_u -> 0 <= n -> n < 1 -> (7 <= m)%nat -> INR (m - 6) <= 80 * x_u -> 0 <= num -> 0 < G0 -> 0 <= sc ->
  scaled (conic x_u n k y_u m) num G0 sc = Ok (xs, map Some ys) -> softens xs ys.
Proof.
  intros x_u n k y_u m num G0 sc xs ys XU YU N0 N1 M SP HN HG HS E. unfold scaled in E. destruct (conic x_u n k y_u m) as [[x0 y0]|] eqn:C; [|discriminate]. cbn [bind fst snd] in E.
  unfold nonzero in E. destruct (Req_EM_T G0 0); [lra|]. injection E as <- EY.
  assert (Y0 : exists y, y0 = map Some y /\ ys = map (fun v => v * sc) y).
  { clear - EY. revert ys EY. induction y0 as [|[a|] t IH]; intros [|b s] H; cbn in H; try discriminate.
    - exists []. split; reflexivity.
    - injection H as <- H. destruct (IH s H) as (y & -> & ->). exists (a :: y). split; reflexivity. }
  destruct Y0 as (y & -> & ->). apply softens_scale; [|exact HS|apply (conic_softens x_u n k y_u m); auto].
  apply Rmult_le_pos; [auto|]. left. apply Rinv_0_lt_compat. auto.
Qed.

(** ** API sand *)
Lemma api_sand_softens : forall sig X phi D kind b k ymax n y p, 0 < phi -> phi < 90 -> 0 < D -> 0 <= k -> 0 <= sig -> 0 <= X -> 0 <= ymax ->
  api_sand sig X phi D kind b k ymax n = Ok (y, p) -> softens y p.
Proof.
  intros sig X phi D kind b k ymax n y p P0 P1 HD HK HS HX HY E. rewrite api_sand_eq in E by auto. set (N := Nat.max 8 n) in E. assert (N8 : (8 <= N)%nat) by apply Nat.le_max_l. clearbody N. injection E as <- <-.
  pose proof (sand_ymax_pos sig X phi D kind b k ymax P0 P1 HD HK HS HX HY) as YP. set (Y := sand_ymax sig X phi D kind b k ymax) in *.
  destruct (linspace_ends 0 Y N ltac:(lia)) as [E0 _].
  apply softens_map; [rewrite linspace_length; lia|exact E0| |].
  { unfold sand_p. cbv zeta. destruct (Req_EM_T (sand_ultimate sig X phi D) 0) as [|U]; [reflexivity|]. rewrite Rmult_0_r. unfold Rdiv. rewrite Rmult_0_l, tanh_0. ring. }
  intros v I. set (x1 := nth 1 (linspace 0 Y N) 0).
  assert (NP : 0 < INR (N - 1)) by (apply lt_0_INR; lia).
  assert (X1 : x1 = Y * (1 / INR (N - 1))) by (unfold x1; rewrite linspace_nth by (lia); change (INR 1) with 1; ring).
  assert (X1P : 0 < x1) by (rewrite X1; apply Rmult_lt_0_compat; [auto|apply Rdiv_lt_0_compat; lra]).
  assert (V : v = 0 \/ x1 <= v).
  { destruct (In_nth _ _ 0 I) as (i & Hi & <-). rewrite linspace_length in Hi. destruct i as [|i]; [left; exact E0|right]. unfold x1. apply (linspace_nondecr 0 Y N ltac:(lra) 1%nat (S i)); [lia|rewrite linspace_length; exact Hi]. }
  unfold sand_p. cbv zeta. destruct (Req_EM_T (sand_ultimate sig X phi D) 0) as [|U]; [lra|].
  assert (UP : 0 < sand_ultimate sig X phi D). { destruct (Req_dec sig 0) as [->|NS]; [rewrite ultimate_zero in U; lra|apply ultimate_pos; lra]. }
  pose proof (sand_A_ge X D kind) as AG. set (ult := sand_A X D kind * sand_ultimate sig X phi D) in *. assert (UL : 0 < ult) by (apply Rmult_lt_0_compat; lra).
  pose proof (sand_k_pos phi b k HK) as KP. set (c := sand_k phi b k * X) in *. assert (C0 : 0 <= c) by (apply Rmult_le_pos; lra).
  destruct V as [->|V]; [replace (c * 0 / ult) with 0 by (field; lra); rewrite tanh_0; lra|].
  assert (T0 : 0 <= c * v / ult) by (apply Rmult_le_pos; [apply Rmult_le_pos; lra|left; apply Rinv_0_lt_compat; auto]).
  assert (LL : 0 <= x1 / v <= 1). { split; [apply Rmult_le_pos; [lra|left; apply Rinv_0_lt_compat; lra]|]. apply Rmult_le_reg_r with v; [lra|]. replace (x1 / v * v) with x1 by (field; lra). lra. }
  pose proof (tanh_chord (x1 / v) (c * v / ult) LL T0) as TC. replace (x1 / v * (c * v / ult)) with (c * x1 / ult) in TC by (field; lra).
  apply Rmult_le_compat_r with (r := v * ult) in TC; [|left; apply Rmult_lt_0_compat; lra].
  replace (x1 / v * tanh (c * v / ult) * (v * ult)) with (ult * tanh (c * v / ult) * x1) in TC by (field; lra). lra.
Qed.

(** ** Clay *)
Lemma rise_secant : forall r s, 0 < r -> r <= s -> rise s * r <= rise r * s.
Proof.
  intros r s H L. unfold rise. destruct (Rlt_dec 0 s); [|lra]. destruct (Rlt_dec 0 r); [|lra].
  assert (E : forall x, 0 < x -> x = Rpower x 0.33 * Rpower x 0.67) by (intros x Hx; rewrite <- Rpower_plus; replace (0.33 + 0.67) with 1 by lra; symmetry; apply Rpower_1; auto).
  pose proof (Rpower_mono 0.67 r s ltac:(lra) H L) as M. rewrite (E r H) at 1. rewrite (E s r0) at 2.
  pose proof (exp_pos (0.33 * ln r)) as A. pose proof (exp_pos (0.33 * ln s)) as B. fold (Rpower r 0.33) in A. fold (Rpower s 0.33) in B.
  replace (Rpower s 0.33 / 2 * (Rpower r 0.33 * Rpower r 0.67)) with (Rpower s 0.33 * Rpower r 0.33 / 2 * Rpower r 0.67) by field.
  replace (Rpower r 0.33 / 2 * (Rpower s 0.33 * Rpower s 0.67)) with (Rpower s 0.33 * Rpower r 0.33 / 2 * Rpower s 0.67) by field.
  apply Rmult_le_compat_l; [|exact M]. assert (0 < Rpower s 0.33 * Rpower r 0.33) by (apply Rmult_lt_0_compat; auto). lra.
Qed.
Lemma rise_half : forall r, 0 <= r -> r <= 1 -> r <= 2 * rise r.
Proof. intros r H L. destruct (Req_dec r 0) as [->|N]; [rewrite rise_0; lra|]. pose proof (rise_secant r 1 ltac:(lra) L) as S. rewrite rise_1 in S. lra. Qed.

Lemma static_secant : forall r s, 0 <= r -> r <= 1 -> r <= s -> matlock_static s * r <= matlock_static r * s.
Proof.
  intros r s H H1 L. destruct (Req_dec r 0) as [->|N]; [unfold matlock_static at 2; destruct (Rlt_dec 8 0); [lra|]; rewrite rise_0; lra|].
  unfold matlock_static. destruct (Rlt_dec 8 r); [lra|]. destruct (Rlt_dec 8 s); [|apply rise_secant; lra]. pose proof (rise_half r H H1). pose proof (rise_nonneg r). nra.
Qed.
Lemma cyclic_secant : forall f b z r s, rise b <= f -> f <= b / 2 -> 1 <= b -> b < 15 -> 0 <= z -> 0 <= r -> r <= 1 -> r <= s -> matlock_cyclic f b z s * r <= matlock_cyclic f b z r * s.
Proof.
  intros f b z r s F FB B1 B15 Z H H1 L. destruct (Req_dec r 0) as [->|N]; [unfold matlock_cyclic at 2; destruct (Rle_dec 0 b); [|lra]; rewrite rise_0; lra|].
  destruct (Rle_dec s b) as [SB|SB].
  - unfold matlock_cyclic. destruct (Rle_dec s b); [|lra]. destruct (Rle_dec r b); [|lra]. apply rise_secant; lra.
  - destruct (cyclic_range f b z s F ltac:(lra) B15 Z) as [C0 C1]. assert (E : matlock_cyclic f b z r = rise r) by (unfold matlock_cyclic; destruct (Rle_dec r b); [reflexivity|lra]). rewrite E.
    pose proof (rise_half r H H1) as RH. pose proof (rise_nonneg r).
    assert (matlock_cyclic f b z s * r <= f * r) by (apply Rmult_le_compat_r; lra). assert (f * r <= b / 2 * (2 * rise r)) by (apply Rmult_le_compat; lra).
    assert (b * rise r <= s * rise r) by (apply Rmult_le_compat_r; lra). lra.
Qed.

(** Two different values of a sorted list, the smaller its first: the second value is no larger than the larger. *)
Lemma second_small : forall l a, nondecreasing l -> nth 0 l 0 = 0 -> 0 < a -> In a l -> (2 <= length l)%nat -> nth 1 l 0 <= a.
Proof.
  intros l a ND Z P I L. destruct (In_nth _ _ 0 I) as (i & Hi & E). destruct i as [|i]; [lra|]. rewrite <- E. apply ND; [lia|exact Hi].
Qed.

Lemma discretised_softens : forall frac y50 Pmax n y p, 0 < y50 -> 0 <= Pmax -> (2 <= n)%nat -> discretised frac y50 Pmax n y p -> In (0.1 * y50) y ->
  (forall r s, 0 <= r -> r <= 1 -> r <= s -> frac s * r <= frac r * s) -> softens y p.
Proof.
  intros frac y50 Pmax n y p H50 HP HN [L1 L2 F1 F2 SS V] I H. split; [exact F1|]. split; [exact F2|]. intros i.
  destruct (Nat.lt_ge_cases i n) as [Hi|Hi]; [|rewrite (nth_overflow p), (nth_overflow y 0 (n := i)) by lia; lra].
  pose proof (second_small y (0.1 * y50) SS F1 ltac:(lra) I ltac:(lia)) as S1. assert (S0 : 0 <= nth 1 y 0) by (rewrite <- F1 at 1; apply SS; lia).
  destruct i as [|i]; [rewrite F1, F2; lra|]. assert (SI : nth 1 y 0 <= nth (S i) y 0) by (apply SS; lia). rewrite !V by lia.
  set (a := nth 1 y 0) in *. set (v := nth (S i) y 0) in *.
  assert (D0 : 0 <= a / y50) by (apply Rmult_le_pos; [auto|left; apply Rinv_0_lt_compat; auto]).
  assert (D1 : a / y50 <= 1) by (apply Rmult_le_reg_r with y50; auto; replace (a / y50 * y50) with a by (field; lra); lra).
  assert (D2 : a / y50 <= v / y50) by (apply Rmult_le_compat_r; [left; apply Rinv_0_lt_compat; auto|auto]).
  pose proof (H _ _ D0 D1 D2) as G. apply Rmult_le_compat_r with (r := y50 * Pmax) in G; [|apply Rmult_le_pos; lra].
  replace (frac (v / y50) * (a / y50) * (y50 * Pmax)) with (Pmax * frac (v / y50) * a) in G by (field; lra).
  replace (frac (a / y50) * (v / y50) * (y50 * Pmax)) with (Pmax * frac (a / y50) * v) in G by (field; lra). exact G.
Qed.

Lemma grid_has : forall ymax grid added n v, In v grid -> v <= ymax -> In v (clay_grid ymax grid added n).
Proof. intros ymax grid added n v I L. unfold clay_grid. cbv zeta. apply rsort_in, in_or_app. left. apply filter_In. split; [exact I|]. destruct (Rle_dec v ymax); [reflexivity|contradiction]. Qed.

Lemma clay_softens : forall f b reach n sig X Su eps50 D J kind ymax y p, 0 < eps50 -> 0 < D -> 0 <= sig -> 0 <= X -> 0 <= Su -> 0 < J -> (2 <= n)%nat -> rise b <= f -> f <= b / 2 -> 1 <= b -> b < 15 ->
  clay_claim f b reach n sig X Su eps50 D J kind ymax (Ok (y, p)) -> In (0.1 * (2.5 * eps50 * D)) y -> softens y p.
Proof.
  intros f b reach n sig X Su eps50 D J kind ymax y p He HD Hs HX HS HJ HN F FB B1 B15 C I. unfold clay_claim in C. cbv zeta in C.
  destruct C as (Xr & y' & p' & E & X1 & X2 & DI & _). injection E as <- <-.
  assert (H50 : 0 < 2.5 * eps50 * D) by (apply Rmult_lt_0_compat; lra).
  pose proof (Pmax_nonneg sig X Su D J Hs HX HS HD HJ) as HP. unfold clay_Pmax in HP.
  assert (XR : 0 < Xr).
  { destruct (Req_dec X 0) as [Z|NZ]; [rewrite X1 by auto; lra|]. destruct (Req_dec Su 0) as [Z|NS]; [rewrite X1 by auto; lra|]. rewrite X2 by auto. pose proof (Rmax_r (6 * D / (sig / X * D / Su + J)) (2.5 * D)). lra. }
  apply (discretised_softens _ _ _ _ _ _ H50 HP HN DI I). intros r s R0 R1 RS. destruct kind; [apply static_secant; auto|]. apply cyclic_secant; auto.
  apply Rmult_le_pos; [auto|left; apply Rinv_0_lt_compat; auto].
Qed.

(** ** Weak rock *)
Lemma rock_softens : forall Pmax Epy yrm n, 0 <= Pmax -> 0 < Epy -> 0 < yrm -> (8 <= n)%nat ->
  let q := Pmax / (2 * rpow yrm 0.25 * Epy) in let yA := rpow q 1.333 in q <= 1 ->
  softens (reese_y yA yrm n) (map (rock_p Pmax Epy yA yrm) (reese_y yA yrm n)).
Proof.
  intros Pmax Epy yrm n HP HE Hy HN q yA Q1.
  assert (N1 : nth 1 (reese_y yA yrm n) 0 = yA) by (apply y_nth1; auto). assert (A0 : 0 <= yA) by apply rpow_nonneg. assert (Q0 : 0 <= q) by (apply q_nonneg; auto).
  assert (LN : length (reese_y yA yrm n) = n) by (apply y_length; auto). assert (SO : nondecreasing (reese_y yA yrm n)) by (apply y_sorted; auto).
  apply softens_map; [lia|reflexivity|apply f_0; auto|]. intros v I. rewrite N1.
  assert (V : v = 0 \/ yA <= v).
  { destruct (In_nth _ _ 0 I) as (i & Hi & <-). destruct i as [|i]; [left; reflexivity|right]. rewrite <- N1 at 1. apply SO; [lia|exact Hi]. }
  destruct V as [->|V]; [rewrite (f_0 Pmax Epy yrm HP : rock_p Pmax Epy yA yrm 0 = 0); lra|].
  assert (F1 : rock_p Pmax Epy yA yrm yA = Rmin Pmax (Epy * yA)) by (unfold rock_p; destruct (Rle_dec yA yA); [reflexivity|lra]). rewrite F1.
  destruct (Rle_dec v yA) as [VL|VL]; [assert (v = yA) as -> by lra; rewrite F1; lra|].
  assert (FL : rock_p Pmax Epy yA yrm v <= Pmax) by apply f_le.
  unfold Rmin at 1. destruct (Rle_dec Pmax (Epy * yA)) as [C|C].
  - assert (rock_p Pmax Epy yA yrm v * yA <= Pmax * yA) by (apply Rmult_le_compat_r; auto). assert (Pmax * yA <= Pmax * v) by (apply Rmult_le_compat_l; lra). lra.
  - assert (VP : 0 < v) by lra. assert (FV : rock_p Pmax Epy yA yrm v <= q * Epy * Rpower v 0.25).
    { unfold rock_p. destruct (Rle_dec v yA); [lra|]. eapply Rle_trans; [apply Rmin_r|]. rewrite (rpow_div Pmax Epy yrm HE Hy v VP : Pmax / 2 * rpow (v / yrm) 0.25 = q * Epy * Rpower v 0.25). lra. }
    assert (QV : q <= Rpower v 0.75).
    { destruct (Req_dec q 0) as [->|NQ]; [left; apply Rpower_gt0|]. assert (QP : 0 < q) by lra.
      apply Rle_trans with (Rpower yA 0.75).
      - unfold yA. rewrite rpow_pos by auto. rewrite Rpower_mult. rewrite <- (Rpower_1 q QP) at 1. unfold Rpower.
        assert (LQ : ln q <= 0) by (rewrite <- ln_1; destruct (Rle_lt_or_eq_dec q 1 Q1) as [T|T]; [left; apply ln_increasing; auto|rewrite T; lra]).
        assert (LE : 1 * ln q <= 1.333 * 0.75 * ln q) by nra. destruct (Rle_lt_or_eq_dec _ _ LE) as [T|T]; [left; apply exp_increasing; exact T|rewrite T; lra].
      - apply Rpower_mono; [lra| |exact V]. unfold yA. rewrite rpow_pos by auto. apply Rpower_gt0. }
    assert (EV : Rpower v 0.75 * Rpower v 0.25 = v) by (rewrite <- Rpower_plus; replace (0.75 + 0.25) with 1 by lra; apply Rpower_1; auto).
    pose proof (Rpower_gt0 v 0.25) as P25.
    assert (B : q * Epy * Rpower v 0.25 <= Epy * v). { assert (q * Rpower v 0.25 <= Rpower v 0.75 * Rpower v 0.25) by (apply Rmult_le_compat_r; lra). rewrite EV in H. nra. }
    assert (rock_p Pmax Epy yA yrm v * yA <= Epy * v * yA) by (apply Rmult_le_compat_r; lra). lra.
Qed.

Lemma reese_softens : forall Ei qu RQD xr D k m y p, 0 < Ei -> 0 <= qu -> 0 <= xr -> 0 < D -> 0 < k ->
  rock_ultimate qu RQD xr D <= 2 * Rpower (k * D) 0.25 * rock_stiffness Ei xr D -> reese_weakrock Ei qu RQD xr D k m = Ok (y, p) -> softens y p.
Proof.
  intros Ei qu RQD xr D k m y p HE HQ HX HD HK B E.
  assert (Hy : 0 < k * D) by (apply Rmult_lt_0_compat; auto). assert (HP : 0 <= rock_ultimate qu RQD xr D) by (apply ultimate_nonneg; auto). assert (HEp : 0 < rock_stiffness Ei xr D) by (apply stiffness_pos; auto).
  pose proof (r_pos (k * D) Hy) as RP. unfold reese_weakrock in E. set (N := Nat.max 8 m) in E. assert (N8 : (8 <= N)%nat) by apply Nat.le_max_l. clearbody N.
  cbv zeta in E. rewrite nonzero_ok in E by lra. rewrite ultimate_spec, stiffness_spec in E by auto.
  rewrite <- (rpow_pos (k * D)) in B by auto.
  set (Pm := rock_ultimate qu RQD xr D) in *. set (Ep := rock_stiffness Ei xr D) in *.
  assert (DP : 0 < 2 * rpow (k * D) 0.25 * Ep) by (apply Rmult_lt_0_compat; lra). rewrite nonzero_ok in E by lra.
  rewrite (mapM_ok _ _ _ (rock_p Pm Ep (rpow (Pm / (2 * rpow (k * D) 0.25 * Ep)) 1.333) (k * D))) in E by (intros v _; apply f_ok; auto). cbn [bind] in E. injection E as <- <-.
  apply rock_softens; auto. apply Rmult_le_reg_r with (2 * rpow (k * D) 0.25 * Ep); [exact DP|]. replace (Pm / (2 * rpow (k * D) 0.25 * Ep) * (2 * rpow (k * D) 0.25 * Ep)) with Pm by (field; lra). lra.
Qed.

(** ** The clay functions: the second sample is small when the extent is not *)
Lemma kept_samples : forall (r : res R) (g : R -> R -> res R) l y p, bind r (fun Xr => bind (mapM (g Xr) l) (fun p => Ok (l, p))) = Ok (y, p) -> y = l.
Proof. intros r g l y p E. destruct r as [Xr|]; cbn [bind] in E; [|discriminate]. destruct (mapM (g Xr) l); cbn [bind] in E; [|discriminate]. congruence. Qed.
Lemma extent_tenth : forall eps50 D ymax, 0 < 2.5 * eps50 * D -> ymax = 0 \/ 0.25 * eps50 * D <= ymax -> 0.1 * (2.5 * eps50 * D) <= clay_ymax (clay_y50 eps50 D) ymax.
Proof. intros eps50 D ymax P [->|H]; unfold clay_ymax, clay_y50; [destruct (Req_EM_T 0 0); [lra|contradiction]|]. destruct (Req_EM_T ymax 0); lra. Qed.

Lemma api_clay_softens : forall u sig X Su eps50 D J kind ymax m y p, (forall i, 0 <= u i < 1) -> 0 < eps50 -> 0 < D -> 0 <= sig -> 0 <= X -> 0 <= Su -> 0 < J -> 0 <= ymax ->
  ymax = 0 \/ 0.25 * eps50 * D <= ymax -> api_clay u sig X Su eps50 D J kind ymax m = Ok (y, p) -> softens y p.
Proof.
  intros u sig X Su eps50 D J kind ymax m y p U He HD Hs HX HS HJ Hm Hx E. pose proof (C46_api_clay_partial u sig X Su eps50 D J kind ymax m U He HD Hs HX HS HJ Hm) as C. rewrite E in C.
  assert (N8 : (8 <= Nat.max 8 m)%nat) by apply Nat.le_max_l. assert (P : 0 < 2.5 * eps50 * D) by (apply Rmult_lt_0_compat; lra).
  apply (clay_softens 0.7185 3 15 (Nat.max 8 m) sig X Su eps50 D J kind ymax); auto; try lra; try lia; [apply rise_3|].
  unfold api_clay in E. cbv zeta in E. apply kept_samples in E. rewrite E. apply grid_has; [right; left; reflexivity|apply extent_tenth; auto].
Qed.
Lemma matlock_softens : forall u sig X Su eps50 D J kind ymax m y p, (forall i, 0 <= u i < 1) -> 0 < eps50 -> 0 < D -> 0 <= sig -> 0 <= X -> 0 <= Su -> 0 < J -> 0 <= ymax ->
  ymax = 0 \/ 0.25 * eps50 * D <= ymax -> matlock_1970 u sig X Su eps50 D J kind ymax m = Ok (y, p) -> softens y p.
Proof.
  intros u sig X Su eps50 D J kind ymax m y p U He HD Hs HX HS HJ Hm Hx E. pose proof (C46_matlock_partial u sig X Su eps50 D J kind ymax m U He HD Hs HX HS HJ Hm) as C. rewrite E in C.
  assert (N8 : (9 <= Nat.max 9 m)%nat) by apply Nat.le_max_l. assert (P : 0 < 2.5 * eps50 * D) by (apply Rmult_lt_0_compat; lra).
  apply (clay_softens 0.7185 3 8 (Nat.max 9 m) sig X Su eps50 D J kind ymax); auto; try lra; try lia; [apply rise_3|].
  unfold matlock_1970 in E. cbv zeta in E. apply kept_samples in E. rewrite E. apply grid_has; [right; right; right; left; unfold clay_y50; lra|apply extent_tenth; auto].
Qed.
Lemma modified_softens : forall u sig X Su eps50 D J kind ymax m y p, (forall i, 0 <= u i < 1) -> 0 < eps50 -> 0 < D -> 0 <= sig -> 0 <= X -> 0 <= Su -> 0 < J -> 0 <= ymax ->
  ymax = 0 \/ 0.25 * eps50 * D <= ymax -> modified_Matlock u sig X Su eps50 D J kind ymax m = Ok (y, p) -> softens y p.
Proof.
  intros u sig X Su eps50 D J kind ymax m y p U He HD Hs HX HS HJ Hm Hx E. pose proof (C46_modified_matlock_partial u sig X Su eps50 D J kind ymax m U He HD Hs HX HS HJ Hm) as C. rewrite E in C.
  assert (N8 : (8 <= Nat.max 8 m)%nat) by apply Nat.le_max_l. assert (P : 0 < 2.5 * eps50 * D) by (apply Rmult_lt_0_compat; lra).
  apply (clay_softens 0.5 1 8 (Nat.max 8 m) sig X Su eps50 D J kind ymax); auto; try lra; try lia; [rewrite rise_1; lra|].
  unfold modified_Matlock in E. cbv zeta in E. apply kept_samples in E. rewrite E. apply grid_has; [right; right; left; unfold clay_y50; lra|apply extent_tenth; auto].
Qed.

(** ** The PISA functions *)
Lemma few : forall m b x, (m <= b)%nat -> (6 <= b)%nat -> INR b - 6 <= 80 * x -> INR (m - 6) <= 80 * x.
Proof. intros m b x L B H. apply Rle_trans with (2 := H). replace 6 with (INR 6) by (simpl; lra). rewrite <- minus_INR by lia. apply le_INR. lia. Qed.
Lemma inr4000 : INR 4000 = 4000. Proof. rewrite INR_IZR_INZ. reflexivity. Qed.
Lemma inr22 : INR 22 = 22. Proof. rewrite INR_IZR_INZ. reflexivity. Qed.
Lemma inr21 : INR 21 = 21. Proof. rewrite INR_IZR_INZ. reflexivity. Qed.
Lemma inr15 : INR 15 = 15. Proof. rewrite INR_IZR_INZ. reflexivity. Qed.

Lemma py_bothkennar_softens : forall X Su G0 D m xs ys, 0 < D -> 0 <= X -> X <= 6 * D -> 0 <= Su -> 0 < G0 -> (7 <= m <= 4000)%nat ->
  py_bothkennar X Su G0 D m = Ok (xs, map Some ys) -> softens xs ys.
Proof.
  intros X Su G0 D m xs ys HD X0 X6 HS HG M E. unfold py_bothkennar in E. rewrite nonzero_ok in E by lra. rewrite !(mulr _ X D) in E.
  destruct (frac01 X D 6 HD X0 X6) as [R0 R6]. set (r := X / D) in *. destruct (scales Su D HS HD) as (S1 & S2 & S3).
  destruct (exp_neg (-0.8456) r ltac:(lra) R0) as [E0 E1]. set (e := exp (-0.8456 * r)) in *.
  apply scaled_softens in E; auto; try lra; try lia. apply (few m 4000); try lia. rewrite inr4000. lra.
Qed.
Lemma py_cowden_softens : forall X Su G0 D m xs ys, 0 < D -> 0 <= X -> X <= 6 * D -> 0 <= Su -> 0 < G0 -> (7 <= m <= 4000)%nat ->
  py_cowden X Su G0 D m = Ok (xs, map Some ys) -> softens xs ys.
Proof.
  intros X Su G0 D m xs ys HD X0 X6 HS HG M E. unfold py_cowden in E. rewrite nonzero_ok in E by lra. rewrite !(mulr _ X D) in E.
  destruct (frac01 X D 6 HD X0 X6) as [R0 R6]. set (r := X / D) in *. destruct (scales Su D HS HD) as (S1 & S2 & S3).
  destruct (exp_neg (-0.3085) r ltac:(lra) R0) as [E0 E1]. set (e := exp (-0.3085 * r)) in *.
  apply scaled_softens in E; auto; try lra; try lia. apply (few m 4000); try lia. rewrite inr4000. lra.
Qed.
Lemma py_dunkirk_softens : forall sig X Dr G0 D L m xs ys, 0 < D -> 0 <= X -> X <= L -> 0 <= Dr -> Dr <= 100 -> 0 <= sig -> 0 < G0 -> 0 < L -> (m <= 4000)%nat ->
  py_dunkirk sig X Dr G0 D L m = Ok (xs, map Some ys) -> softens xs ys.
Proof.
  intros sig X Dr G0 D L m xs ys HD X0 XL D0 D1 HS HG HL M E. unfold py_dunkirk in E. set (N := Nat.max 8 m) in E. assert (N8 : (8 <= N <= 4000)%nat) by (unfold N; lia). clearbody N. cbv zeta in E. rewrite !nonzero_ok in E by lra. rewrite !(mulr _ X D), !(mulr _ X L) in E.
  destruct (frac01 X L 1 ltac:(lra) X0 ltac:(lra)) as [R0 R1]. set (t := X / L) in *. destruct (scales sig D HS HD) as (S1 & S2 & S3).
  assert (d0 : 0 <= Dr / 100) by lra. assert (d1 : Dr / 100 <= 1) by lra. set (d := Dr / 100) in *. assert (0 <= d * (1 - t)) by (apply Rmult_le_pos; lra).
  apply scaled_softens in E; auto; try lra; try lia. apply (few N 4000); try lia. rewrite inr4000. lra.
Qed.

Lemma Hb_bothkennar_softens : forall Su G0 D L m xs ys, 0 < D -> 2 * D <= L -> L <= 6 * D -> 0 <= Su -> 0 < G0 -> (7 <= m <= 22)%nat -> Hb_bothkennar Su G0 D L m = Ok (xs, map Some ys) -> softens xs ys.
Proof.
  intros Su G0 D L m xs ys HD L2 L6 HS HG M E. unfold Hb_bothkennar in E. rewrite nonzero_ok in E by lra. rewrite !(mulr _ L D) in E.
  destruct (frac01 L D 6 HD ltac:(lra) L6) as [_ R6]. pose proof (frac_ge L D 2 HD L2) as R2. set (r := L / D) in *. destruct (scales Su D HS HD) as (S1 & S2 & S3).
  apply scaled_softens in E; auto; try lra; try lia. apply (few m 22); try lia. rewrite inr22. lra.
Qed.
Lemma Hb_cowden_softens : forall Su G0 D L m xs ys, 0 < D -> 2 * D <= L -> L <= 6 * D -> 0 <= Su -> 0 < G0 -> (7 <= m <= 22)%nat -> Hb_cowden Su G0 D L m = Ok (xs, map Some ys) -> softens xs ys.
Proof.
  intros Su G0 D L m xs ys HD L2 L6 HS HG M E. unfold Hb_cowden in E. rewrite nonzero_ok in E by lra. rewrite !(mulr _ L D) in E.
  destruct (frac01 L D 6 HD ltac:(lra) L6) as [_ R6]. pose proof (frac_ge L D 2 HD L2) as R2. set (r := L / D) in *. destruct (scales Su D HS HD) as (S1 & S2 & S3).
  apply scaled_softens in E; auto; try lra; try lia. apply (few m 22); try lia. rewrite inr22. lra.
Qed.
Lemma Hb_dunkirk_softens : forall sig Dr G0 D L m xs ys, 0 < D -> 2 * D <= L -> L <= 6 * D -> 0 <= Dr -> Dr <= 100 -> 0 <= sig -> 0 < G0 -> (7 <= m <= 22)%nat ->
  Hb_dunkirk sig Dr G0 D L m = Ok (xs, map Some ys) -> softens xs ys.
Proof.
  intros sig Dr G0 D L m xs ys HD L2 L6 D0 D1 HS HG M E. unfold Hb_dunkirk in E. cbv zeta in E. rewrite nonzero_ok in E by lra. rewrite !(mulr _ L D) in E.
  destruct (frac01 L D 6 HD ltac:(lra) L6) as [_ R6]. pose proof (frac_ge L D 2 HD L2) as R2. set (r := L / D) in *. destruct (scales sig D HS HD) as (S1 & S2 & S3).
  assert (d0 : 0 <= Dr / 100) by lra. assert (d1 : Dr / 100 <= 1) by lra. set (d := Dr / 100) in *.
  assert (A1 : 0 <= d * (6 - r)) by (apply Rmult_le_pos; lra). assert (A2 : 0 <= d * (r - 2)) by (apply Rmult_le_pos; lra).
  assert (A3 : 0 <= (1 - d) * (6 - r)) by (apply Rmult_le_pos; lra). assert (A4 : 0 <= (1 - d) * (r - 2)) by (apply Rmult_le_pos; lra).
  apply scaled_softens in E; auto; try lra; try lia. apply (few m 22); try lia. rewrite inr22. lra.
Qed.
Lemma Mb_bothkennar_softens : forall Su G0 D L m xs ys, 0 < D -> 2 * D <= L -> L <= 6 * D -> 0 <= Su -> 0 < G0 -> (7 <= m <= 22)%nat -> Mb_bothkennar Su G0 D L m = Ok (xs, map Some ys) -> softens xs ys.
Proof.
  intros Su G0 D L m xs ys HD L2 L6 HS HG M E. unfold Mb_bothkennar in E. rewrite nonzero_ok in E by lra. rewrite !(mulr _ L D) in E.
  destruct (frac01 L D 6 HD ltac:(lra) L6) as [_ R6]. pose proof (frac_ge L D 2 HD L2) as R2. set (r := L / D) in *. destruct (scales Su D HS HD) as (S1 & S2 & S3).
  apply scaled_softens in E; auto; try lra; try lia. apply (few m 22); try lia. rewrite inr22. lra.
Qed.
Lemma Mb_cowden_softens : forall Su G0 D L m xs ys, 0 < D -> 2 * D <= L -> L <= 6 * D -> 0 <= Su -> 0 < G0 -> (7 <= m <= 22)%nat -> Mb_cowden Su G0 D L m = Ok (xs, map Some ys) -> softens xs ys.
Proof.
  intros Su G0 D L m xs ys HD L2 L6 HS HG M E. unfold Mb_cowden in E. rewrite nonzero_ok in E by lra. rewrite !(mulr _ L D) in E.
  destruct (frac01 L D 6 HD ltac:(lra) L6) as [_ R6]. pose proof (frac_ge L D 2 HD L2) as R2. set (r := L / D) in *. destruct (scales Su D HS HD) as (S1 & S2 & S3).
  apply scaled_softens in E; auto; try lra; try lia. apply (few m 22); try lia. rewrite inr22. lra.
Qed.
Lemma Mb_dunkirk_softens : forall sig Dr G0 D L m xs ys, 0 < D -> 2 * D <= L -> L <= 6 * D -> 0 <= Dr -> Dr <= 100 -> 0 <= sig -> 0 < G0 -> (7 <= m <= 22)%nat ->
  Mb_dunkirk sig Dr G0 D L m = Ok (xs, map Some ys) -> softens xs ys.
Proof.
  intros sig Dr G0 D L m xs ys HD L2 L6 D0 D1 HS HG M E. unfold Mb_dunkirk in E. cbv zeta in E. rewrite nonzero_ok in E by lra. rewrite !(mulr _ L D) in E.
  destruct (frac01 L D 6 HD ltac:(lra) L6) as [_ R6]. pose proof (frac_ge L D 2 HD L2) as R2. set (r := L / D) in *. destruct (scales sig D HS HD) as (S1 & S2 & S3).
  assert (d0 : 0 <= Dr / 100) by lra. assert (d1 : Dr / 100 <= 1) by lra. set (d := Dr / 100) in *.
  assert (A1 : 0 <= d * (6 - r)) by (apply Rmult_le_pos; lra). assert (A2 : 0 <= d * (r - 2)) by (apply Rmult_le_pos; lra).
  assert (A3 : 0 <= (1 - d) * (6 - r)) by (apply Rmult_le_pos; lra). assert (A4 : 0 <= (1 - d) * (r - 2)) by (apply Rmult_le_pos; lra).
  apply scaled_softens in E; auto; try lra; try lia. apply (few m 22); try lia. rewrite inr22. lra.
Qed.

Lemma ratio_wide : forall a b x, 0 < b -> x * b <= a -> x <= a / b.
Proof. intros a b x B H. apply Rmult_le_reg_r with b; auto. replace (a / b * b) with a by (field; lra). exact H. Qed.
Lemma mt_bothkennar_softens : forall X Su G0 D m xs ys, 0 < D -> 0 <= X -> X <= 6 * D -> 0 <= Su -> 0 < G0 -> (7 <= m <= 21)%nat -> mt_bothkennar X Su G0 D m = Ok (xs, map Some ys) -> softens xs ys.
Proof.
  intros X Su G0 D m xs ys HD X0 X6 HS HG M E. unfold mt_bothkennar in E. cbv zeta in E. rewrite nonzero_ok in E by lra. rewrite !(mulr _ X D) in E.
  destruct (frac01 X D 6 HD X0 X6) as [R0 R6]. set (r := X / D) in *. destruct (scales Su D HS HD) as (S1 & S2 & S3). rewrite nonzero_ok in E by lra.
  assert (W : 0.19 <= (0.4862 + -0.05674 * r) / (1.698 + -0.1576 * r)) by (apply ratio_wide; lra).
  apply scaled_softens in E; auto; try lra; try lia. apply (few m 21); try lia. rewrite inr21. lra.
Qed.
Lemma mt_cowden_softens : forall X Su G0 D m xs ys, 0 < D -> 0 <= X -> X <= 3.5 * D -> 0 <= Su -> 0 < G0 -> (7 <= m <= 15)%nat -> mt_cowden X Su G0 D m = Ok (xs, map Some ys) -> softens xs ys.
Proof.
  intros X Su G0 D m xs ys HD X0 X6 HS HG M E. unfold mt_cowden in E. cbv zeta in E. rewrite nonzero_ok in E by lra. rewrite !(mulr _ X D) in E.
  destruct (frac01 X D 3.5 HD X0 X6) as [R0 R6]. set (r := X / D) in *. destruct (scales Su D HS HD) as (S1 & S2 & S3). rewrite nonzero_ok in E by lra.
  assert (W : 0.1125 <= (0.2899 + -0.04775 * r) / (1.420 + -0.09643 * r)) by (apply ratio_wide; lra).
  apply scaled_softens in E; auto; try lra; try lia. apply (few m 15); try lia. rewrite inr15. lra.
Qed.

(** ** Axial curves *)
Lemma both_of_points : forall m z t, length z = length t -> nth m z 0 = 0 -> nth m t 0 = 0 -> 0 <= nth (S m) z 0 -> 0 <= nth (S m) t 0 ->
  (forall p, has_point z t p -> Rabs (snd p) * nth (S m) z 0 <= nth (S m) t 0 * Rabs (fst p)) -> softens_both m z t.
Proof.
  intros m z t L A B C D H. do 4 (split; [assumption|]). intros i. destruct (Nat.lt_ge_cases i (length z)) as [Hi|Hi].
  - apply (H (nth i z 0, nth i t 0)). apply point_nth; auto. exists i. auto.
  - replace (nth i z 0) with 0 by (symmetry; apply nth_overflow; lia). replace (nth i t 0) with 0 by (symmetry; apply nth_overflow; lia). rewrite Rabs_R0. lra.
Qed.
Lemma both_scale : forall m z t c d, 0 <= c -> 0 <= d -> softens_both m z t -> softens_both m (scale c z) (scale d t).
Proof.
  intros m z t c d C D (A & B & Z & T & H). assert (N : forall e l i, nth i (scale e l) 0 = nth i l 0 * e) by (intros e l i; rewrite <- (Rmult_0_l e) at 1; exact (map_nth (fun v => v * e) l 0 i)).
  unfold softens_both. rewrite !N, A, B. do 2 (split; [ring|]). do 2 (split; [apply Rmult_le_pos; auto|]). intros i. rewrite !N, !Rabs_mult, (Rabs_right c), (Rabs_right d) by lra.
  specialize (H i). apply Rmult_le_compat_r with (r := c * d) in H; [|apply Rmult_le_pos; auto]. lra.
Qed.

Lemma abs_down : forall t z a b, 0 <= t -> 0 <= z -> t * a <= b * z -> Rabs t * a <= b * Rabs z.
Proof. intros t z a b T Z H. rewrite !Rabs_right by lra. exact H. Qed.
Lemma abs_up : forall t z a b, t <= 0 -> z <= 0 -> - t * a <= b * - z -> Rabs t * a <= b * Rabs z.
Proof. intros t z a b T Z H. rewrite !Rabs_left1 by lra. exact H. Qed.

Lemma clay_backbone_softens : forall u residual tf n idx, (forall i, 0 <= u i < 1) -> argsort (clay_backbone_z u n) idx -> 0 <= residual <= 1 -> 0 <= tf <= 1 ->
  softens_both 7 (clay_backbone_z u n) (clay_backbone_t residual tf n idx).
Proof.
  intros u residual tf n idx U A R T. assert (L : length (clay_backbone_z u n) = length (clay_backbone_t residual tf n idx)) by (rewrite clay_z_length, (clay_t_length u) by auto; reflexivity).
  assert (P : forall p, has_point (clay_backbone_z u n) (clay_backbone_t residual tf n idx) p -> Rabs (snd p) * 0.0016 <= 0.3 * Rabs (fst p)).
  { intros p H. apply (proj1 (clay_point u residual tf n idx U A p)) in H. destruct H as [H|[H ->]].
    - unfold clay_low, clay_tlow in H. cbn in H. assert (0 <= tf * residual <= 1) by nra.
      repeat (destruct H as [<-|H]; [first [apply abs_up; cbn [fst snd]; lra|apply abs_down; cbn [fst snd]; lra]|]). contradiction.
    - apply clay_rest_range in H; auto. rewrite !Rabs_right by lra. lra. }
  assert (ZE : forall i, (i < 13)%nat -> nth i (clay_backbone_z u n) 0 = nth i clay_low 0) by (intros i Hi; rewrite clay_z_eq by auto; apply app_nth1; exact Hi).
  assert (TE : forall i, (i < 13)%nat -> nth i (clay_backbone_t residual tf n idx) 0 = nth i (clay_tlow residual tf) 0) by (intros i Hi; rewrite (clay_t_eq u) by auto; apply app_nth1; exact Hi).
  apply both_of_points; [exact L|rewrite ZE by lia|rewrite TE by lia|rewrite ZE by lia|rewrite TE by lia|rewrite ZE, TE by lia]; [cbn; lra|cbn; lra|cbn; lra|cbn; lra|]. intros p H. apply P in H. cbn. lra.
Qed.
Lemma sand_backbone_softens : forall u tf n idx, (forall i, 0 <= u i < 1) -> argsort (sand_backbone_z u n) idx -> 0 <= tf <= 1 ->
  softens_both 7 (sand_backbone_z u n) (sand_backbone_t tf n idx).
Proof.
  intros u tf n idx U A T. assert (L : length (sand_backbone_z u n) = length (sand_backbone_t tf n idx)) by (rewrite sand_z_length, (sand_t_length u) by auto; reflexivity).
  assert (P : forall p, has_point (sand_backbone_z u n) (sand_backbone_t tf n idx) p -> Rabs (snd p) * 0.0254 <= 1 * Rabs (fst p)).
  { intros p H. apply (sand_point u tf n idx U A) in H. destruct H as [H|[H ->]].
    - unfold sand_low, sand_tlow in H. cbn in H.
      repeat (destruct H as [<-|H]; [first [apply abs_up; cbn [fst snd]; lra|apply abs_down; cbn [fst snd]; lra]|]). contradiction.
    - apply sand_rest_range in H; auto. rewrite !Rabs_right by lra. lra. }
  assert (ZE : forall i, (i < 13)%nat -> nth i (sand_backbone_z u n) 0 = nth i sand_low 0) by (intros i Hi; rewrite sand_z_eq by auto; apply app_nth1; exact Hi).
  assert (TE : forall i, (i < 13)%nat -> nth i (sand_backbone_t tf n idx) 0 = nth i (sand_tlow tf) 0) by (intros i Hi; rewrite (sand_t_eq u) by auto; apply app_nth1; exact Hi).
  apply both_of_points; [exact L|rewrite ZE by lia|rewrite TE by lia|rewrite ZE by lia|rewrite TE by lia|rewrite ZE, TE by lia]; [cbn; lra|cbn; lra|cbn; lra|cbn; lra|]. intros p H. apply P in H. cbn. lra.
Qed.
Lemma tip_backbone_softens : forall u n idx, (forall i, 0 <= u i < 1) -> argsort (tip_backbone_z u n) idx -> softens_both 7 (tip_backbone_z u n) (tip_backbone_Q n idx).
Proof.
  intros u n idx U A. assert (L : length (tip_backbone_z u n) = length (tip_backbone_Q n idx)) by (rewrite tip_z_length, (tip_Q_length u) by auto; reflexivity).
  assert (P : forall p, has_point (tip_backbone_z u n) (tip_backbone_Q n idx) p -> Rabs (snd p) * 0.002 <= 0.25 * Rabs (fst p)).
  { intros p H. apply (proj1 (tip_point u n idx U A p)) in H. destruct H as [H|[H ->]].
    - unfold tip_low, tip_Qlow in H. cbn in H.
      repeat (destruct H as [<-|H]; [first [apply abs_up; cbn [fst snd]; lra|apply abs_down; cbn [fst snd]; lra]|]). contradiction.
    - apply tip_rest_range in H; auto. rewrite !Rabs_right by lra. lra. }
  assert (ZE : forall i, (i < 12)%nat -> nth i (tip_backbone_z u n) 0 = nth i tip_low 0) by (intros i Hi; rewrite tip_z_eq by auto; apply app_nth1; exact Hi).
  assert (TE : forall i, (i < 12)%nat -> nth i (tip_backbone_Q n idx) 0 = nth i tip_Qlow 0) by (intros i Hi; rewrite (tip_Q_eq u) by auto; apply app_nth1; exact Hi).
  apply both_of_points; [exact L|rewrite ZE by lia|rewrite TE by lia|rewrite ZE by lia|rewrite TE by lia|rewrite ZE, TE by lia]; [cbn; lra|cbn; lra|cbn; lra|cbn; lra|]. intros p H. apply P in H. cbn. lra.
Qed.
