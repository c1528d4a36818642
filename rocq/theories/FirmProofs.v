(** Lemmas: lateral curves of stronger soils. *)
From Coq Require Import Reals Lra Lia List Bool Arith Permutation.
From Verif Require Import Base ConicModel ConicSpec ConicProofs ConicProps PisaModel PisaSpec PisaProofs ApiSandModel ApiSandSpec ApiSandProofs ApiClayModel ApiClaySpec ApiClayProofs ApiClayProps
  AxialModel AxialProofs LateralModel LateralSpec LateralProofs FirmSpec.
Import ListNotations.
Local Open Scope R_scope.

(** ** Products *)
Lemma mult_le : forall a b a' b', 0 <= a -> 0 <= b -> a <= a' -> b <= b' -> a * b <= a' * b'.
Proof. intros. apply Rmult_le_compat; auto. Qed.

(** ** The hyperbolic tangent lies above its chords from the origin *)
Lemma cosh_ge1 : forall x, 1 <= cosh x.
Proof. intros x. unfold cosh. rewrite exp_Ropp. pose proof (exp_pos x) as P. apply Rmult_le_reg_r with (2 * exp x); [lra|]. replace ((exp x + / exp x) / 2 * (2 * exp x)) with (exp x * exp x + 1) by (field; lra).
  assert (0 <= (exp x - 1) * (exp x - 1)) by (apply Rle_0_sqr). lra. Qed.
Lemma cosh_le : forall a b, 0 <= a <= b -> cosh a <= cosh b.
Proof.
  intros a b H. unfold cosh. rewrite !exp_Ropp. pose proof (exp_pos a) as A. pose proof (exp_pos b) as B.
  assert (EL : forall x y, x <= y -> exp x <= exp y) by (intros x y [L| ->]; [left; apply exp_increasing; exact L|right; reflexivity]).
  pose proof (EL a b ltac:(lra)) as L. pose proof (EL 0 a ltac:(lra)) as L0. rewrite exp_0 in L0. apply Rmult_le_reg_r with (2 * (exp a * exp b)); [apply Rmult_lt_0_compat; [lra|apply Rmult_lt_0_compat; lra]|].
  replace ((exp a + / exp a) / 2 * (2 * (exp a * exp b))) with (exp a * exp a * exp b + exp b) by (field; lra).
  replace ((exp b + / exp b) / 2 * (2 * (exp a * exp b))) with (exp b * exp b * exp a + exp a) by (field; lra).
  assert (0 <= (exp b - exp a) * (exp a * exp b - 1)); [|lra]. apply Rmult_le_pos; [lra|]. assert (1 * 1 <= exp a * exp b) by (apply mult_le; lra). lra.
Qed.
Lemma cosh_sinh : forall x, cosh x * cosh x - sinh x * sinh x = 1.
Proof. intros x. unfold cosh, sinh. rewrite exp_Ropp. pose proof (exp_pos x). field. lra. Qed.
Lemma tanh_slope : forall x, derivable_pt_lim tanh x (1 / (cosh x * cosh x)).
Proof.
  intros x. pose proof (cosh_ge1 x) as C. replace (1 / (cosh x * cosh x)) with ((cosh x * cosh x - sinh x * sinh x) / Rsqr (cosh x)) by (rewrite cosh_sinh; reflexivity).
  apply (derivable_pt_lim_div sinh cosh x (cosh x) (sinh x)); [apply derivable_pt_lim_sinh|apply derivable_pt_lim_cosh|lra].
Qed.
Lemma tanh_chord : forall l t, 0 <= l <= 1 -> 0 <= t -> l * tanh t <= tanh (l * t).
Proof.
  intros l t L T. destruct (Req_dec t 0) as [->|NT]; [rewrite Rmult_0_r, tanh_0; lra|].
  destruct (MVT_cor2 (fun x => tanh (l * x) - l * tanh x) (fun x => l * (1 / (cosh (l * x) * cosh (l * x))) - l * (1 / (cosh x * cosh x))) 0 t) as (c & E & R); [lra| |].
  - intros c _. apply (derivable_pt_lim_minus (fun x => tanh (l * x)) (fun x => l * tanh x) c).
    + replace (l * (1 / (cosh (l * c) * cosh (l * c)))) with (1 / (cosh (l * c) * cosh (l * c)) * l) by ring.
      apply (derivable_pt_lim_comp (fun x => l * x) tanh c l); [|apply tanh_slope].
      pose proof (derivable_pt_lim_scal (fun x => x) l c 1 (derivable_pt_lim_id c)) as D. rewrite Rmult_1_r in D. exact D.
    + apply (derivable_pt_lim_scal tanh l c). apply tanh_slope.
  - rewrite Rmult_0_r, tanh_0 in E. assert (0 <= tanh (l * t) - l * tanh t - (0 - l * 0)); [|lra]. rewrite E. apply Rmult_le_pos; [|lra].
    assert (LC : 0 <= l * c <= c) by (split; [apply Rmult_le_pos; lra|assert (l * c <= 1 * c) by (apply Rmult_le_compat_r; lra); lra]).
    pose proof (cosh_le _ _ LC) as K. pose proof (cosh_ge1 (l * c)) as K1.
    assert (1 / (cosh c * cosh c) <= 1 / (cosh (l * c) * cosh (l * c))).
    { unfold Rdiv. rewrite !Rmult_1_l. apply Rinv_le_contravar; [apply Rmult_lt_0_compat; lra|apply mult_le; lra]. }
    replace (l * (1 / (cosh (l * c) * cosh (l * c))) - l * (1 / (cosh c * cosh c))) with (l * (1 / (cosh (l * c) * cosh (l * c)) - 1 / (cosh c * cosh c))) by ring.
    apply Rmult_le_pos; lra.
Qed.
Lemma tanh_nonneg : forall x, 0 <= x -> 0 <= tanh x. Proof. intros x H. rewrite <- tanh_0. apply tanh_mono. exact H. Qed.
(** more capacity and more stiffness at no smaller a displacement *)
Lemma tanh_capacity : forall P P' c c', 0 < P <= P' -> 0 <= c <= c' -> P * tanh (c / P) <= P' * tanh (c' / P').
Proof.
  intros P P' c c' HP HC. assert (IP : 0 < / P') by (apply Rinv_0_lt_compat; lra). apply Rle_trans with (P' * tanh (c / P')).
  - pose proof (tanh_chord (P / P') (c / P)) as H. assert (0 <= c / P) by (apply Rmult_le_pos; [lra|left; apply Rinv_0_lt_compat; lra]).
    assert (0 <= P / P' <= 1). { split; [apply Rmult_le_pos; lra|]. apply Rmult_le_reg_r with P'; [lra|]. unfold Rdiv. rewrite Rmult_assoc, Rinv_l by lra. lra. }
    specialize (H ltac:(auto) ltac:(auto)). replace (P / P' * (c / P)) with (c / P') in H by (field; lra). apply Rmult_le_compat_l with (r := P') in H; [|lra].
    replace (P' * (P / P' * tanh (c / P))) with (P * tanh (c / P)) in H by (field; lra). exact H.
  - apply Rmult_le_compat_l; [lra|]. apply tanh_mono. apply Rmult_le_compat_r; lra.
Qed.

(** ** Sand *)
Section Angle.
Variables phi phi' : R.
Hypothesis P0 : 0 < phi.
Hypothesis PP : phi <= phi'.
Hypothesis P1 : phi' < 90.
Notation beta := (deg (45 + phi / 2)).
Notation beta' := (deg (45 + phi' / 2)).
Lemma deg_le : forall x y, x <= y -> deg x <= deg y. Proof. intros. unfold deg. pose proof PI_RGT_0. apply Rmult_le_compat_r; lra. Qed.
Lemma tan_le : forall x y, - (PI / 2) < x -> x <= y -> y < PI / 2 -> tan x <= tan y.
Proof. intros x y A [B| ->] C; [left; apply tan_increasing; lra|lra]. Qed.
Lemma tb_le : 1 < tan beta <= tan beta'.
Proof. split; [apply tb_gt1; lra|]. pose proof (beta_range phi P0 ltac:(lra)). pose proof (beta_range phi' ltac:(lra) P1). pose proof PI_RGT_0. apply tan_le; [lra|apply deg_le; lra|lra]. Qed.
Lemma sb_le : 0 < sin beta <= sin beta'.
Proof. pose proof (sb_pos phi P0 ltac:(lra)). pose proof (beta_range phi P0 ltac:(lra)). pose proof (beta_range phi' ltac:(lra) P1). pose proof PI_RGT_0. split; [lra|].
  apply sin_incr_1; try lra. apply deg_le. lra. Qed.
Lemma th_le : 0 < tan (deg phi / 2) <= tan (deg phi' / 2).
Proof. split; [apply th_pos; lra|]. pose proof (half_range phi P0 ltac:(lra)). pose proof (half_range phi' ltac:(lra) P1). pose proof (deg_le _ _ PP). pose proof PI_RGT_0. apply tan_le; lra. Qed.
Lemma tp_le : 0 < tan (deg phi) <= tan (deg phi').
Proof. pose proof (th_pos phi P0 ltac:(lra)). pose proof (tphi_ge phi P0 ltac:(lra)). split; [lra|]. pose proof (half_range phi P0 ltac:(lra)). pose proof (half_range phi' ltac:(lra) P1). pose proof (deg_le _ _ PP). pose proof PI_RGT_0. apply tan_le; lra. Qed.
Lemma ch_le : 0 < / cos (deg phi / 2) <= / cos (deg phi' / 2).
Proof.
  pose proof (ch_pos phi P0 ltac:(lra)) as C. pose proof (ch_pos phi' ltac:(lra) P1) as C'. split; [apply Rinv_0_lt_compat; lra|]. apply Rinv_le_contravar; [lra|].
  pose proof (half_range phi P0 ltac:(lra)). pose proof (half_range phi' ltac:(lra) P1). pose proof (deg_le _ _ PP). pose proof PI_RGT_0. apply cos_decr_1; lra.
Qed.
Lemma c1_form : forall w t s a i h, w * t * s * a / i + a ^ 3 * h + w * a * (t * s - h) = w * (t * s * a * / i) + w * (t * s * a) + (a * h) * (a * a - w).
Proof. intros. unfold Rdiv. ring. Qed.
Lemma C1_le : wedge_C1 phi <= wedge_C1 phi'.
Proof.
  destruct tb_le as [T0 T1], sb_le as [S0 S1], th_le as [H0 H1], tp_le as [Q0 Q1], ch_le as [C0 C1]. unfold wedge_C1.
  set (a := tan beta) in *. set (a' := tan beta') in *. set (s := sin beta) in *. set (s' := sin beta') in *. set (h := tan (deg phi / 2)) in *. set (h' := tan (deg phi' / 2)) in *.
  set (t := tan (deg phi)) in *. set (t' := tan (deg phi')) in *. set (c := / cos (deg phi / 2)) in *. set (c' := / cos (deg phi' / 2)) in *.
  rewrite !c1_form. fold c c'.
  assert (A1 : 0 <= t * s) by (apply Rmult_le_pos; lra). assert (A2 : t * s <= t' * s') by (apply mult_le; lra).
  assert (A3 : 0 <= t * s * a) by (apply Rmult_le_pos; lra). assert (A4 : t * s * a <= t' * s' * a') by (apply mult_le; lra).
  assert (A5 : t * s * a * c <= t' * s' * a' * c') by (apply mult_le; lra).
  assert (A6 : 1 * 1 <= a * a) by (apply mult_le; lra). assert (A7 : a * a <= a' * a') by (apply mult_le; lra).
  assert (A8 : a * h <= a' * h') by (apply mult_le; lra). assert (A9 : 0 <= a * h) by (apply Rmult_le_pos; lra).
  assert (A10 : a * h * (a * a - 0.4) <= a' * h' * (a' * a' - 0.4)) by (apply mult_le; lra). lra.
Qed.
Lemma Kp_le : 1 < Kp phi <= Kp phi'.
Proof. split; [apply Kp_gt1; lra|]. destruct tb_le as [T0 T1]. unfold Kp. cbn [pow]. rewrite !Rmult_1_r. apply mult_le; lra. Qed.
Lemma C2_le : wedge_C2 phi <= wedge_C2 phi'.
Proof. destruct Kp_le as [K0 K1]. unfold wedge_C2. assert (/ Kp phi' <= / Kp phi) by (apply Rinv_le_contravar; lra). lra. Qed.
Lemma C3_le : flow_C3 phi <= flow_C3 phi'.
Proof.
  destruct Kp_le as [K0 K1], tp_le as [Q0 Q1]. unfold flow_C3. set (k := Kp phi) in *. set (k' := Kp phi') in *. set (t := tan (deg phi)) in *. set (t' := tan (deg phi')) in *.
  replace ((k ^ 4 - 1) / k) with (k * k * k - / k) by (field; lra). replace ((k' ^ 4 - 1) / k') with (k' * k' * k' - / k') by (field; lra).
  assert (B1 : k * k <= k' * k') by (apply mult_le; lra). assert (B0 : 0 <= k * k) by (apply Rmult_le_pos; lra). assert (B2 : k * k * k <= k' * k' * k') by (apply mult_le; lra).
  assert (B3 : / k' <= / k) by (apply Rinv_le_contravar; lra). assert (B4 : t * (k * k) <= t' * (k' * k')) by (apply mult_le; lra). cbn [pow]. rewrite !Rmult_1_r. lra.
Qed.
End Angle.

Lemma ultimate_le : forall sig sig' X phi phi' D, 0 < phi <= phi' -> phi' < 90 -> 0 <= sig <= sig' -> 0 <= X -> 0 < D -> 0 <= sand_ultimate sig X phi D <= sand_ultimate sig' X phi' D.
Proof.
  intros sig sig' X phi phi' D [P0 PP] P1 HS HX HD. pose proof (C1_le _ _ P0 PP P1). pose proof (C2_le _ _ P0 PP P1). pose proof (C3_le _ _ P0 PP P1).
  pose proof (C1_pos phi P0 ltac:(lra)). pose proof (C2_pos phi P0 ltac:(lra)). pose proof (C3_pos phi P0 ltac:(lra)). unfold sand_ultimate.
  assert (A : 0 <= flow_C3 phi * sig) by (apply Rmult_le_pos; lra). assert (A1 : flow_C3 phi * sig <= flow_C3 phi' * sig') by (apply mult_le; lra).
  assert (A2 : 0 <= flow_C3 phi * sig * D) by (apply Rmult_le_pos; lra). assert (A3 : flow_C3 phi * sig * D <= flow_C3 phi' * sig' * D) by (apply Rmult_le_compat_r; lra).
  assert (B : 0 <= wedge_C1 phi * X) by (apply Rmult_le_pos; lra). assert (B1 : wedge_C1 phi * X <= wedge_C1 phi' * X) by (apply Rmult_le_compat_r; lra).
  assert (B2 : 0 <= wedge_C2 phi * D) by (apply Rmult_le_pos; lra). assert (B3 : wedge_C2 phi * D <= wedge_C2 phi' * D) by (apply Rmult_le_compat_r; lra).
  assert (B4 : 0 <= (wedge_C1 phi * X + wedge_C2 phi * D) * sig) by (apply Rmult_le_pos; lra).
  assert (B5 : (wedge_C1 phi * X + wedge_C2 phi * D) * sig <= (wedge_C1 phi' * X + wedge_C2 phi' * D) * sig') by (apply mult_le; lra).
  split; [apply Rmin_glb; lra|]. apply Rmin_glb; [apply Rle_trans with (1 := Rmin_l _ _)|apply Rle_trans with (1 := Rmin_r _ _)]; lra.
Qed.

Lemma sand_p_le : forall sig sig' X phi phi' D kind b k k' v v', 0 < phi <= phi' -> phi' < 90 -> 0 <= sig <= sig' -> 0 <= X -> 0 < D -> 0 <= k -> 0 <= k' ->
  sand_k phi b k <= sand_k phi' b k' -> 0 <= v <= v' -> sand_p sig X phi D kind b k v <= sand_p sig' X phi' D kind b k' v'.
Proof.
  intros sig sig' X phi phi' D kind b k k' v v' HP P1 HS HX HD HK HK' KK HV. pose proof (ultimate_le sig sig' X phi phi' D HP P1 HS HX HD) as U. pose proof (sand_A_ge X D kind) as A. pose proof (sand_k_pos phi b k HK) as K.
  unfold sand_p. cbv zeta. destruct (Req_EM_T (sand_ultimate sig X phi D) 0) as [Z|Z]; destruct (Req_EM_T (sand_ultimate sig' X phi' D) 0) as [Z'|Z']; try lra.
  - assert (0 < sand_ultimate sig' X phi' D) by lra. assert (0 < sand_A X D kind * sand_ultimate sig' X phi' D) by (apply Rmult_lt_0_compat; lra). apply Rmult_le_pos; [lra|]. apply tanh_nonneg.
    apply Rmult_le_pos; [|left; apply Rinv_0_lt_compat; lra]. apply Rmult_le_pos; [apply Rmult_le_pos; lra|lra].
  - assert (0 < sand_ultimate sig X phi D) by lra. apply tanh_capacity.
    + split; [apply Rmult_lt_0_compat; lra|]. apply Rmult_le_compat_l; lra.
    + assert (0 <= sand_k phi b k * X) by (apply Rmult_le_pos; lra). split; [apply Rmult_le_pos; lra|]. apply mult_le; try lra. apply Rmult_le_compat_r; lra.
Qed.

Lemma combine_map_in : forall (f : R -> R) l v w, In (v, w) (combine l (map f l)) -> In v l /\ w = f v.
Proof. intros f. induction l as [|a t IH]; intros v w I; [contradiction|]. cbn [map combine] in I. destruct I as [E|I]; [injection E as <- <-; split; [left|]; reflexivity|]. destruct (IH v w I). split; [right|]; auto. Qed.
Lemma nd_le_last : forall l w, nondecreasing l -> In w l -> w <= last l 0.
Proof. intros. apply nd_last_ge; auto. Qed.

Lemma linspace_last : forall a b n, (2 <= n)%nat -> last (linspace a b n) 0 = b.
Proof. intros a b n H. rewrite last_nth0, linspace_length. apply linspace_ends. lia. Qed.
Lemma api_sand_outdone : forall sig sig' X phi phi' D kind b k k' n, 0 < phi <= phi' -> phi' < 90 -> 0 <= sig <= sig' -> 0 <= X -> 0 < D -> 0 <= k -> 0 <= k' ->
  sand_k phi b k <= sand_k phi' b k' -> exists y p y' p', api_sand sig X phi D kind b k 0 n = Ok (y, p) /\ api_sand sig' X phi' D kind b k' 0 n = Ok (y', p') /\ outdone y p y' p'.
Proof.
  intros sig sig' X phi phi' D kind b k k' n HP P1 HS HX HD HK HK' KK. pose proof (ultimate_le sig sig' X phi phi' D HP P1 HS HX HD) as U. rewrite !api_sand_eq by (auto; lra). do 4 eexists. split; [reflexivity|]. split; [reflexivity|].
  pose proof (sand_ymax_pos sig X phi D kind b k 0 ltac:(lra) ltac:(lra) HD HK ltac:(lra) HX ltac:(lra)) as Y. pose proof (sand_ymax_pos sig' X phi' D kind b k' 0 ltac:(lra) ltac:(lra) HD HK' ltac:(lra) HX ltac:(lra)) as Y'.
  set (ym := sand_ymax sig X phi D kind b k 0) in *. set (ym' := sand_ymax sig' X phi' D kind b k' 0) in *. set (N := Nat.max 8 n). assert (LN : (2 <= N)%nat) by (unfold N; lia).
  assert (NN : forall z, 0 < z -> forall v, In v (linspace 0 z N) -> 0 <= v <= z).
  { intros z Z v I. pose proof (linspace_nondecr 0 z N ltac:(lra)) as ND. split.
    - apply In_nth with (d := 0) in I. destruct I as (i & Hi & <-). rewrite <- (proj1 (linspace_ends 0 z N ltac:(lia))) at 1. apply ND; lia.
    - pose proof (nd_le_last _ v ND I) as Q0. rewrite (linspace_last 0 z N LN) in Q0. exact Q0. }
  split.
  - intros v w v' w' I I' L. apply combine_map_in in I. apply combine_map_in in I'. destruct I as [I ->]. destruct I' as [I' ->]. apply sand_p_le; auto. pose proof (NN ym Y v I). lra.
  - intros w I. apply in_map_iff in I. destruct I as (v & <- & I). exists (sand_p sig' X phi' D kind b k' ym'). split.
    { apply in_map. assert (LI : In (last (linspace 0 ym' N) 0) (linspace 0 ym' N)); [|rewrite (linspace_last 0 ym' N LN) in LI; exact LI]. apply last_in. intros E. apply (f_equal (@length R)) in E. rewrite linspace_length in E. change (length (@nil R)) with 0%nat in E. lia. }
    apply Rle_trans with (sand_p sig X phi D kind b k ym); [apply sand_p_mono; auto; try lra; apply (NN ym Y v I)|].
    unfold sand_p. cbv zeta. pose proof (sand_A_ge X D kind) as A. pose proof (sand_k_pos phi b k HK) as K. pose proof (sand_k_pos phi' b k' HK') as K'.
    destruct (Req_EM_T (sand_ultimate sig X phi D) 0) as [Z|Z]; destruct (Req_EM_T (sand_ultimate sig' X phi' D) 0) as [Z'|Z']; try lra.
    + assert (0 < sand_A X D kind * sand_ultimate sig' X phi' D) by (apply Rmult_lt_0_compat; lra). apply Rmult_le_pos; [lra|]. apply tanh_nonneg.
      apply Rmult_le_pos; [|left; apply Rinv_0_lt_compat; lra]. apply Rmult_le_pos; [apply Rmult_le_pos; lra|lra].
    + unfold ym, ym', sand_ymax. destruct (Req_EM_T 0 0) as [_|F]; [|lra]. destruct (Req_EM_T (sand_ultimate sig X phi D) 0); [contradiction|]. destruct (Req_EM_T (sand_ultimate sig' X phi' D) 0); [contradiction|].
      assert (M : 0.1 <= Rmax X 0.1) by apply Rmax_r. set (a := sand_A X D kind) in *. set (P := sand_ultimate sig X phi D) in *. set (P' := sand_ultimate sig' X phi' D) in *.
      set (kk := sand_k phi b k) in *. set (kk' := sand_k phi' b k') in *. set (z := Rmax X 0.1) in *.
      replace (kk * X * (4 * a * P / (kk * z)) / (a * P)) with (4 * X / z) by (field; repeat split; lra). replace (kk' * X * (4 * a * P' / (kk' * z)) / (a * P')) with (4 * X / z) by (field; repeat split; lra).
      apply Rmult_le_compat_r; [apply tanh_nonneg; apply Rmult_le_pos; [lra|left; apply Rinv_0_lt_compat; lra]|]. apply Rmult_le_compat_l; lra.
Qed.

(** ** Conic curves: the secant stiffness decreases along the curve *)
Lemma conic_secants : forall n s X1 X2 Y1 Y2, 0 <= n < 1 -> 1 <= s -> 0 <= X1 <= X2 -> X1 <= Y1 <= s * X1 -> X2 <= Y2 <= s * X2 -> Y1 <= 1 -> Y2 <= 1 ->
  on_conic n s X1 Y1 -> on_conic n s X2 Y2 -> Y2 * X1 <= Y1 * X2.
Proof.
  intros n s X1 X2 Y1 Y2 HN HS HX H1 H2 U1 U2 C1 C2. destruct (Req_dec X1 0) as [Z|NZ]; [subst X1; assert (Y1 = 0) by lra; subst; lra|].
  assert (XP1 : 0 < X1) by lra. assert (XP2 : 0 < X2) by lra. set (r1 := Y1 / X1). set (r2 := Y2 / X2).
  assert (E1 : Y1 = r1 * X1) by (unfold r1; field; lra). assert (E2 : Y2 = r2 * X2) by (unfold r2; field; lra). clearbody r1 r2. subst Y1 Y2.
  assert (R1 : 1 <= r1 <= s) by (split; apply Rmult_le_reg_r with X1; lra). assert (R2 : 1 <= r2 <= s) by (split; apply Rmult_le_reg_r with X2; lra).
  replace (r2 * X2 * X1) with (r2 * (X1 * X2)) by ring. replace (r1 * X1 * X2) with (r1 * (X1 * X2)) by ring. assert (0 < X1 * X2) by (apply Rmult_lt_0_compat; lra). apply Rmult_le_compat_r; [lra|].
  destruct (Rle_lt_dec r2 r1) as [L|L]; [exact L|exfalso]. unfold on_conic in C1, C2.
  assert (K1 : X1 * ((1 - n) * (s - r1) * r1 + n * (r1 - 1) ^ 2) = (1 - n) * (s - r1)).
  { apply Rmult_eq_reg_l with X1; [|lra]. replace (X1 * (X1 * ((1 - n) * (s - r1) * r1 + n * (r1 - 1) ^ 2))) with (X1 * ((1 - n) * (s - r1) * r1) * X1 + n * (r1 * X1 - X1) ^ 2) by ring. rewrite <- C1. ring. }
  assert (K2 : X2 * ((1 - n) * (s - r2) * r2 + n * (r2 - 1) ^ 2) = (1 - n) * (s - r2)).
  { apply Rmult_eq_reg_l with X2; [|lra]. replace (X2 * (X2 * ((1 - n) * (s - r2) * r2 + n * (r2 - 1) ^ 2))) with (X2 * ((1 - n) * (s - r2) * r2) * X2 + n * (r2 * X2 - X2) ^ 2) by ring. rewrite <- C2. ring. }
  destruct (Req_dec r2 s) as [ES|NS].
  - (* the second point on the initial tangent *)
    rewrite ES in K2. assert (Z : X2 * (n * (s - 1) ^ 2) = 0) by (rewrite <- (Rmult_0_r (1 - n)) at 1; replace 0 with (s - s) by ring; rewrite <- K2; ring).
    assert (n = 0). { apply Rmult_integral in Z. destruct Z as [Z|Z]; [lra|]. apply Rmult_integral in Z. destruct Z as [Z|Z]; [exact Z|]. assert (0 < (s - 1) ^ 2) by (apply pow_lt; lra). lra. }
    subst n. assert (K3 : X1 * r1 = 1). { apply Rmult_eq_reg_l with (s - r1); [|lra]. rewrite Rminus_0_r, !Rmult_1_l in K1. transitivity (X1 * ((s - r1) * r1 + 0 * (r1 - 1) ^ 2)); [ring|]. rewrite K1. ring. }
    assert (X1 * r1 < X2 * r2); [|lra]. apply Rle_lt_trans with (X2 * r1); [apply Rmult_le_compat_r; lra|apply Rmult_lt_compat_l; lra].
  - assert (A2 : 0 < (1 - n) * (s - r2)) by (apply Rmult_lt_0_compat; lra). set (a1 := (1 - n) * (s - r1)) in *. set (a2 := (1 - n) * (s - r2)) in *. assert (A1 : a2 < a1) by (unfold a1, a2; apply Rmult_lt_compat_l; lra).
    set (b1 := n * (r1 - 1) ^ 2) in *. set (b2 := n * (r2 - 1) ^ 2) in *. assert (B0 : 0 <= b1) by (unfold b1; apply Rmult_le_pos; [lra|apply pow2_ge_0]).
    assert (B : b1 <= b2) by (unfold b1, b2; apply Rmult_le_compat_l; [lra|]; apply pow_incr; lra).
    assert (D1 : a1 * r1 + b1 > 0) by (assert (0 < a1 * r1) by (apply Rmult_lt_0_compat; lra); lra).
    assert (G : (a1 * r1 + b1) * a2 < (a2 * r2 + b2) * a1).
    { assert (a1 * a2 * r1 < a1 * a2 * r2) by (apply Rmult_lt_compat_l; [apply Rmult_lt_0_compat; lra|lra]). assert (b1 * a2 <= b2 * a1) by (apply mult_le; lra). lra. }
    assert (X1 * ((a1 * r1 + b1) * a2) < X2 * ((a2 * r2 + b2) * a1)); [apply Rle_lt_trans with (X2 * ((a1 * r1 + b1) * a2)); [apply Rmult_le_compat_r; [apply Rmult_le_pos; lra|lra]|apply Rmult_lt_compat_l; lra]|].
    replace (X1 * ((a1 * r1 + b1) * a2)) with (X1 * (a1 * r1 + b1) * a2) in H0 by ring. replace (X2 * ((a2 * r2 + b2) * a1)) with (X2 * (a2 * r2 + b2) * a1) in H0 by ring. rewrite K1, K2 in H0. lra.
Qed.

(** no point of the curve lies in the tail of width 0.01 below the ultimate displacement *)
Lemma grid_gap : forall x_u m x, INR m / 80 <= x_u + 6/80 -> (7 <= m)%nat -> 0 < x_u -> 1/50 <= x_u -> In x (conic_x x_u m) -> x_u <= x \/ x + 1/100 <= x_u.
Proof.
  intros x_u m x HM M X0 X1 I. unfold conic_x in I. apply in_app_or in I. destruct I as [I|I].
  - cbn [map In] in I. destruct I as [<-|[<-|[<-|[<-|[]]]]]; right; lra.
  - apply in_app_or in I. destruct I as [I|[<-|[]]]; [|left; lra]. apply In_nth with (d := 0) in I. destruct I as (i & Hi & <-). rewrite linspace_length in Hi.
    rewrite linspace_nth by lia. destruct (Nat.eq_dec i (m - 5 - 1)) as [->|N]; [left; assert (0 < INR (m - 5 - 1)) by (apply lt_0_INR; lia); right; field; lra|].
    right. assert (P : 0 < INR (m - 5 - 1)) by (apply lt_0_INR; lia). assert (EM : INR (m - 5 - 1) = INR m - 6) by (replace (m - 5 - 1)%nat with (m - 6)%nat by lia; rewrite minus_INR by lia; replace (INR 6) with 6 by (cbn; lra); reflexivity).
    assert (LI : INR i + 1 <= INR (m - 5 - 1)) by (rewrite <- S_INR; apply le_INR; lia). set (w := INR (m - 5 - 1)) in *. set (j := INR i) in *.
    assert (F : j / w <= 1 - / w). { apply Rmult_le_reg_r with w; [lra|]. replace (j / w * w) with j by (field; lra). replace ((1 - / w) * w) with (w - 1) by (field; lra). lra. }
    assert (FW : 1/100 <= 8/10 * x_u * / w). { apply Rmult_le_reg_r with w; [lra|]. replace (8/10 * x_u * / w * w) with (8/10 * x_u) by (field; lra). lra. }
    assert (T : (x_u - 2/10 * x_u) * (j / w) <= (x_u - 2/10 * x_u) * (1 - / w)) by (apply Rmult_le_compat_l; lra). lra.
Qed.

Section Conic.
Variables (x_u n k y_u : R) (m : nat).
Hypothesis XU : 1/50 <= x_u.
Hypothesis YU : 0 < y_u.
Hypothesis HN : 0 <= n < 1.
Hypothesis M7 : (7 <= m)%nat.
Hypothesis GAP : INR m / 80 <= x_u + 6/80.
Hypothesis SR : samples_regular x_u n k y_u m.
Notation val := (conic_val x_u n (Rmax (y_u / x_u) k) y_u).
Notation K := (Rmax (y_u / x_u) k).
Let XS := conic_x x_u m.
Lemma cx_nonneg : forall x, In x XS -> 0 <= x.
Proof. intros x I. destruct (conic_x_spec x_u m ltac:(lra) ltac:(lia)) as (_ & _ & R & _). apply R. exact I. Qed.
Lemma val_nonneg : forall x, In x XS -> 0 <= val x <= y_u.
Proof. intros x I. destruct (val_bounds x_u n K y_u ltac:(lra) YU (proj1 HN) (proj2 HN) (Rmax_l _ _) x (cx_nonneg x I) (SR x I)) as (A & B & _). auto. Qed.
Lemma val_le : forall x x', In x XS -> In x' XS -> x <= x' -> val x <= val x'.
Proof. intros x x' I I' L. apply val_mono; auto; try lra; try apply Rmax_l. apply cx_nonneg. exact I. Qed.
Lemma val_secant : forall x1 x2, In x1 XS -> In x2 XS -> x1 <= x2 -> val x2 * x1 <= val x1 * x2.
Proof.
  intros x1 x2 I1 I2 L. destruct (val_bounds x_u n K y_u ltac:(lra) YU (proj1 HN) (proj2 HN) (Rmax_l _ _) x1 (cx_nonneg x1 I1) (SR x1 I1)) as (A1 & B1 & C1 & D1 & O1 & E1).
  destruct (val_bounds x_u n K y_u ltac:(lra) YU (proj1 HN) (proj2 HN) (Rmax_l _ _) x2 (cx_nonneg x2 I2) (SR x2 I2)) as (A2 & B2 & C2 & D2 & O2 & E2).
  pose proof (cx_nonneg x1 I1) as P1. assert (G1 := grid_gap x_u m x1 GAP M7 ltac:(lra) XU I1). assert (G2 := grid_gap x_u m x2 GAP M7 ltac:(lra) XU I2).
  destruct G2 as [G2|G2].
  - rewrite (E2 ltac:(lra)). destruct (Rle_lt_dec x_u x1) as [H|H].
    + rewrite (E1 ltac:(lra)). apply Rmult_le_compat_l; lra.
    + specialize (C1 ltac:(lra)). apply Rle_trans with (y_u / x_u * x1 * x2); [|apply Rmult_le_compat_r; lra].
      replace (y_u / x_u * x1 * x2) with (y_u * x1 * (x2 / x_u)) by (field; lra). rewrite <- (Rmult_1_r (y_u * x1)) at 1. apply Rmult_le_compat_l; [apply Rmult_le_pos; lra|].
      apply Rmult_le_reg_r with x_u; [lra|]. replace (x2 / x_u * x_u) with x2 by (field; lra). lra.
  - assert (G1' : x1 + 1/100 <= x_u) by lra. specialize (O1 G1'). specialize (O2 G2). specialize (D1 G1'). specialize (D2 G2). specialize (C1 ltac:(lra)). specialize (C2 ltac:(lra)).
    set (v1 := val x1) in *. set (v2 := val x2) in *. set (s := K * x_u / y_u) in *. assert (IX : 0 < / x_u) by (apply Rinv_0_lt_compat; lra). assert (IY : 0 < / y_u) by (apply Rinv_0_lt_compat; lra).
    assert (NZ : forall v x, y_u / x_u * x <= v -> x / x_u <= v / y_u). { intros v x H. apply Rmult_le_compat_r with (r := / y_u) in H; [|lra]. replace (y_u / x_u * x * / y_u) with (x / x_u) in H by (field; lra). exact H. }
    assert (TZ : forall v x, v <= K * x -> v / y_u <= s * (x / x_u)). { intros v x H. apply Rmult_le_compat_r with (r := / y_u) in H; [|lra]. unfold s. replace (K * x_u / y_u * (x / x_u)) with (K * x * / y_u) by (field; lra). exact H. }
    assert (UZ : forall v, v <= y_u -> v / y_u <= 1). { intros v H. apply Rmult_le_compat_r with (r := / y_u) in H; [|lra]. replace (y_u * / y_u) with 1 in H by (field; lra). exact H. }
    pose proof (conic_secants n s (x1 / x_u) (x2 / x_u) (v1 / y_u) (v2 / y_u) HN (ratio_ge1 x_u K y_u ltac:(lra) YU (Rmax_l _ _))) as Q.
    assert (Q' : v2 / y_u * (x1 / x_u) <= v1 / y_u * (x2 / x_u)).
    { apply Q; auto. split; [apply Rmult_le_pos; lra|apply Rmult_le_compat_r; lra]. }
    apply Rmult_le_compat_r with (r := y_u * x_u) in Q'; [|apply Rmult_le_pos; lra].
    replace (v2 / y_u * (x1 / x_u) * (y_u * x_u)) with (v2 * x1) in Q' by (field; lra). replace (v1 / y_u * (x2 / x_u) * (y_u * x_u)) with (v1 * x2) in Q' by (field; lra). exact Q'.
Qed.

(** the curve scaled by (a, b) against the curve scaled by (a', b') *)
Lemma scaled_outdone : forall a b a' b', 0 <= a -> 0 <= a' -> 0 <= b <= b' -> a' * b <= a * b' -> (a = 0 -> b = 0) ->
  outdone (map (fun v => v * a) XS) (map (fun v => v * b) (map val XS)) (map (fun v => v * a') XS) (map (fun v => v * b') (map val XS)).
Proof.
  intros a b a' b' HA HA' HB HAB Z. assert (IN : forall c d v w, In (v, w) (combine (map (fun v => v * c) XS) (map (fun v => v * d) (map val XS))) -> exists x, In x XS /\ v = x * c /\ w = val x * d).
  { intros c d. induction XS as [|x t IH]; intros v w I; [contradiction|]. cbn [map combine] in I. destruct I as [E|I]; [injection E as <- <-; exists x; split; [left; reflexivity|auto]|]. destruct (IH v w I) as (x' & I' & E). exists x'. split; [right; auto|auto]. }
  split.
  - intros v w v' w' I I' L. apply IN in I. apply IN in I'. destruct I as (x & I & -> & ->). destruct I' as (x' & I' & -> & ->).
    pose proof (cx_nonneg x I). pose proof (cx_nonneg x' I'). pose proof (val_nonneg x I). pose proof (val_nonneg x' I').
    destruct (Rle_lt_dec x x') as [C|C]; [apply mult_le; try lra; apply val_le; auto|].
    destruct (Req_dec a 0) as [E|NA]; [rewrite (Z E); rewrite Rmult_0_r; apply Rmult_le_pos; lra|]. assert (AP : 0 < a) by lra.
    destruct (Req_dec x' 0) as [E|NX]; [exfalso; subst x'; assert (0 < x * a) by (apply Rmult_lt_0_compat; lra); lra|]. assert (XP : 0 < x') by lra.
    pose proof (val_secant x' x I' I ltac:(lra)) as SC. apply Rmult_le_reg_r with (x' * a); [apply Rmult_lt_0_compat; lra|].
    apply Rle_trans with (val x' * x * b * a). { replace (val x * b * (x' * a)) with (val x * x' * (b * a)) by ring. replace (val x' * x * b * a) with (val x' * x * (b * a)) by ring. apply Rmult_le_compat_r; [apply Rmult_le_pos; lra|exact SC]. }
    apply Rle_trans with (val x' * b * (x' * a')). { replace (val x' * x * b * a) with (val x' * b * (x * a)) by ring. apply Rmult_le_compat_l; [apply Rmult_le_pos; lra|lra]. }
    replace (val x' * b * (x' * a')) with (val x' * x' * (a' * b)) by ring. replace (val x' * b' * (x' * a)) with (val x' * x' * (a * b')) by ring. apply Rmult_le_compat_l; [apply Rmult_le_pos; lra|exact HAB].
  - intros w I. apply in_map_iff in I. destruct I as (v & <- & I). exists (v * b'). split; [apply in_map_iff; exists v; auto|].
    apply in_map_iff in I. destruct I as (x & <- & I). apply Rmult_le_compat_l; [apply val_nonneg; exact I|lra].
Qed.
End Conic.

(** ** Multipliers *)
Lemma combine_maps : forall (f g : R -> R) l l' v w, In (v, w) (combine (map f l) (map g l')) -> exists x y, In (x, y) (combine l l') /\ v = f x /\ w = g y.
Proof. intros f g. induction l as [|a t IH]; intros [|a' t'] v w I; try contradiction. cbn [map combine] in I. destruct I as [E|I]; [injection E as <- <-; exists a, a'; split; [left; reflexivity|auto]|].
  destruct (IH t' v w I) as (x & y & I' & E). exists x, y. split; [right; auto|auto]. Qed.
Lemma outdone_scale : forall y p y' p' a b a' b', outdone y p y' p' -> 0 < a' <= a -> 0 <= b <= b' -> (forall v, In v y' -> 0 <= v) -> (forall w, In w p -> 0 <= w) ->
  outdone (map (fun v => v * a) y) (map (fun v => v * b) p) (map (fun v => v * a') y') (map (fun v => v * b') p').
Proof.
  intros y p y' p' a b a' b' [O1 O2] HA HB HY HP. split.
  - intros v w v' w' I I' L. apply combine_maps in I. apply combine_maps in I'. destruct I as (x & z & I & -> & ->). destruct I' as (x' & z' & I' & -> & ->).
    pose proof (in_combine_l _ _ _ _ I') as IY. pose proof (in_combine_r _ _ _ _ I) as IP. assert (x <= x').
    { apply Rmult_le_reg_r with a; [lra|]. apply Rle_trans with (x' * a'); [exact L|]. apply Rmult_le_compat_l; [apply HY; exact IY|lra]. }
    apply mult_le; try lra; [apply HP; exact IP|apply (O1 _ _ _ _ I I' H)].
  - intros w I. apply in_map_iff in I. destruct I as (z & <- & I). destruct (O2 z I) as (z' & I' & L). exists (z' * b'). split; [apply in_map_iff; exists z'; auto|].
    apply mult_le; try lra. apply HP. exact I.
Qed.

(** ** Clay under static loading *)
Lemma Pmax_le : forall sig sig' X Su Su' D J J', 0 <= sig <= sig' -> 0 <= X -> 0 <= Su <= Su' -> 0 < D -> 0 <= J <= J' -> clay_Pmax sig X Su D J <= clay_Pmax sig' X Su' D J'.
Proof.
  intros sig sig' X Su Su' D J J' HS HX HU HD HJ. unfold clay_Pmax. assert (A : 9 * Su * D <= 9 * Su' * D) by (apply Rmult_le_compat_r; lra).
  assert (B : (3 * Su + sig) * D <= (3 * Su' + sig') * D) by (apply Rmult_le_compat_r; lra). assert (C : J * Su <= J' * Su') by (apply mult_le; lra). assert (C' : J * Su * X <= J' * Su' * X) by (apply Rmult_le_compat_r; lra).
  apply Rmin_glb; [apply Rle_trans with (1 := Rmin_l _ _)|apply Rle_trans with (1 := Rmin_r _ _)]; lra.
Qed.
Lemma combine_nth_in : forall (l l' : list R) v w, length l = length l' -> In (v, w) (combine l l') -> exists i, (i < length l)%nat /\ v = nth i l 0 /\ w = nth i l' 0.
Proof.
  intros l l' v w L I. apply In_nth with (d := (0, 0)) in I. destruct I as (i & Hi & E). rewrite combine_nth in E by exact L. rewrite combine_length in Hi. injection E as <- <-. exists i. split; [lia|auto].
Qed.
Lemma clay_outdone : forall f b reach f' b' reach' n sig X Su eps50 D J sig' Su' eps50' J' r r',
  0 <= sig <= sig' -> 0 <= X -> 0 < Su <= Su' -> 0 < D -> 0 < J <= J' -> 0 < eps50' <= eps50 -> (0 < n)%nat ->
  clay_claim f b reach n sig X Su eps50 D J Static 0 r -> clay_claim f' b' reach' n sig' X Su' eps50' D J' Static 0 r' ->
  exists y p y' p', r = Ok (y, p) /\ r' = Ok (y', p') /\ outdone y p y' p'.
Proof.
  intros f b reach f' b' reach' n sig X Su eps50 D J sig' Su' eps50' J' r r' HS HX HU HD HJ HE N0 C C'.
  unfold clay_claim in C, C'. cbv zeta in C, C'. destruct C as (Xr & y & p & E & _ & _ & DI & _ & _ & ND & PB & PL). destruct C' as (Xr' & y' & p' & E' & _ & _ & DI' & _ & _ & ND' & PB' & PL').
  exists y, p, y', p'. split; [exact E|]. split; [exact E'|]. fold (clay_Pmax sig X Su D J) in *. fold (clay_Pmax sig' X Su' D J') in *.
  pose proof (Pmax_le sig sig' X Su Su' D J J' HS HX ltac:(lra) HD ltac:(lra)) as PM. assert (Y1 : 0 < 2.5 * eps50' * D) by (apply Rmult_lt_0_compat; lra).
  assert (Y2 : 2.5 * eps50' * D <= 2.5 * eps50 * D) by (apply Rmult_le_compat_r; lra). destruct DI as [L1 L2 F1 F2 ST VA], DI' as [L1' L2' F1' F2' ST' VA'].
  assert (PN : 0 <= clay_Pmax sig X Su D J) by (apply Pmax_nonneg; lra). split.
  - intros v w v' w' I I' L. apply combine_nth_in in I; [|congruence]. apply combine_nth_in in I'; [|congruence]. destruct I as (i & Hi & -> & ->). destruct I' as (j & Hj & -> & ->).
    rewrite VA, VA' by lia. apply mult_le; auto; [apply static_range|]. apply static_mono.
    pose proof (ST 0%nat i ltac:(lia) ltac:(lia)) as P0. rewrite F1 in P0.
    apply Rle_trans with (nth j y' 0 / (2.5 * eps50 * D)); [apply Rmult_le_compat_r; [left; apply Rinv_0_lt_compat; lra|exact L]|]. apply Rmult_le_compat_l; [lra|apply Rinv_le_contravar; lra].
  - intros w I. exists (last p' 0). split; [apply last_in; intros Z; subst p'; change (length (@nil R)) with 0%nat in L2'; lia|]. revert PL'. destruct (Req_EM_T 0 0) as [_|F]; [|lra]. intros PL'. rewrite PL' by lra. destruct (PB w I). lra.
Qed.
