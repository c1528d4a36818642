(** C45: API sand p-y curve. *)
From Coq Require Import List Reals Lra Lia Psatz.
From Verif Require Import Base ConicModel ConicSpec ConicProofs PisaModel PisaProofs ApiSandModel ApiSandSpec ApiSandProofs.
Import ListNotations.
Local Open Scope R_scope.

(** For every friction angle, stress, depth, diameter, kind, modulus, extent and number of points: the
    curve is the hyperbolic tangent of the standard, starts at zero, never decreases, stays below A times
    the ultimate resistance, and mobilises 99.9 % of it when the extent is automatic and the depth is at
    least 0.1 m. *)
Theorem C45_api_sand_curve : forall sig X phi D kind b k ymax m,
  0 < phi -> phi < 90 -> 0 < D -> 0 < sig -> 0 <= X -> 0 <= k -> 0 <= ymax ->
  let A := match kind with Static => Rmax 0.9 (3 - 0.8 * X / D) | Cyclic => 0.9 end in
  let ult := A * sand_ultimate sig X phi D in
  exists kk y p, api_sand sig X phi D kind b k ymax m = Ok (y, p) /\
    (k <> 0 -> kk = k) /\ (k = 0 -> kk = Rmax ((if b then 0.1978 * phi ^ 2 - 10.232 * phi + 136.82 else 0.2153 * phi ^ 2 - 8.232 * phi + 63.657) * 1000) 5400) /\
    length y = Nat.max 8 m /\ length p = Nat.max 8 m /\ nth 0 y 0 = 0 /\ nth 0 p 0 = 0 /\ nondecreasing y /\ nondecreasing p /\
    (ymax <> 0 -> last y 0 = ymax) /\
    (forall i, (i < Nat.max 8 m)%nat -> nth i p 0 = ult * tanh (kk * X * nth i y 0 / ult) /\ 0 <= nth i p 0 /\ nth i p 0 <= ult) /\
    (ymax = 0 -> 0.1 <= X -> 0.999 * ult <= last p 0).
Proof.
  intros sig X phi D kind b k ymax m P0 P1 HD HS HX HK HY A ult. fold (sand_A X D kind) in A.
  exists (sand_k phi b k). rewrite api_sand_eq by auto. do 2 eexists. split; [reflexivity|].
  pose proof (ultimate_pos phi P0 P1 sig X D HS HX HD) as U. pose proof (sand_A_ge X D kind) as AG. fold A in AG.
  assert (UL : 0 < ult) by (apply Rmult_lt_0_compat; lra).
  split; [intros N; unfold sand_k; destruct (Req_EM_T k 0); [contradiction|reflexivity]|].
  split; [intros N; unfold sand_k, api_k; destruct (Req_EM_T k 0); [destruct b; reflexivity|contradiction]|].
  pose proof (sand_ymax_pos sig X phi D kind b k ymax P0 P1 HD HK ltac:(lra) HX HY) as YP.
  set (Y := sand_ymax sig X phi D kind b k ymax) in *. set (N := Nat.max 8 m). assert (N8 : (8 <= N)%nat) by (unfold N; lia).
  rewrite map_length, linspace_length. split; [reflexivity|]. split; [reflexivity|].
  assert (NTH : forall i, (i < N)%nat -> nth i (map (sand_p sig X phi D kind b k) (linspace 0 Y N)) 0 = ult * tanh (sand_k phi b k * X * nth i (linspace 0 Y N) 0 / ult)).
  { intros i Hi. rewrite (nth_indep _ 0 (sand_p sig X phi D kind b k 0)) by (rewrite map_length, linspace_length; auto). rewrite map_nth. unfold sand_p. cbv zeta.
    destruct (Req_EM_T (sand_ultimate sig X phi D) 0); [lra|]. reflexivity. }
  destruct (linspace_ends 0 Y N ltac:(lia)) as [E0 E1].
  split; [exact E0|]. split; [rewrite NTH, E0 by lia; replace (sand_k phi b k * X * 0 / ult) with 0 by (field; lra); rewrite tanh_0; ring|].
  assert (ND : nondecreasing (linspace 0 Y N)) by (apply linspace_nondecr; lra).
  split; [exact ND|]. split; [apply nondecreasing_map; auto; intros; apply sand_p_mono; auto; lra|].
  split; [intros Z; rewrite last_nth0, linspace_length, E1; unfold Y, sand_ymax; destruct (Req_EM_T ymax 0); [contradiction|reflexivity]|].
  assert (B : forall i, (i < N)%nat -> 0 <= nth i (linspace 0 Y N) 0).
  { intros i Hi. rewrite <- E0 at 1. apply (ND 0%nat i); [lia|rewrite linspace_length; auto]. }
  split.
  - intros i Hi. split; [apply NTH; auto|]. rewrite NTH by auto. pose proof (sand_k_pos phi b k HK) as KP.
    assert (0 <= sand_k phi b k * X * nth i (linspace 0 Y N) 0 / ult).
    { apply Rmult_le_pos; [|left; apply Rinv_0_lt_compat; auto]. apply Rmult_le_pos; [apply Rmult_le_pos; lra|apply B; auto]. }
    pose proof (tanh_mono 0 _ H) as T. rewrite tanh_0 in T. split; [apply Rmult_le_pos; lra|].
    rewrite <- (Rmult_1_r ult) at 3. apply Rmult_le_compat_l; [lra|]. left. apply tanh_bounds.
  - intros Z X1. rewrite last_nth0, map_length, linspace_length, NTH, E1 by lia. unfold Y, sand_ymax. destruct (Req_EM_T ymax 0); [|contradiction].
    destruct (Req_EM_T (sand_ultimate sig X phi D) 0); [lra|]. rewrite Rmax_left by lra. pose proof (sand_k_pos phi b k HK) as KP. fold A.
    replace (sand_k phi b k * X * (4 * A * sand_ultimate sig X phi D / (sand_k phi b k * X)) / ult) with 4 by (unfold ult; field; repeat split; lra).
    rewrite Rmult_comm. apply Rmult_le_compat_l; [lra|]. apply tanh_4.
Qed.

(** Without vertical stress the soil gives no resistance at any displacement. *)
Theorem C45_no_stress_no_resistance : forall X phi D kind b k ymax m, 0 < phi -> phi < 90 -> 0 < D -> 0 <= X -> 0 <= k -> 0 <= ymax ->
  exists y p, api_sand 0 X phi D kind b k ymax m = Ok (y, p) /\ length y = Nat.max 8 m /\ length p = Nat.max 8 m /\ nondecreasing y /\ 0 < last y 0 /\ (forall v, In v p -> v = 0).
Proof.
  intros X phi D kind b k ymax m P0 P1 HD HX HK HY. rewrite api_sand_eq by auto. do 2 eexists. split; [reflexivity|].
  rewrite map_length, linspace_length. split; [reflexivity|]. split; [reflexivity|].
  pose proof (sand_ymax_pos 0 X phi D kind b k ymax P0 P1 HD HK ltac:(lra) HX HY) as YP.
  split; [apply linspace_nondecr; lra|]. split.
  - rewrite last_nth0, linspace_length. destruct (linspace_ends 0 (sand_ymax 0 X phi D kind b k ymax) (Nat.max 8 m) ltac:(lia)) as [_ ->]. exact YP.
  - intros v I. apply in_map_iff in I. destruct I as (w & <- & _). unfold sand_p. cbv zeta. rewrite ultimate_zero. destruct (Req_EM_T 0 0); [reflexivity|lra].
Qed.

(** A negative modulus is rejected. *)
Theorem C45_negative_modulus_rejected : forall sig X phi D kind b k ymax m, D <> 0 -> k < 0 -> api_sand sig X phi D kind b k ymax m = Err ValueError.
Proof.
  intros sig X phi D kind b k ymax m HD HK. unfold api_sand. destruct kind; rewrite ?nonzero_ok by auto; cbn [bind];
  (destruct (Req_EM_T k 0); [lra|]; destruct (Rlt_dec k 0); [reflexivity|lra]).
Qed.

(** The ultimate resistance is positive over the whole range of friction angles and grows with the stress. *)
Theorem C45_ultimate_positive : forall sig X phi D, 0 < phi -> phi < 90 -> 0 < D -> 0 < sig -> 0 <= X -> 0 < sand_ultimate sig X phi D.
Proof. intros. apply ultimate_pos; auto. Qed.

Example C45_case : exists y p, api_sand 50 5 33 5 Static true 0 0 15 = Ok (y, p) /\ length p = 15%nat /\ nondecreasing p /\
  0.999 * (Rmax 0.9 (3 - 0.8 * 5 / 5) * sand_ultimate 50 5 33 5) <= last p 0 /\ 0 < last p 0.
Proof.
  destruct (C45_api_sand_curve 50 5 33 5 Static true 0 0 15) as (kk & y & p & E & _ & _ & _ & L & _ & _ & _ & N & _ & _ & H); try lra.
  exists y, p. split; [exact E|]. split; [exact L|]. split; [exact N|]. specialize (H eq_refl ltac:(lra)). split; [exact H|].
  pose proof (C45_ultimate_positive 50 5 33 5 ltac:(lra) ltac:(lra) ltac:(lra) ltac:(lra) ltac:(lra)) as U.
  rewrite Rmax_right in H by lra. nra.
Qed.

(** The Kallehave modulus vanishes at the surface, and api_sand then silently uses the standard modulus. *)
Theorem C45_kallehave_at_surface_refuted : forall sig phi D kind b ymax m,
  kallehave_k phi b 0 D = 0 /\
  api_sand sig 0 phi D kind b (kallehave_k phi b 0 D) ymax m = api_sand sig 0 phi D kind b (api_k phi b) ymax m.
Proof.
  intros sig phi D kind b ymax m. assert (Z : kallehave_k phi b 0 D = 0).
  { unfold kallehave_k, rpow. replace (0 / 2.5) with 0 by lra. destruct (Rlt_dec 0 0); [lra|ring]. }
  split; [exact Z|]. rewrite Z. unfold api_sand. destruct (Req_EM_T 0 0); [|lra]. pose proof (api_k_pos phi b).
  destruct (Req_EM_T (api_k phi b) 0); [lra|]. destruct (Rlt_dec (api_k phi b) 0); [lra|reflexivity].
Qed.

(** The laws of the modified moduli: Kallehave's is the standard one at 2.5 m and 0.61 m and grows with the
    powers 0.6 of depth and 0.5 of diameter. *)
Lemma rpow_scale : forall c x a, 0 < c -> 0 < x -> rpow (c * x) a = Rpower c a * rpow x a.
Proof.
  intros c x a C X. unfold rpow. assert (0 < c * x) by (apply Rmult_lt_0_compat; auto). destruct (Rlt_dec 0 (c * x)); [|lra]. destruct (Rlt_dec 0 x); [|lra].
  symmetry. apply Rpower_mult_distr; auto.
Qed.
Lemma rpow_1 : forall x a, x = 1 -> rpow x a = 1.
Proof. intros x a ->. unfold rpow. destruct (Rlt_dec 0 1); [|lra]. unfold Rpower. rewrite ln_1, Rmult_0_r. apply exp_0. Qed.
Theorem C45_kallehave_laws : forall phi b X D c, 0 < X -> 0 < D -> 0 < c ->
  kallehave_k phi b 2.5 0.61 = api_k phi b /\
  kallehave_k phi b (c * X) D = Rpower c 0.6 * kallehave_k phi b X D /\
  kallehave_k phi b X (c * D) = Rpower c 0.5 * kallehave_k phi b X D.
Proof.
  intros phi b X D c HX HD HC. unfold kallehave_k. split; [|split].
  - rewrite !rpow_1 by lra. ring.
  - replace (c * X / 2.5) with (c * (X / 2.5)) by (unfold Rdiv; ring). rewrite rpow_scale by (auto; lra). ring.
  - replace (c * D / 0.61) with (c * (D / 0.61)) by (unfold Rdiv; ring). rewrite rpow_scale by (auto; lra). ring.
Qed.
(** Sørensen's modulus times the depth is the published stiffness 50 MPa x^0.6 D^0.5 phi^3.6, angle in radians. *)
Theorem C45_sorensen_law : forall phi X D, 0.01 <= X -> 0 < D -> 0 < phi ->
  sorensen_k phi X D * X = 50000 * (Rpower X 0.6 * Rpower D 0.5 * Rpower (phi / 180 * PI) 3.6).
Proof.
  intros phi X D HX HD HP. unfold sorensen_k. cbv zeta. rewrite Rmax_left by lra. pose proof PI_RGT_0. assert (0 < phi * (PI / 180)) by (apply Rmult_lt_0_compat; lra).
  replace (phi / 180 * PI) with (phi * (PI / 180)) by (unfold Rdiv; ring). replace (X / 1) with X by field. replace (D / 1) with D by field. unfold rpow.
  destruct (Rlt_dec 0 X); [|lra]. destruct (Rlt_dec 0 D); [|lra]. destruct (Rlt_dec 0 (phi * (PI / 180))); [|lra]. field. lra.
Qed.
(** Kallehave's published stiffness is k z0 (z / z0)^0.6 (D / D0)^0.5.  The modulus of the hook is multiplied by the
    depth once more, so the curve starts too stiff below 2.5 m and too soft above. *)
Theorem C45_kallehave_stiffness_refuted : forall phi b X D, 0 < X -> 0 < D ->
  let published := api_k phi b * 2.5 * Rpower (X / 2.5) 0.6 * Rpower (D / 0.61) 0.5 in
  kallehave_k phi b X D * X = published * (X / 2.5) /\ 0 < published /\ (2.5 < X -> published < kallehave_k phi b X D * X) /\ (X < 2.5 -> kallehave_k phi b X D * X < published).
Proof.
  intros phi b X D HX HD published. assert (E : kallehave_k phi b X D * X = published * (X / 2.5)).
  { unfold kallehave_k, published, rpow. destruct (Rlt_dec 0 (X / 2.5)); [|lra]. destruct (Rlt_dec 0 (D / 0.61)); [|lra]. set (a := Rpower _ 0.6). set (c := Rpower _ 0.5). lra. }
  assert (P : 0 < published). { unfold published. pose proof (api_k_pos phi b). apply Rmult_lt_0_compat; [apply Rmult_lt_0_compat; [lra|apply exp_pos]|apply exp_pos]. }
  split; [exact E|]. split; [exact P|]. rewrite E. split; intros H.
  - rewrite <- (Rmult_1_r published) at 1. apply Rmult_lt_compat_l; lra.
  - rewrite <- (Rmult_1_r published) at 2. apply Rmult_lt_compat_l; lra.
Qed.

Print Assumptions C45_api_sand_curve.
Print Assumptions C45_no_stress_no_resistance.
Print Assumptions C45_negative_modulus_rejected.
Print Assumptions C45_ultimate_positive.
Print Assumptions C45_kallehave_at_surface_refuted.
Print Assumptions C45_kallehave_laws.
Print Assumptions C45_sorensen_law.
Print Assumptions C45_kallehave_stiffness_refuted.
