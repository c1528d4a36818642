(** C43, C44 and C52: PISA curves, custom PISA models fed by hooks, and the Dührkop multipliers. *)
From Coq Require Import List Reals Lra Lia Psatz.
From Verif Require Import Base ConicModel ConicSpec ConicProofs ConicProps PisaModel PisaSpec PisaProofs.
Import ListNotations.
Local Open Scope R_scope.

(** ** C43: built-in curves over the documented range: slenderness 2 to 6, depth within the pile *)

Theorem C43_py_bothkennar : forall X Su G0 D m, 0 < D -> 0 <= X -> X <= 6 * D -> 0 <= Su -> 0 < G0 -> (7 <= m)%nat ->
  let r := X / D in let n := 0.7204 - 0.002679 * r in let k := 12.05 - 1.547 * r in let yu := 7.743 - 3.945 * exp (-0.8456 * r) in
  exists xs ys, py_bothkennar X Su G0 D m = Ok (xs, map Some ys) /\
    pisa_curve m n (Rmax 1 (k * 173.8 / yu)) (1/100 / 173.8) (173.8 * (Su * D / G0)) (yu * (Su * D)) xs ys.
Proof.
  intros X Su G0 D m HD X0 X6 HS HG M. cbv zeta. unfold py_bothkennar. rewrite nonzero_ok by lra. rewrite !(mulr _ X D).
  destruct (frac01 X D 6 HD X0 X6) as [R0 R6]. set (r := X / D) in *. destruct (scales Su D HS HD) as (S1 & S2 & S3).
  destruct (exp_neg (-0.8456) r ltac:(lra) R0) as [E0 E1]. set (e := exp (-0.8456 * r)) in *.
  apply curve_as; auto; try lra.
  - right. nra.
  - f_equal. f_equal; lra.
Qed.

Theorem C43_py_cowden : forall X Su G0 D m, 0 < D -> 0 <= X -> X <= 6 * D -> 0 <= Su -> 0 < G0 -> (7 <= m)%nat ->
  let r := X / D in let n := 0.939 - 0.03345 * r in let k := 10.6 - 1.65 * r in let yu := 10.7 - 7.101 * exp (-0.3085 * r) in
  exists xs ys, py_cowden X Su G0 D m = Ok (xs, map Some ys) /\
    pisa_curve m n (Rmax 1 (k * 241.4 / yu)) (1/100 / 241.4) (241.4 * (Su * D / G0)) (yu * (Su * D)) xs ys.
Proof.
  intros X Su G0 D m HD X0 X6 HS HG M. cbv zeta. unfold py_cowden. rewrite nonzero_ok by lra. rewrite !(mulr _ X D).
  destruct (frac01 X D 6 HD X0 X6) as [R0 R6]. set (r := X / D) in *. destruct (scales Su D HS HD) as (S1 & S2 & S3).
  destruct (exp_neg (-0.3085) r ltac:(lra) R0) as [E0 E1]. set (e := exp (-0.3085 * r)) in *.
  apply curve_as; auto; try lra.
  - right. apply Rle_trans with (0.939 * 10.7); [apply Rmult_le_compat; lra|].
    replace ((1 - (0.9390 + -0.03345 * r)) * (10.6 + -1.650 * r) * 241.4) with ((0.061 + 0.03345 * r) * (10.6 - 1.65 * r) * 241.4) by lra.
    assert (0 <= r * (6 - r)) by (apply Rmult_le_pos; lra). nra.
  - f_equal. f_equal; lra.
Qed.

(** Dunkirk sand needs the hypothesis that no sample meets the singular abscissa: see the refutation below. *)
Theorem C43_py_dunkirk_partial : forall sig X Dr G0 D L m,
  0 < D -> 0 <= X -> X <= L -> 2 * D <= L -> L <= 6 * D -> 0 <= Dr -> Dr <= 100 -> 0 <= sig -> 0 < G0 ->
  let d := Dr / 100 in let n := 0.917 + 0.06193 * d in let k := 8.731 - 0.6982 * d - 0.9178 * (X / D) in
  let xu := 146.1 - 92.11 * d in let yu := 0.3667 + 25.89 * d + (0.3375 - 8.9 * d) * (X / L) in
  (forall x, In x (conic_x xu (Nat.max 8 m)) -> 0 < x -> x < xu -> (1 - n) * Rmax (yu / xu) k * xu ^ 2 <> n * yu * x) ->
  exists xs ys, py_dunkirk sig X Dr G0 D L m = Ok (xs, map Some ys) /\
    pisa_curve (Nat.max 8 m) n (Rmax 1 (k * xu / yu)) (1/100 / xu) (xu * (sig * D / G0)) (yu * (sig * D)) xs ys.
Proof.
  intros sig X Dr G0 D L m HD X0 XL L2 L6 D0 D1 HS HG. cbv zeta. unfold py_dunkirk. cbv zeta. rewrite !nonzero_ok by lra. rewrite !(mulr _ X D), !(mulr _ X L).
  intros R. destruct (frac01 X L 1 ltac:(lra) X0 ltac:(lra)) as [R0 R1]. set (t := X / L) in *. destruct (scales sig D HS HD) as (S1 & S2 & S3).
  assert (d0 : 0 <= Dr / 100) by lra. assert (d1 : Dr / 100 <= 1) by lra. set (d := Dr / 100) in *.
  replace (8.731 - 0.6982 * d + -0.9178 * (X / D)) with (8.731 - 0.6982 * d - 0.9178 * (X / D)) by lra.
  apply scaled_curve; auto; try lra; try lia.
  assert (0 <= d * (1 - t)) by (apply Rmult_le_pos; lra). nra.
Qed.

Theorem C43_mt_bothkennar : forall X Su G0 D m, 0 < D -> 0 <= X -> X <= 6 * D -> 0 <= Su -> 0 < G0 -> (7 <= m)%nat ->
  let r := X / D in let yu := 0.4862 - 0.05674 * r in let xu := yu / (1.698 - 0.1576 * r) in
  exists xs ys, mt_bothkennar X Su G0 D m = Ok (xs, map Some ys) /\
    pisa_curve m 0 1 (1/100 / xu) (xu * (Su / G0)) (yu * (Su * D ^ 2)) xs ys.
Proof.
  intros X Su G0 D m HD X0 X6 HS HG M. cbv zeta. unfold mt_bothkennar. cbv zeta. rewrite nonzero_ok by lra. rewrite !(mulr _ X D).
  destruct (frac01 X D 6 HD X0 X6) as [R0 R6]. set (r := X / D) in *. destruct (scales Su D HS HD) as (S1 & S2 & S3).
  replace (0.4862 + -0.05674 * r) with (0.4862 - 0.05674 * r) by lra. replace (1.698 + -0.1576 * r) with (1.698 - 0.1576 * r) by lra.
  rewrite nonzero_ok by lra. apply curve_as; auto; try lra.
  - apply Rmult_le_reg_r with (1.698 - 0.1576 * r); [lra|]. replace ((0.4862 - 0.05674 * r) / (1.698 - 0.1576 * r) * (1.698 - 0.1576 * r)) with (0.4862 - 0.05674 * r) by (field; lra). lra.
  - replace ((1.698 - 0.1576 * r) * ((0.4862 - 0.05674 * r) / (1.698 - 0.1576 * r)) / (0.4862 - 0.05674 * r)) with 1 by (field; lra). apply Rmax_left. lra.
Qed.

(** For Cowden clay the statement stops at 5.89 diameters: beyond, the ultimate rotation falls under 0.01. *)
Theorem C43_mt_cowden_partial : forall X Su G0 D m, 0 < D -> 0 <= X -> X <= 5.89 * D -> 0 <= Su -> 0 < G0 -> (7 <= m)%nat ->
  let r := X / D in let yu := 0.2899 - 0.04775 * r in let xu := yu / (1.42 - 0.09643 * r) in
  exists xs ys, mt_cowden X Su G0 D m = Ok (xs, map Some ys) /\
    pisa_curve m 0 1 (1/100 / xu) (xu * (Su / G0)) (yu * (Su * D ^ 2)) xs ys.
Proof.
  intros X Su G0 D m HD X0 X6 HS HG M. cbv zeta. unfold mt_cowden. cbv zeta. rewrite nonzero_ok by lra. rewrite !(mulr _ X D).
  destruct (frac01 X D 5.89 HD X0 X6) as [R0 R6]. set (r := X / D) in *. destruct (scales Su D HS HD) as (S1 & S2 & S3).
  replace (0.2899 + -0.04775 * r) with (0.2899 - 0.04775 * r) by lra. replace (1.420 + -0.09643 * r) with (1.42 - 0.09643 * r) by lra.
  rewrite nonzero_ok by lra. apply curve_as; auto; try lra.
  - apply Rmult_le_reg_r with (1.42 - 0.09643 * r); [lra|]. replace ((0.2899 - 0.04775 * r) / (1.42 - 0.09643 * r) * (1.42 - 0.09643 * r)) with (0.2899 - 0.04775 * r) by (field; lra). lra.
  - replace ((1.42 - 0.09643 * r) * ((0.2899 - 0.04775 * r) / (1.42 - 0.09643 * r)) / (0.2899 - 0.04775 * r)) with 1 by (field; lra). apply Rmax_left. lra.
Qed.

(** For Dunkirk sand the statement needs a normalised ultimate moment of at least 0.17. *)
Theorem C43_mt_dunkirk_partial : forall sig X Dr G0 p D L m,
  0 < D -> 0 < L -> 0 <= sig -> 0 < G0 -> (7 <= m)%nat ->
  let yu := 0.2605 + (-0.1989 + 0.2019 * (Dr / 100)) * (X / L) in
  0.17 <= yu ->
  exists xs ys, mt_dunkirk sig X Dr G0 p D L m = Ok (xs, map Some ys) /\
    pisa_curve m 0 1 (1/100 / (yu / 17)) (yu / 17 * (sig / G0)) (yu * (Rabs p * D)) xs ys.
Proof.
  intros sig X Dr G0 p D L m HD HL HS HG M. cbv zeta. intros YU. unfold mt_dunkirk. cbv zeta. rewrite !nonzero_ok by lra. rewrite !(mulr _ X L).
  replace (17 + 0 * X / D) with 17 by (field; lra). rewrite ?nonzero_ok by lra.
  set (yu := 0.2605 + (-0.1989 + 0.2019 * (Dr / 100)) * (X / L)) in *.
  apply curve_as; auto; try lra.
  - apply Rmult_le_pos; [apply Rabs_pos|lra].
  - replace (17 * (yu / 17) / yu) with 1 by (field; lra). apply Rmax_left. lra.
Qed.

Theorem C43_Hb_bothkennar : forall Su G0 D L m, 0 < D -> 2 * D <= L -> L <= 6 * D -> 0 <= Su -> 0 < G0 -> (7 <= m)%nat ->
  let r := L / D in let n := 0.3113 + 0.04263 * r in let k := 3.008 - 0.2701 * r in let yu := 0.5279 + 0.06864 * r in
  exists xs ys, Hb_bothkennar Su G0 D L m = Ok (xs, map Some ys) /\
    pisa_curve m n (Rmax 1 (k * 291.5 / yu)) (1/100 / 291.5) (291.5 * (Su * D / G0)) (yu * (Su * D ^ 2)) xs ys.
Proof.
  intros Su G0 D L m HD L2 L6 HS HG M. cbv zeta. unfold Hb_bothkennar. rewrite nonzero_ok by lra. rewrite !(mulr _ L D).
  destruct (frac01 L D 6 HD ltac:(lra) L6) as [_ R6]. pose proof (frac_ge L D 2 HD L2) as R2. set (r := L / D) in *. destruct (scales Su D HS HD) as (S1 & S2 & S3).
  replace (291.5 + 0 * r) with 291.5 by lra. apply curve_as; auto; try lra.
  - right. nra.
  - f_equal. f_equal; lra.
Qed.

Theorem C43_Hb_cowden : forall Su G0 D L m, 0 < D -> 2 * D <= L -> L <= 6 * D -> 0 <= Su -> 0 < G0 -> (7 <= m)%nat ->
  let r := L / D in let n := 0.8793 - 0.0315 * r in let k := 2.717 - 0.3575 * r in let yu := 0.4038 + 0.04812 * r in
  exists xs ys, Hb_cowden Su G0 D L m = Ok (xs, map Some ys) /\
    pisa_curve m n (Rmax 1 (k * 235.7 / yu)) (1/100 / 235.7) (235.7 * (Su * D / G0)) (yu * (Su * D ^ 2)) xs ys.
Proof.
  intros Su G0 D L m HD L2 L6 HS HG M. cbv zeta. unfold Hb_cowden. rewrite nonzero_ok by lra. rewrite !(mulr _ L D).
  destruct (frac01 L D 6 HD ltac:(lra) L6) as [_ R6]. pose proof (frac_ge L D 2 HD L2) as R2. set (r := L / D) in *. destruct (scales Su D HS HD) as (S1 & S2 & S3).
  replace (235.7 + 0 * r) with 235.7 by lra. apply curve_as; auto; try lra.
  - right. nra.
  - f_equal. f_equal; lra.
Qed.

Theorem C43_Hb_dunkirk : forall sig Dr G0 D L m, 0 < D -> 2 * D <= L -> L <= 6 * D -> 0 <= Dr -> Dr <= 100 -> 0 <= sig -> 0 < G0 -> (7 <= m)%nat ->
  let d := Dr / 100 in let r := L / D in
  let n := 0.09978 + 0.7974 * d + (0.004994 - 0.07005 * d) * r in let k := 6.505 - 2.985 * d - (0.007969 + 0.4299 * d) * r in
  let xu := 0.5150 + 2.883 * d + (0.1695 - 0.7018 * d) * r in let yu := 0.09952 + 0.7996 * d + (0.03988 - 0.1606 * d) * r in
  exists xs ys, Hb_dunkirk sig Dr G0 D L m = Ok (xs, map Some ys) /\
    pisa_curve m n (Rmax 1 (k * xu / yu)) (1/100 / xu) (xu * (sig * D / G0)) (yu * (sig * D ^ 2)) xs ys.
Proof.
  intros sig Dr G0 D L m HD L2 L6 D0 D1 HS HG M. cbv zeta. unfold Hb_dunkirk. cbv zeta. rewrite nonzero_ok by lra. rewrite !(mulr _ L D).
  destruct (frac01 L D 6 HD ltac:(lra) L6) as [_ R6]. pose proof (frac_ge L D 2 HD L2) as R2. set (r := L / D) in *. destruct (scales sig D HS HD) as (S1 & S2 & S3).
  assert (d0 : 0 <= Dr / 100) by lra. assert (d1 : Dr / 100 <= 1) by lra. set (d := Dr / 100) in *.
  pose proof (dunkirk_Hb_stiff d r d0 d1 R2 R6) as ST.
  assert (A1 : 0 <= d * (6 - r)) by (apply Rmult_le_pos; lra). assert (A2 : 0 <= d * (r - 2)) by (apply Rmult_le_pos; lra).
  assert (A3 : 0 <= (1 - d) * (6 - r)) by (apply Rmult_le_pos; lra). assert (A4 : 0 <= (1 - d) * (r - 2)) by (apply Rmult_le_pos; lra).
  apply curve_as; auto; try lra.
  f_equal. f_equal. f_equal. lra.
Qed.

Theorem C43_Mb_bothkennar : forall Su G0 D L m, 0 < D -> 2 * D <= L -> L <= 6 * D -> 0 <= Su -> 0 < G0 -> (7 <= m)%nat ->
  let r := L / D in let n := 0.699 - 0.1155 * r in let k := 0.3409 - 0.01995 * r in let yu := 0.8756 - 0.09195 * r in
  exists xs ys, Mb_bothkennar Su G0 D L m = Ok (xs, map Some ys) /\
    pisa_curve m n (Rmax 1 (k * 187 / yu)) (1/100 / 187) (187 * (Su / G0)) (yu * (Su * D ^ 3)) xs ys.
Proof.
  intros Su G0 D L m HD L2 L6 HS HG M. cbv zeta. unfold Mb_bothkennar. rewrite nonzero_ok by lra. rewrite !(mulr _ L D).
  destruct (frac01 L D 6 HD ltac:(lra) L6) as [_ R6]. pose proof (frac_ge L D 2 HD L2) as R2. set (r := L / D) in *. destruct (scales Su D HS HD) as (S1 & S2 & S3).
  apply curve_as; auto; try lra.
  - f_equal. f_equal; lra.
Qed.

Theorem C43_Mb_cowden : forall Su G0 D L m, 0 < D -> 2 * D <= L -> L <= 6 * D -> 0 <= Su -> 0 < G0 -> (7 <= m)%nat ->
  let r := L / D in let n := 1.079 - 0.1087 * r in let k := 0.2146 - 0.002132 * r in let yu := 0.8192 - 0.08588 * r in
  exists xs ys, Mb_cowden Su G0 D L m = Ok (xs, map Some ys) /\
    pisa_curve m n (Rmax 1 (k * 173.1 / yu)) (1/100 / 173.1) (173.1 * (Su / G0)) (yu * (Su * D ^ 3)) xs ys.
Proof.
  intros Su G0 D L m HD L2 L6 HS HG M. cbv zeta. unfold Mb_cowden. rewrite nonzero_ok by lra. rewrite !(mulr _ L D).
  destruct (frac01 L D 6 HD ltac:(lra) L6) as [_ R6]. pose proof (frac_ge L D 2 HD L2) as R2. set (r := L / D) in *. destruct (scales Su D HS HD) as (S1 & S2 & S3).
  apply curve_as; auto; try lra.
  - right. nra.
  - f_equal. f_equal; lra.
Qed.

Theorem C43_Mb_dunkirk : forall sig Dr G0 D L m, 0 < D -> 2 * D <= L -> L <= 6 * D -> 0 <= Dr -> Dr <= 100 -> 0 <= sig -> 0 < G0 -> (7 <= m)%nat ->
  let d := Dr / 100 in let r := L / D in
  let n := 0.3 + 0.4986 * d in let yu := 0.09981 + 0.3710 * d + (0.01998 - 0.09041 * d) * r in
  exists xs ys, Mb_dunkirk sig Dr G0 D L m = Ok (xs, map Some ys) /\
    pisa_curve m n (Rmax 1 (0.3515 * 44.89 / yu)) (1/100 / 44.89) (44.89 * (sig / G0)) (yu * (sig * D ^ 3)) xs ys.
Proof.
  intros sig Dr G0 D L m HD L2 L6 D0 D1 HS HG M. cbv zeta. unfold Mb_dunkirk. cbv zeta. rewrite nonzero_ok by lra. rewrite !(mulr _ L D).
  destruct (frac01 L D 6 HD ltac:(lra) L6) as [_ R6]. pose proof (frac_ge L D 2 HD L2) as R2. set (r := L / D) in *. destruct (scales sig D HS HD) as (S1 & S2 & S3).
  assert (d0 : 0 <= Dr / 100) by lra. assert (d1 : Dr / 100 <= 1) by lra. set (d := Dr / 100) in *.
  assert (A1 : 0 <= d * (6 - r)) by (apply Rmult_le_pos; lra). assert (A2 : 0 <= d * (r - 2)) by (apply Rmult_le_pos; lra).
  assert (A3 : 0 <= (1 - d) * (6 - r)) by (apply Rmult_le_pos; lra). assert (A4 : 0 <= (1 - d) * (r - 2)) by (apply Rmult_le_pos; lra).
  replace (0.3515 + 0 * r) with 0.3515 by lra.
  apply curve_as; auto; try lra.
  right. apply Rle_trans with (0.7986 * 0.48); [apply Rmult_le_compat; lra|lra].
Qed.

Example C43_case : exists xs ys, py_cowden 10 100 50000 5 15 = Ok (xs, map Some ys) /\ length ys = 15%nat /\ nondecreasing ys /\
  last ys 0 = (10.7 - 7.101 * exp (-0.3085 * (10 / 5))) * (100 * 5).
Proof.
  destruct (C43_py_cowden 10 100 50000 5 15) as (xs & ys & E & P); try lra; try lia.
  destruct P as (_ & L & _ & _ & _ & N & _ & _ & LA & _). exists xs, ys. auto.
Qed.

Example C43_dunkirk_case : exists xs ys, mt_dunkirk 50 2 75 50000 300 5 20 15 = Ok (xs, map Some ys) /\ nth 0 ys 0 = 0 /\ nondecreasing ys.
Proof.
  destruct (C43_mt_dunkirk_partial 50 2 75 50000 300 5 20 15) as (xs & ys & E & P); try lra; try lia.
  destruct P as (_ & _ & _ & Z & _ & N & _). exists xs, ys. auto.
Qed.

Lemma scaled_tiny : forall x_u n k y_u m num G0 scale, 0 < x_u -> x_u < 1/100 -> 0 < y_u -> (5 <= m)%nat -> G0 <> 0 ->
  exists xs ys, scaled (conic x_u n k y_u m) num G0 scale = Ok (xs, map Some ys) /\ nth 0 xs 0 = 0 /\ nth 0 ys 0 = y_u * scale.
Proof.
  intros x_u n k y_u m num G0 scale X0 X1 Y M G. destruct (C42_origin_refuted x_u n k y_u m X0 X1 Y M) as (xs & ys & E & A & B & _).
  exists (map (fun v => v * (num / G0)) xs), (map (fun v => v * scale) ys). split.
  { unfold scaled. rewrite E. cbn [bind fst snd]. rewrite nonzero_ok by auto. rewrite !map_map. reflexivity. }
  rewrite !nth_scale, A, B. split; [ring|reflexivity].
Qed.

(** Within the documented range, at 5.9 to 6 diameters deep, the Cowden clay m-t curve carries its full
    moment at zero rotation. *)
Theorem C43_mt_cowden_origin_refuted : forall X Su G0 D m, 0 < D -> 5.9 * D <= X -> X <= 6 * D -> 0 < Su -> 0 < G0 -> (5 <= m)%nat ->
  exists xs ys, mt_cowden X Su G0 D m = Ok (xs, map Some ys) /\ nth 0 xs 0 = 0 /\
    nth 0 ys 0 = (0.2899 - 0.04775 * (X / D)) * (Su * D ^ 2) /\ 0 < nth 0 ys 0.
Proof.
  intros X Su G0 D m HD X5 X6 HS HG M. unfold mt_cowden. cbv zeta. rewrite nonzero_ok by lra. rewrite !(mulr _ X D).
  destruct (frac01 X D 6 HD ltac:(lra) X6) as [_ R6]. pose proof (frac_ge X D 5.9 HD X5) as R5. set (r := X / D) in *.
  replace (0.2899 + -0.04775 * r) with (0.2899 - 0.04775 * r) by lra. replace (1.420 + -0.09643 * r) with (1.42 - 0.09643 * r) by lra.
  rewrite nonzero_ok by lra.
  assert (Q : (0.2899 - 0.04775 * r) / (1.42 - 0.09643 * r) * (1.42 - 0.09643 * r) = 0.2899 - 0.04775 * r) by (field; lra).
  destruct (scaled_tiny ((0.2899 - 0.04775 * r) / (1.42 - 0.09643 * r)) (0 + 0 * r) (1.42 - 0.09643 * r) (0.2899 - 0.04775 * r) m Su G0 (Su * D ^ 2)) as (xs & ys & E & A & B); auto; try lra.
  - apply Rdiv_lt_0_compat; lra.
  - apply Rmult_lt_reg_r with (1.42 - 0.09643 * r); [lra|]. rewrite Q. lra.
  - exists xs, ys. split; [exact E|]. split; [exact A|]. split; [exact B|]. rewrite B. apply Rmult_lt_0_compat; [lra|]. apply Rmult_lt_0_compat; [lra|apply pow_lt; lra].
Qed.

(** The Dunkirk sand m-t curve does the same wherever its normalised ultimate moment is under 0.17. *)
Theorem C43_mt_dunkirk_origin_refuted : forall sig X Dr G0 p D L m,
  0 < D -> 0 < L -> 0 < G0 -> p <> 0 -> (5 <= m)%nat ->
  let yu := 0.2605 + (-0.1989 + 0.2019 * (Dr / 100)) * (X / L) in 0 < yu -> yu < 0.17 ->
  exists xs ys, mt_dunkirk sig X Dr G0 p D L m = Ok (xs, map Some ys) /\ nth 0 xs 0 = 0 /\ nth 0 ys 0 = yu * (Rabs p * D) /\ 0 < nth 0 ys 0.
Proof.
  intros sig X Dr G0 p D L m HD HL HG HP M. cbv zeta. intros Y0 Y1. unfold mt_dunkirk. cbv zeta. rewrite !nonzero_ok by lra. rewrite !(mulr _ X L).
  replace (17 + 0 * X / D) with 17 by (field; lra). rewrite ?nonzero_ok by lra.
  set (yu := 0.2605 + (-0.1989 + 0.2019 * (Dr / 100)) * (X / L)) in *.
  destruct (scaled_tiny (yu / 17) 0 17 yu m sig G0 (Rabs p * D)) as (xs & ys & E & A & B); auto; try lra.
  exists xs, ys. split; [exact E|]. split; [exact A|]. split; [exact B|]. rewrite B. apply Rmult_lt_0_compat; auto. apply Rmult_lt_0_compat; auto. apply Rabs_pos_lt. auto.
Qed.

(** Loose sand (density 0) at half the embedment: within the documented range. *)
Example C43_mt_dunkirk_origin_case : exists xs ys, mt_dunkirk 50 10 0 50000 300 5 20 15 = Ok (xs, map Some ys) /\ nth 0 xs 0 = 0 /\ 0 < nth 0 ys 0.
Proof. destruct (C43_mt_dunkirk_origin_refuted 50 10 0 50000 300 5 20 15) as (xs & ys & A & B & _ & C); try lra; try lia. exists xs, ys. auto. Qed.

(** Within the documented range some depth makes the default 15-point Dunkirk p-y curve divide by zero. *)
Theorem C43_py_dunkirk_singular_refuted : exists X, 0 <= X /\ 2 * 1 <= 2 * X /\ 2 * X <= 6 * 1 /\
  forall sig G0, py_dunkirk sig X 100 G0 1 (2 * X) 15 = Err ZeroDivisionError.
Proof.
  exists ((8.731 - 0.6982 - 0.97893 * 21.97545 * (13/45) / ((1 - 0.97893) * 53.99)) / 0.9178).
  set (X := (8.731 - 0.6982 - 0.97893 * 21.97545 * (13/45) / ((1 - 0.97893) * 53.99)) / 0.9178).
  assert (B : 2 < X < 3) by (unfold X; lra). split; [lra|]. split; [lra|]. split; [lra|]. intros sig G0.
  unfold py_dunkirk. cbv zeta. rewrite !nonzero_ok by lra. unfold scaled. rewrite (mulr _ X (2 * X)). replace (X / (2 * X)) with (1/2) by (field; lra).
  replace (146.1 - 92.11 * (100 / 100)) with 53.99 by lra. replace (0.917 + 0.06193 * (100 / 100)) with 0.97893 by lra.
  replace (0.3667 + 25.89 * (100 / 100) + (0.3375 - 8.9 * (100 / 100)) * (1 / 2)) with 21.97545 by lra.
  assert (K : 8.731 - 0.6982 * (100 / 100) + -0.9178 * X / 1 = 0.97893 * 21.97545 * (13/45) / ((1 - 0.97893) * 53.99)) by (unfold X; lra).
  rewrite K. rewrite (C42_division_by_zero_refuted _ _ _ _ _ (13/45 * 53.99)); auto; try lra; try lia.
  - change (Nat.max 8 15) with 15%nat. unfold conic_x. apply in_or_app. right. apply in_or_app. left.
    replace (13/45 * 53.99) with (nth 1 (linspace (2/10 * 53.99) 53.99 (15 - 5)) 0).
    + apply nth_In. rewrite linspace_length. lia.
    + rewrite linspace_nth by lia. cbn. lra.
  - rewrite Rmax_right by lra. lra.
Qed.

(** ** C44: the hooks *)
Lemma clamp_lo : forall a x, a <= x -> Rmax a x = x.
Proof. intros. apply Rmax_right. auto. Qed.
Lemma clamp_n : forall x, 0 <= x -> x <= 0.999 -> Rmin 0.999 (Rmax 0 x) = x.
Proof. intros. rewrite (Rmax_right 0 x) by auto. apply Rmin_right. auto. Qed.

(** Cowden clay: for every diameter, depth and length, wherever the clamps are inactive. *)
Theorem C44_cowden_hooks : forall X Su G0 D L m, D <> 0 ->
  (0.0001 <= 10.6 + -1.650 * X / D -> 0 <= 0.9390 + -0.03345 * X / D <= 0.999 -> 0.0001 <= 10.7 + -7.101 * exp (-0.3085 * X / D) ->
   let h := hook_cowden_py D in py_custom_clay Su G0 D (h_X h X) (h_n h X) (h_k h X) (h_Y h X) m = py_cowden X Su G0 D m) /\
  (0.0001 <= 1.420 + -0.09643 * X / D -> 0.0001 <= 0.2899 + -0.04775 * X / D ->
   let h := hook_cowden_mt D in mt_custom_clay Su G0 D (h_X h X) (h_n h X) (h_k h X) (h_Y h X) m = mt_cowden X Su G0 D m) /\
  (0.0001 <= 2.717 + -0.3575 * L / D -> 0 <= 0.8793 + -0.03150 * L / D <= 0.999 -> 0.0001 <= 0.4038 + 0.04812 * L / D ->
   let h := hook_cowden_Hb D L in Hb_custom_clay Su G0 D (h_X h X) (h_n h X) (h_k h X) (h_Y h X) m = Hb_cowden Su G0 D L m) /\
  (0.0001 <= 0.2146 + -0.002132 * L / D -> 0 <= 1.079 + -0.1087 * L / D <= 0.999 -> 0.0001 <= 0.8192 + -0.08588 * L / D ->
   let h := hook_cowden_Mb D L in Mb_custom_clay Su G0 D (h_X h X) (h_n h X) (h_k h X) (h_Y h X) m = Mb_cowden Su G0 D L m).
Proof.
  intros X Su G0 D L m HD. split; [|split; [|split]].
  - intros A [B B'] C. cbn. unfold py_custom_clay, py_cowden. rewrite nonzero_ok by auto. rewrite clamp_n, !clamp_lo by auto. reflexivity.
  - intros A B. cbn. unfold mt_custom_clay, mt_cowden. cbv zeta. rewrite nonzero_ok by auto. rewrite !clamp_lo by auto. rewrite nonzero_ok by lra.
    replace (0 + 0 * X / D) with 0 by (field; auto). reflexivity.
  - intros A [B B'] C. cbn. unfold Hb_custom_clay, Hb_cowden. rewrite nonzero_ok by auto. rewrite clamp_n, !clamp_lo by auto.
    replace (235.7 + 0 * L / D) with 235.7 by (field; auto). reflexivity.
  - intros A [B B'] C. cbn. unfold Mb_custom_clay, Mb_cowden. rewrite nonzero_ok by auto. rewrite clamp_n, !clamp_lo by auto. reflexivity.
Qed.

(** Dunkirk sand: same, with at least 8 points for the p-y curve and a non-negative p for the m-t curve. *)
Theorem C44_dunkirk_hooks : forall sig X Dr G0 p D L m, D <> 0 -> L <> 0 -> let d := Dr / 100 in
  ((8 <= m)%nat -> 0.001 <= 8.731 - 0.6982 * d + -0.9178 * X / D -> 0 <= 0.917 + 0.06193 * d <= 0.999 ->
   0.001 <= 0.3667 + 25.89 * d + (0.3375 - 8.9 * d) * X / L ->
   let h := hook_dunkirk_py D L Dr in py_custom_sand sig G0 D (h_X h X) (h_n h X) (h_k h X) (h_Y h X) m = py_dunkirk sig X Dr G0 D L m) /\
  (0 <= p -> 0.001 <= 0.2605 + (-0.1989 + 0.2019 * d) * X / L ->
   let h := hook_dunkirk_mt L Dr in mt_custom_sand sig G0 p D (h_X h X) (h_n h X) (h_k h X) (h_Y h X) m = mt_dunkirk sig X Dr G0 p D L m) /\
  (0.001 <= 6.505 - 2.985 * d + (-0.007969 - 0.4299 * d) * L / D -> 0 <= 0.09978 + 0.7974 * d + (0.004994 - 0.07005 * d) * L / D <= 0.999 ->
   0.001 <= 0.09952 + 0.7996 * d + (0.03988 - 0.1606 * d) * L / D ->
   let h := hook_dunkirk_Hb D L Dr in Hb_custom_sand sig G0 D (h_X h X) (h_n h X) (h_k h X) (h_Y h X) m = Hb_dunkirk sig Dr G0 D L m) /\
  (0 <= 0.3 + 0.4986 * d <= 0.999 -> 0.001 <= 0.09981 + 0.3710 * d + (0.01998 - 0.09041 * d) * L / D ->
   let h := hook_dunkirk_Mb D L Dr in Mb_custom_sand sig G0 D (h_X h X) (h_n h X) (h_k h X) (h_Y h X) m = Mb_dunkirk sig Dr G0 D L m).
Proof.
  intros sig X Dr G0 p D L m HD HL d. split; [|split; [|split]].
  - intros M A [B B'] C. cbn. unfold py_custom_sand, py_dunkirk. cbv zeta. rewrite !nonzero_ok by auto. fold d. rewrite clamp_n, !clamp_lo by auto.
    replace (Nat.max 8 m) with m by lia. reflexivity.
  - intros P A. cbn. unfold mt_custom_sand, mt_dunkirk. cbv zeta. rewrite !nonzero_ok by (auto; replace (17 + 0 * X / D) with 17 by (field; auto); lra).
    replace (17 + 0 * X / D) with 17 by (field; auto). fold d. rewrite !clamp_lo by auto. rewrite (Rabs_right p) by lra. reflexivity.
  - intros A [B B'] C. cbn. unfold Hb_custom_sand, Hb_dunkirk. cbv zeta. rewrite nonzero_ok by auto. fold d. rewrite clamp_n, !clamp_lo by auto. reflexivity.
  - intros [B B'] C. cbn. unfold Mb_custom_sand, Mb_dunkirk. cbv zeta. rewrite nonzero_ok by auto. fold d. rewrite clamp_n, !clamp_lo by auto.
    replace (0.3515 + 0 * L / D) with 0.3515 by (field; auto). reflexivity.
Qed.

(** Over the documented range all clamps are inactive. *)
Theorem C44_clamps_inactive_in_range : forall X Dr D L, 0 < D -> 0 <= X -> X <= L -> 2 * D <= L -> L <= 6 * D -> 0 <= Dr -> Dr <= 100 ->
  let d := Dr / 100 in
  (0.0001 <= 10.6 + -1.650 * X / D /\ 0 <= 0.9390 + -0.03345 * X / D <= 0.999 /\ 0.0001 <= 10.7 + -7.101 * exp (-0.3085 * X / D)) /\
  (0.0001 <= 1.420 + -0.09643 * X / D /\ 0.0001 <= 0.2899 + -0.04775 * X / D) /\
  (0.0001 <= 2.717 + -0.3575 * L / D /\ 0 <= 0.8793 + -0.03150 * L / D <= 0.999 /\ 0.0001 <= 0.4038 + 0.04812 * L / D) /\
  (0.0001 <= 0.2146 + -0.002132 * L / D /\ 0 <= 1.079 + -0.1087 * L / D <= 0.999 /\ 0.0001 <= 0.8192 + -0.08588 * L / D) /\
  (0.001 <= 8.731 - 0.6982 * d + -0.9178 * X / D /\ 0 <= 0.917 + 0.06193 * d <= 0.999 /\ 0.001 <= 0.3667 + 25.89 * d + (0.3375 - 8.9 * d) * X / L) /\
  0.001 <= 0.2605 + (-0.1989 + 0.2019 * d) * X / L /\
  (0.001 <= 6.505 - 2.985 * d + (-0.007969 - 0.4299 * d) * L / D /\ 0 <= 0.09978 + 0.7974 * d + (0.004994 - 0.07005 * d) * L / D <= 0.999 /\
   0.001 <= 0.09952 + 0.7996 * d + (0.03988 - 0.1606 * d) * L / D) /\
  (0 <= 0.3 + 0.4986 * d <= 0.999 /\ 0.001 <= 0.09981 + 0.3710 * d + (0.01998 - 0.09041 * d) * L / D).
Proof.
  intros X Dr D L HD X0 XL L2 L6 D0 D1 d. rewrite !(mulr _ X D), !(mulr _ L D), !(mulr _ X L).
  destruct (frac01 X D 6 HD X0 ltac:(lra)) as [R0 R6]. destruct (frac01 L D 6 HD ltac:(lra) L6) as [_ Q6]. pose proof (frac_ge L D 2 HD L2) as Q2.
  destruct (frac01 X L 1 ltac:(lra) X0 ltac:(lra)) as [T0 T1].
  set (r := X / D) in *. set (q := L / D) in *. set (t := X / L) in *.
  destruct (exp_neg (-0.3085) r ltac:(lra) R0) as [E0 E1]. set (e := exp (-0.3085 * r)) in *.
  assert (d0 : 0 <= d) by (unfold d; lra). assert (d1 : d <= 1) by (unfold d; lra). clearbody d r q t e.
  assert (A1 : 0 <= d * (6 - q)) by (apply Rmult_le_pos; lra). assert (A2 : 0 <= d * (q - 2)) by (apply Rmult_le_pos; lra).
  assert (A3 : 0 <= (1 - d) * (6 - q)) by (apply Rmult_le_pos; lra). assert (A4 : 0 <= (1 - d) * (q - 2)) by (apply Rmult_le_pos; lra).
  assert (A5 : 0 <= d * (1 - t)) by (apply Rmult_le_pos; lra). assert (A6 : 0 <= d * t) by (apply Rmult_le_pos; lra).
  repeat split; lra.
Qed.

Example C44_case : let h := hook_cowden_mt 8 in
  mt_custom_clay 100 50000 8 (h_X h 12) (h_n h 12) (h_k h 12) (h_Y h 12) 15 = mt_cowden 12 100 50000 8 15.
Proof.
  destruct (C44_clamps_inactive_in_range 12 0 8 32) as (_ & (A & B) & _); try lra.
  destruct (C44_cowden_hooks 12 100 50000 8 32 15) as (_ & H & _); [lra|]. exact (H A B).
Qed.

(** Fewer than 8 points: the built-in p-y curve silently has 8, the custom curve has the number asked for. *)
Theorem C44_dunkirk_py_length_refuted : forall sig X Dr G0 D L m xs ys xs' ys', D <> 0 -> L <> 0 -> G0 <> 0 -> (5 <= m)%nat -> (m < 8)%nat ->
  let h := hook_dunkirk_py D L Dr in
  py_custom_sand sig G0 D (h_X h X) (h_n h X) (h_k h X) (h_Y h X) m = Ok (xs, ys) -> py_dunkirk sig X Dr G0 D L m = Ok (xs', ys') ->
  length xs = m /\ length xs' = 8%nat.
Proof.
  intros sig X Dr G0 D L m xs ys xs' ys' HD HL HG M1 M2 h E E'.
  assert (LEN : forall a b c e k num sc u v, (5 <= k)%nat -> scaled (conic a b c e k) num G0 sc = Ok (u, v) -> length u = k).
  { intros a b c e k num sc u v K. unfold scaled, conic. destruct (Req_EM_T a 0); [discriminate|]. replace (k <? 5)%nat with false by (symmetry; apply Nat.ltb_ge; auto).
    cbv zeta. destruct (mapM (conic_point a b (Rmax (e / a) c) e) (conic_x a k)); cbn [bind fst snd]; [|discriminate]. rewrite nonzero_ok by auto.
    intros H. assert (HU : map (fun w => w * (num / G0)) (conic_x a k) = u) by congruence. rewrite <- HU, map_length. unfold conic_x. rewrite !app_length, linspace_length. cbn. lia. }
  split; [exact (LEN _ _ _ _ _ _ _ _ _ M1 E)|]. unfold py_dunkirk in E'. cbv zeta in E'. rewrite !nonzero_ok in E' by auto.
  apply LEN in E'; [|lia]. rewrite E'. lia.
Qed.

(** A negative soil reaction: the built-in m-t curve takes its size, the custom curve its sign. *)
Theorem C44_dunkirk_mt_sign_refuted : forall sig X Dr G0 p D L m, D <> 0 -> L <> 0 -> p < 0 ->
  0.001 <= 0.2605 + (-0.1989 + 0.2019 * (Dr / 100)) * X / L ->
  let h := hook_dunkirk_mt L Dr in
  mt_custom_sand sig G0 (- p) D (h_X h X) (h_n h X) (h_k h X) (h_Y h X) m = mt_dunkirk sig X Dr G0 p D L m /\
  forall xs ys, mt_custom_sand sig G0 (- p) D (h_X h X) (h_n h X) (h_k h X) (h_Y h X) m = Ok (xs, ys) ->
    mt_custom_sand sig G0 p D (h_X h X) (h_n h X) (h_k h X) (h_Y h X) m = Ok (xs, map (option_map Ropp) ys).
Proof.
  intros sig X Dr G0 p D L m HD HL P A h. split.
  - destruct (C44_dunkirk_hooks sig X Dr G0 (- p) D L m HD HL) as (_ & H & _). cbv zeta in H. unfold h. rewrite H by (auto; lra). unfold mt_dunkirk. rewrite Rabs_Ropp. reflexivity.
  - intros xs ys. unfold mt_custom_sand, scaled. destruct (conic _ _ _ _ _) as [[u v]|e]; cbn [bind fst snd]; [|discriminate].
    unfold nonzero. destruct (Req_EM_T G0 0); [discriminate|]. intros H. injection H as <- <-. f_equal. f_equal. rewrite map_map. apply map_ext.
    intros [y|]; cbn; [f_equal; ring|reflexivity].
Qed.

(** Whatever the depth, the hooks give a positive stiffness, a curvature in [0, 1) and a positive resistance. *)
Theorem C44_hooks_always_admissible : forall X D L Dr,
  Forall (fun h => 0 < h_k h X /\ 0 <= h_n h X /\ h_n h X < 1 /\ 0 < h_Y h X)
    [hook_cowden_py D; hook_cowden_mt D; hook_cowden_Hb D L; hook_cowden_Mb D L;
     hook_dunkirk_py D L Dr; hook_dunkirk_mt L Dr; hook_dunkirk_Hb D L Dr; hook_dunkirk_Mb D L Dr].
Proof.
  intros X D L Dr.
  assert (K : forall a x, 0 < a -> 0 < Rmax a x) by (intros a x H; pose proof (Rmax_l a x); lra).
  assert (N : forall x, 0 <= Rmin 0.999 (Rmax 0 x) /\ Rmin 0.999 (Rmax 0 x) < 1).
  { intros x. split; [apply Rmin_glb; [lra|apply Rmax_l]|]. pose proof (Rmin_l 0.999 (Rmax 0 x)). lra. }
  repeat (apply Forall_cons; [cbn; repeat split; try (apply K; lra); try (apply N); lra|]). apply Forall_nil.
Qed.

(** The ultimate displacement is not clamped: a slender pile in dense sand gets a negative one. *)
Theorem C44_hook_displacement_refuted : forall X D L, 0 < D -> 6.4 * D <= L -> h_X (hook_dunkirk_Hb D L 100) X < 0.
Proof.
  intros X D L HD HL. cbn. rewrite (mulr _ L D). pose proof (frac_ge L D 6.4 HD HL). lra.
Qed.

(** ** C52: Dührkop multipliers *)
Theorem C52_multiplier : forall D ra x, 0 < D -> exists v w, durkhop D ra x = Ok v /\ durkhop_normalized D ra x = Ok w /\ 1 <= v /\ v * w = 1.
Proof.
  intros D ra x HD. unfold durkhop, durkhop_normalized. rewrite !nonzero_ok by lra.
  set (A := Rmax 0.9 (ra * (3 - 1.143 * x / D) + 0.343 * x / D)). assert (0.9 <= A) by apply Rmax_l.
  exists (1 / 0.9 * A), (0.9 / A). split; [reflexivity|]. split; [reflexivity|]. split; [lra|]. field. split; lra.
Qed.

(** Non-decreasing in ra down to 3/1.143 diameters. *)
Theorem C52_monotone_in_ra_partial : forall D ra ra' x v v', 0 < D -> 1.143 * x <= 3 * D -> ra <= ra' ->
  durkhop D ra x = Ok v -> durkhop D ra' x = Ok v' -> v <= v'.
Proof.
  intros D ra ra' x v v' HD HX L. unfold durkhop. rewrite !nonzero_ok by lra. intros E E'. injection E as <-. injection E' as <-.
  apply Rmult_le_compat_l; [lra|]. apply Rle_max_compat_l. apply Rplus_le_compat_r. apply Rmult_le_compat_r; [|auto].
  destruct (Rle_lt_dec 0 (3 - 1.143 * x / D)) as [H|H]; [auto|]. apply Rmult_lt_compat_r with (r := D) in H; [|auto].
  replace ((3 - 1.143 * x / D) * D) with (3 * D - 1.143 * x) in H by (field; lra). lra.
Qed.

Example C52_case : exists v v', durkhop 7 0.3 5 = Ok v /\ durkhop 7 1 5 = Ok v' /\ v < v'.
Proof.
  unfold durkhop. rewrite !nonzero_ok by lra. do 2 eexists. split; [reflexivity|]. split; [reflexivity|]. 
  rewrite (Rmax_right 0.9 (1 * _ + _)) by lra. rewrite Rmax_right by lra. lra.
Qed.

(** Deeper, it decreases: at 5 diameters a larger ra gives a smaller multiplier. *)
Theorem C52_monotone_in_ra_refuted : forall D, 0 < D -> exists v v', durkhop D 0.3 (5 * D) = Ok v /\ durkhop D 1 (5 * D) = Ok v' /\ v' < v.
Proof.
  intros D HD. unfold durkhop. rewrite !nonzero_ok by lra. do 2 eexists. split; [reflexivity|]. split; [reflexivity|].
  replace (1.143 * (5 * D) / D) with (1.143 * 5) by (field; lra). replace (0.343 * (5 * D) / D) with (0.343 * 5) by (field; lra).
  rewrite (Rmax_left 0.9 (1 * _ + _)) by lra. rewrite Rmax_right by lra. lra.
Qed.

(** At ra = 0.3 the multiplier is 1 + x/(9000 D): cyclic curves change at every positive depth, by less
    than 0.1 % down to nine diameters. *)
Theorem C52_unchanged_at_default_partial : forall D x, 0 < D -> 0 <= x -> durkhop D 0.3 x = Ok (1 + x / (9000 * D)).
Proof.
  intros D x HD X0. unfold durkhop. rewrite nonzero_ok by lra. f_equal.
  assert (E : 0.3 * (3 - 1.143 * x / D) + 0.343 * x / D = 0.9 + 0.0001 * (x / D)) by (rewrite !(mulr _ x D); lra).
  destruct (frac01 x D (x / D) HD X0 ltac:(right; field; lra)) as [R0 _].
  rewrite E, Rmax_right by lra. replace (x / (9000 * D)) with (x / D / 9000) by (field; lra). lra.
Qed.

Theorem C52_unchanged_at_default_refuted : forall D x, 0 < D -> 0 < x -> exists v, durkhop D 0.3 x = Ok v /\ 1 < v.
Proof.
  intros D x HD X0. exists (1 + x / (9000 * D)). split; [apply C52_unchanged_at_default_partial; lra|].
  assert (0 < x / (9000 * D)) by (apply Rdiv_lt_0_compat; lra). lra.
Qed.

(** At ra = 1 the cyclic factor 0.9 becomes the static factor max(0.9, 3 - 0.8 x/D) of the API curve. *)
Theorem C52_static_at_one : forall D x, 0 < D -> exists v, durkhop D 1 x = Ok v /\ 0.9 * v = Rmax 0.9 (3 - 0.8 * x / D).
Proof.
  intros D x HD. unfold durkhop. rewrite nonzero_ok by lra. eexists. split; [reflexivity|].
  replace (1 * (3 - 1.143 * x / D) + 0.343 * x / D) with (3 - 0.8 * x / D) by (rewrite !(mulr _ x D); lra). lra.
Qed.

Print Assumptions C43_py_bothkennar.
Print Assumptions C43_py_cowden.
Print Assumptions C43_py_dunkirk_partial.
Print Assumptions C43_py_dunkirk_singular_refuted.
Print Assumptions C43_mt_bothkennar.
Print Assumptions C43_mt_cowden_partial.
Print Assumptions C43_mt_dunkirk_partial.
Print Assumptions C43_mt_cowden_origin_refuted.
Print Assumptions C43_mt_dunkirk_origin_refuted.
Print Assumptions C43_Hb_bothkennar.
Print Assumptions C43_Hb_cowden.
Print Assumptions C43_Hb_dunkirk.
Print Assumptions C43_Mb_bothkennar.
Print Assumptions C43_Mb_cowden.
Print Assumptions C43_Mb_dunkirk.
Print Assumptions C44_cowden_hooks.
Print Assumptions C44_dunkirk_hooks.
Print Assumptions C44_clamps_inactive_in_range.
Print Assumptions C44_dunkirk_py_length_refuted.
Print Assumptions C44_dunkirk_mt_sign_refuted.
Print Assumptions C44_hooks_always_admissible.
Print Assumptions C44_hook_displacement_refuted.
Print Assumptions C52_multiplier.
Print Assumptions C52_monotone_in_ra_partial.
Print Assumptions C52_monotone_in_ra_refuted.
Print Assumptions C52_unchanged_at_default_partial.
Print Assumptions C52_unchanged_at_default_refuted.
Print Assumptions C52_static_at_one.
