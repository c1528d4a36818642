From Coq Require Import List Bool Arith ZArith QArith Lia Lqa Setoid Field.
From Verif Require Import Base LinAlg PileModel BeamModel BeamSpec.
Import ListNotations.
Local Open Scope Q_scope.

(** ** Polynomials: the primitive is a primitive *)
Lemma pderiv_prim_from : forall p k, 0 < k -> Forall2 Qeq (pderiv_from k (pprim_from k p)) p.
Proof.
  induction p as [|a p IH]; intros k K; simpl; constructor.
  - field. intro E. rewrite E in K. discriminate.
  - apply IH. lra.
Qed.

Lemma pderiv_prim : forall p, Forall2 Qeq (pderiv (pprim p)) p.
Proof. intros. apply pderiv_prim_from. reflexivity. Qed.

Lemma hermite_interpolates : forall L u, ~ L == 0 ->
  peval (deflection L u) 0 == u 1%nat /\ peval (pderiv (deflection L u)) 0 / L == u 2%nat /\
  peval (deflection L u) 1 == u 4%nat /\ peval (pderiv (deflection L u)) 1 / L == u 5%nat.
Proof. intros L u H. unfold deflection. cbn. repeat split; field; auto. Qed.

(** ** The beam element *)

Ltac unfold_mat := unfold energy, dot, mulv, of_rows; cbn [sum nth].

Lemma mech_bending : forall E I A L phi u, ~ L == 0 -> ~ 1 + phi == 0 ->
  energy 6 (mech_phi E I A L phi) u ==
    A * E / L * ((u 0%nat - u 3%nat) * (u 0%nat - u 3%nat)) +
    E * I / L * ((u 2%nat - u 5%nat) * (u 2%nat - u 5%nat)) +
    12 * E * I / ((1 + phi) * (L * L * L)) *
      ((u 1%nat - u 4%nat + L * (1#2) * (u 2%nat + u 5%nat)) * (u 1%nat - u 4%nat + L * (1#2) * (u 2%nat + u 5%nat))).
Proof. intros. unfold mech_phi. unfold_mat. field. auto. Qed.

Lemma mech_symmetric : forall E I A L phi, symmetric 6 (mech_phi E I A L phi).
Proof.
  intros E I A L phi i j Hi Hj. unfold mech_phi, of_rows.
  do 6 (destruct i as [|i]; [do 6 (destruct j as [|j]; [cbn [nth]; reflexivity|]); lia|]); lia.
Qed.

Lemma mech_equilibrium : forall E I A L phi u, ~ L == 0 -> ~ 1 + phi == 0 ->
  let f := mulv 6 (mech_phi E I A L phi) u in
  f 0%nat + f 3%nat == 0 /\ f 1%nat + f 4%nat == 0 /\ f 2%nat + f 5%nat + L * f 4%nat == 0.
Proof. intros E I A L phi u HL HP f. unfold f, mech_phi. unfold_mat. repeat split; field; auto. Qed.

Lemma mech_rigid : forall E I A L phi a v t u, ~ L == 0 -> ~ 1 + phi == 0 ->
  (forall i, u i == of_list [a; v; t; a; v + L * t; t] i) ->
  forall i, (i < 6)%nat -> mulv 6 (mech_phi E I A L phi) u i == 0.
Proof.
  intros E I A L phi a v t u HL HP HU i Hi.
  assert (X : forall j, u j == of_list [a; v; t; a; v + L * t; t] j) by auto.
  pose proof (X 0%nat) as X0. pose proof (X 1%nat) as X1. pose proof (X 2%nat) as X2.
  pose proof (X 3%nat) as X3. pose proof (X 4%nat) as X4. pose proof (X 5%nat) as X5.
  unfold of_list in *; cbn [nth] in *.
  unfold mech_phi. unfold_mat. rewrite X0, X1, X2, X3, X4, X5.
  do 6 (destruct i as [|i]; [cbn [nth]; field; auto|]).
  lia.
Qed.

(** Clamped at the top node, tip displacements of beam theory produce exactly the tip loads. *)
Lemma mech_cantilever : forall E I A L phi ks P M N u, ~ L == 0 -> ~ 1 + phi == 0 -> ~ E == 0 -> ~ I == 0 -> ~ A == 0 ->
  ks == phi * (L * L) / (12 * (E * I)) ->
  (forall i, u i == of_list [0; 0; 0; N * L / (E * A); tip_deflection (E * I) L ks P M; tip_rotation (E * I) L P M] i) ->
  let f := mulv 6 (mech_phi E I A L phi) u in
  f 3%nat == N /\ f 4%nat == P /\ f 5%nat == M.
Proof.
  intros E I A L phi ks P M N u HL HP HE HI HA KS X f.
  pose proof (X 0%nat) as X0. pose proof (X 1%nat) as X1. pose proof (X 2%nat) as X2.
  pose proof (X 3%nat) as X3. pose proof (X 4%nat) as X4. pose proof (X 5%nat) as X5.
  unfold of_list, tip_deflection, tip_rotation in *; cbn [nth] in *.
  unfold f, mech_phi. unfold_mat. rewrite X0, X1, X2, X3, X4, X5, KS.
  repeat split; field; auto.
Qed.

Lemma square_nonneg : forall x : Q, 0 <= x * x.
Proof. intros. nra. Qed.

Lemma div_nonneg : forall a b, 0 <= a -> 0 < b -> 0 <= a / b.
Proof. intros. apply Qle_shift_div_l; lra. Qed.

Lemma div_pos : forall a b, 0 < a -> 0 < b -> 0 < a / b.
Proof. intros. apply Qlt_shift_div_l; lra. Qed.

Lemma mul_pos : forall a b, 0 < a -> 0 < b -> 0 < a * b.
Proof. intros. nra. Qed.

Lemma mul_nonneg : forall a b, 0 <= a -> 0 <= b -> 0 <= a * b.
Proof. intros. nra. Qed.

Lemma pos_nonzero : forall a, 0 < a -> ~ a == 0.
Proof. intros a H E. rewrite E in H. discriminate. Qed.

Lemma mech_psd : forall E I A L phi, 0 < E -> 0 <= I -> 0 <= A -> 0 < L -> 0 <= phi -> psd 6 (mech_phi E I A L phi).
Proof.
  intros E I A L phi HE HI HA HL HP u.
  rewrite mech_bending; [|apply pos_nonzero; auto|apply pos_nonzero; lra].
  assert (0 <= A * E / L) by (apply div_nonneg; [apply mul_nonneg; lra|auto]).
  assert (0 <= E * I / L) by (apply div_nonneg; [apply mul_nonneg; lra|auto]).
  assert (0 <= 12 * E * I / ((1 + phi) * (L * L * L))).
  { apply div_nonneg; [apply mul_nonneg; [lra|auto]|]. apply mul_pos; [lra|]. repeat apply mul_pos; auto. }
  pose proof (square_nonneg (u 0%nat - u 3%nat)) as S1. pose proof (square_nonneg (u 2%nat - u 5%nat)) as S2.
  pose proof (square_nonneg (u 1%nat - u 4%nat + L * (1#2) * (u 2%nat + u 5%nat))) as S3.
  pose proof (mul_nonneg _ _ H S1). pose proof (mul_nonneg _ _ H0 S2). pose proof (mul_nonneg _ _ H1 S3). lra.
Qed.

(** zero energy only for rigid motions *)
Lemma mech_zero_energy : forall E I A L phi u, 0 < E -> 0 < I -> 0 < A -> 0 < L -> 0 <= phi ->
  energy 6 (mech_phi E I A L phi) u == 0 ->
  u 3%nat == u 0%nat /\ u 5%nat == u 2%nat /\ u 4%nat == u 1%nat + L * u 2%nat.
Proof.
  intros E I A L phi u HE HI HA HL HP EN.
  rewrite mech_bending in EN; [|apply pos_nonzero; auto|apply pos_nonzero; lra].
  assert (0 < A * E / L) by (apply div_pos; [apply mul_pos; lra|auto]).
  assert (0 < E * I / L) by (apply div_pos; [apply mul_pos; lra|auto]).
  assert (0 < 12 * E * I / ((1 + phi) * (L * L * L))).
  { apply div_pos; [apply mul_pos; [lra|auto]|]. apply mul_pos; [lra|]. repeat apply mul_pos; auto. }
  set (x := u 0%nat - u 3%nat) in *. set (y := u 2%nat - u 5%nat) in *.
  set (z := u 1%nat - u 4%nat + L * (1#2) * (u 2%nat + u 5%nat)) in *.
  pose proof (square_nonneg x) as S1. pose proof (square_nonneg y) as S2. pose proof (square_nonneg z) as S3.
  pose proof (mul_nonneg _ _ (Qlt_le_weak _ _ H) S1). pose proof (mul_nonneg _ _ (Qlt_le_weak _ _ H0) S2).
  pose proof (mul_nonneg _ _ (Qlt_le_weak _ _ H1) S3).
  assert (Z : forall c w, 0 < c -> c * (w * w) == 0 -> w == 0).
  { intros c w C W. apply Qmult_integral in W. destruct W as [W|W]; [rewrite W in C; discriminate|].
    apply Qmult_integral in W. destruct W; auto. }
  assert (X0 : x == 0) by (apply (Z _ _ H); lra). assert (Y0 : y == 0) by (apply (Z _ _ H0); lra).
  assert (Z0 : z == 0) by (apply (Z _ _ H1); lra).
  unfold x in X0. unfold y in Y0. unfold z in Z0.
  assert (u 5%nat == u 2%nat) by lra. rewrite H5 in Z0. repeat split; lra.
Qed.

(** Euler-Bernoulli: energy of bending and stretching *)
Lemma eb_variational : forall E I A L u du, ~ L == 0 ->
  dot 6 du (mulv 6 (mech_phi E I A L 0) u) ==
    E * I / (L * L * L) * pint (pmul (pderiv (pderiv (deflection L u))) (pderiv (pderiv (deflection L du)))) +
    E * A / L * pint (pmul (pderiv (axial u)) (pderiv (axial du))).
Proof.
  intros. unfold mech_phi, deflection, axial, pint, pprim. unfold_mat. cbn. field. auto.
Qed.

(** ** Shear coefficient *)

Lemma kappa_denom_pos : forall nu a b, -(3#4) <= nu -> 0 < a ->
  let a2 := a * a in let b2 := b * b in let a4 := a2 * a2 in let b4 := b2 * b2 in
  0 < 7 * a4 + 34 * a2 * b2 + 7 * b4 + nu * (12 * a4 + 48 * a2 * b2 + 12 * b4)
      + nu * nu * (4 * a4 + 16 * a2 * b2 + 4 * b4).
Proof.
  intros nu a b N A a2 b2 a4 b4.
  assert (A2 : 0 < a2) by (unfold a2; apply mul_pos; auto).
  assert (B2 : 0 <= b2) by (unfold b2; apply square_nonneg).
  assert (A4 : 0 < a4) by (unfold a4; apply mul_pos; auto).
  assert (B4 : 0 <= b4) by (unfold b4; apply mul_nonneg; auto).
  assert (AB : 0 <= a2 * b2) by (apply mul_nonneg; lra).
  assert (C1 : 0 < 7 + 12 * nu + 4 * (nu * nu)) by nra.
  assert (C2 : 0 < 34 + 48 * nu + 16 * (nu * nu)) by nra.
  pose proof (mul_pos _ _ C1 A4). pose proof (mul_nonneg _ _ (Qlt_le_weak _ _ C2) AB).
  pose proof (mul_nonneg _ _ (Qlt_le_weak _ _ C1) B4).
  assert (E : 7 * a4 + 34 * a2 * b2 + 7 * b4 + nu * (12 * a4 + 48 * a2 * b2 + 12 * b4)
      + nu * nu * (4 * a4 + 16 * a2 * b2 + 4 * b4) ==
      (7 + 12 * nu + 4 * (nu * nu)) * a4 + (34 + 48 * nu + 16 * (nu * nu)) * (a2 * b2) + (7 + 12 * nu + 4 * (nu * nu)) * b4) by ring.
  rewrite E. lra.
Qed.

Lemma kappa_pos : forall nu d wt, -(3#4) <= nu -> 0 < d -> 0 < tube_kappa nu d wt.
Proof.
  intros nu d wt N D. unfold tube_kappa. apply div_pos.
  - assert (0 < (1#2) * d) by lra. set (a := (1#2) * d) in *. set (b := (1#2) * (d - 2 * wt)).
    assert (0 < a * a) by (apply mul_pos; auto). pose proof (square_nonneg b).
    repeat apply mul_pos; lra.
  - apply kappa_denom_pos; lra.
Qed.

Lemma kappa_below_one : forall nu d wt, 0 <= nu -> nu <= 1#2 -> 0 < d -> tube_kappa nu d wt < 1.
Proof.
  intros nu d wt N N2 D. unfold tube_kappa.
  pose proof (kappa_denom_pos nu ((1#2) * d) ((1#2) * (d - 2 * wt))) as P. cbv zeta in P.
  assert (A : 0 < (1#2) * d) by lra. specialize (P ltac:(lra) A).
  set (a := (1#2) * d) in *. set (b := (1#2) * (d - 2 * wt)) in *.
  apply Qlt_shift_div_r; auto.
  assert (A2 : 0 < a * a) by (apply mul_pos; auto).
  assert (B2 : 0 <= b * b) by (apply square_nonneg).
  set (a2 := a * a) in *. set (b2 := b * b) in *. clear P.
  assert (A4 : 0 < a2 * a2) by (apply mul_pos; auto).
  assert (B4 : 0 <= b2 * b2) by (apply mul_nonneg; auto).
  assert (AB : 0 <= a2 * b2) by (apply mul_nonneg; lra).
  assert (C1 : 0 < 1 - 2 * (nu * nu)) by nra.
  assert (C2 : 0 <= 22 + 24 * nu + 4 * (nu * nu)) by nra.
  pose proof (mul_pos _ _ C1 A4). pose proof (mul_nonneg _ _ C2 AB). pose proof (mul_nonneg _ _ (Qlt_le_weak _ _ C1) B4).
  nra.
Qed.

Lemma kappa_negative : tube_kappa (-(9#10)) 2 1 < 0.
Proof. vm_compute. reflexivity. Qed.

Lemma phi_nonneg : forall E G I A L kappa, 0 < E -> 0 < G -> 0 <= I -> 0 < A -> 0 < L -> 0 <= kappa -> 0 <= phi_of E G I A L kappa.
Proof.
  intros. unfold phi_of. apply div_nonneg.
  - repeat apply mul_nonneg; lra.
  - repeat apply mul_pos; lra.
Qed.

Lemma shear_modulus_pos : forall E nu, 0 < E -> -(1) < nu -> 0 < shear_modulus E nu.
Proof. intros. unfold shear_modulus. apply div_pos; lra. Qed.

(** what the whole element function gives *)
Lemma elem_mech_ok : forall ty c E nu I A d wt L k, 0 < E -> -(3#4) <= nu -> 0 < I -> 0 < A -> 0 < d -> 0 < L ->
  elem_mech ty c E nu I A d wt L = Ok k ->
  exists phi, 0 <= phi /\ k = mech_phi E I A L phi /\
    phi == match ty with EulerBernoulli => 0 | Timoshenko => 12 * E * I * tube_kappa nu d wt / (A * (E / (2 * (1 + nu))) * (L * L)) end.
Proof.
  intros ty c E nu I A d wt L k HE HN HI HA HD HL H. unfold elem_mech, shear_kappa in H.
  pose proof (shear_modulus_pos E nu HE ltac:(lra)) as HG.
  destruct ty; simpl in H.
  - inversion H. eexists. split; [|split; [reflexivity|]].
    + apply phi_nonneg; auto; lra.
    + unfold phi_of. setoid_replace (12 * E * I * 0) with 0 by ring. unfold Qdiv. ring.
  - destruct c; simpl in H; [|discriminate]. inversion H. eexists. split; [|split; [reflexivity|]].
    + apply phi_nonneg; auto; try lra. apply Qlt_le_weak, kappa_pos; auto.
    + unfold phi_of, shear_modulus. assert (Z : 2 + 2 * nu == 2 * (1 + nu)) by ring. rewrite Z. reflexivity.
Qed.

Lemma elem_mech_noncircular : forall E nu I A d wt L, elem_mech Timoshenko false E nu I A d wt L = Err ValueError.
Proof. reflexivity. Qed.

(** Timoshenko is never stiffer *)
Lemma timoshenko_softer : forall E I A L p1 p2 u, 0 < E -> 0 <= I -> 0 < L -> 0 <= p1 -> p1 <= p2 ->
  energy 6 (mech_phi E I A L p2) u <= energy 6 (mech_phi E I A L p1) u.
Proof.
  intros E I A L p1 p2 u HE HI HL HP LE.
  rewrite !mech_bending by (apply pos_nonzero; lra).
  pose proof (square_nonneg (u 1%nat - u 4%nat + L * (1#2) * (u 2%nat + u 5%nat))) as S3.
  set (z := (u 1%nat - u 4%nat + L * (1#2) * (u 2%nat + u 5%nat)) * (u 1%nat - u 4%nat + L * (1#2) * (u 2%nat + u 5%nat))) in *.
  assert (HL3 : 0 < L * L * L) by (repeat apply mul_pos; auto).
  assert (X : 12 * E * I / ((1 + p2) * (L * L * L)) <= 12 * E * I / ((1 + p1) * (L * L * L))).
  { assert (N : 0 <= 12 * E * I) by (apply mul_nonneg; lra).
    assert (P1 : 0 < (1 + p1) * (L * L * L)) by (apply mul_pos; lra).
    assert (P2 : 0 < (1 + p2) * (L * L * L)) by (apply mul_pos; lra).
    apply Qle_shift_div_r; auto.
    assert (Y : 12 * E * I / ((1 + p1) * (L * L * L)) * ((1 + p2) * (L * L * L)) == 12 * E * I * ((1 + p2) / (1 + p1))).
    { field. split; apply pos_nonzero; lra. }
    rewrite Y. assert (W : 1 <= (1 + p2) / (1 + p1)) by (apply Qle_shift_div_l; lra). nra. }
  nra.
Qed.

(** Shear flexibility of the code and of theory (k A G with Hutchinson's coefficient k). *)
Lemma code_shear_flexibility : forall E nu I A d wt L, 0 < E -> -(1) < nu -> 0 < I -> 0 < A -> 0 < L ->
  phi_of E (shear_modulus E nu) I A L (tube_kappa nu d wt) * (L * L) / (12 * (E * I)) ==
  tube_kappa nu d wt / (A * shear_modulus E nu).
Proof.
  intros E nu I A d wt L HE HN HI HA HL. pose proof (shear_modulus_pos E nu HE HN) as HG.
  unfold phi_of. set (G := shear_modulus E nu) in *. set (k := tube_kappa nu d wt). field.
  repeat split; apply pos_nonzero; auto.
Qed.

Lemma shear_flexibility_small : forall E nu I A d wt L, 0 < E -> 0 <= nu -> nu <= 1#2 -> 0 < I -> 0 < A -> 0 < d -> 0 < L ->
  phi_of E (shear_modulus E nu) I A L (tube_kappa nu d wt) * (L * L) / (12 * (E * I)) <
  1 / (tube_kappa nu d wt * A * shear_modulus E nu).
Proof.
  intros E nu I A d wt L HE HN HN2 HI HA HD HL.
  pose proof (shear_modulus_pos E nu HE ltac:(lra)) as HG.
  rewrite code_shear_flexibility by (try assumption; lra).
  pose proof (kappa_pos nu d wt ltac:(lra) HD) as K0. pose proof (kappa_below_one nu d wt HN HN2 HD) as K1.
  set (k := tube_kappa nu d wt) in *. set (G := shear_modulus E nu) in *. clearbody k G.
  assert (AG : 0 < A * G) by (apply mul_pos; auto). assert (KAG : 0 < k * A * G) by (repeat apply mul_pos; auto).
  apply Qlt_shift_div_l; auto.
  assert (X : k / (A * G) * (k * A * G) == k * k). { field. split; apply pos_nonzero; auto. }
  rewrite X. nra.
Qed.

(** ** Lateral soil matrix *)

Lemma py_consistent : forall L kt kb u du,
  dot 6 du (mulv 6 (elem_py L kt kb) u) ==
  L * pint (pmul (linear_k kt kb) (pmul (deflection L u) (deflection L du))).
Proof. intros. unfold elem_py, deflection, linear_k, pint, pprim. unfold_mat. cbn. field. Qed.

Lemma py_symmetric : forall L kt kb, symmetric 6 (elem_py L kt kb).
Proof.
  intros L kt kb i j Hi Hj. unfold elem_py, of_rows.
  do 6 (destruct i as [|i]; [do 6 (destruct j as [|j]; [cbn [nth]; reflexivity|]); lia|]); lia.
Qed.

Definition sq (x : Q) : Q := x * x.

Lemma py_squares : forall L kt kb u,
  let v1 := u 1%nat in let t1 := L * u 2%nat in let v2 := u 4%nat in let t2 := L * u 5%nat in
  energy 6 (elem_py L kt kb) u ==
    (kt * L) * ((2#7) * sq (v1 + (1#8) * t1 + (9#40) * v2 - (7#120) * t2) + (1#672) * sq (t1 + (21#5) * v2 - t2)
                + (9#200) * sq (v2 - (4#27) * t2) + (1#8100) * sq t2)
  + (kb * L) * ((3#35) * sq (v1 + (7#36) * t1 + (3#4) * v2 - (1#6) * t2) + (1#3024) * sq (t1 + (63#5) * v2 - (12#5) * t2)
                + (37#200) * sq (v2 - (3#37) * t2) + (1#2220) * sq t2).
Proof. intros. unfold v1, t1, v2, t2, sq, elem_py. unfold_mat. field. Qed.

Lemma py_psd : forall L kt kb, 0 <= L -> 0 <= kt -> 0 <= kb -> psd 6 (elem_py L kt kb).
Proof.
  intros L kt kb HL HT HB u. rewrite py_squares. cbv zeta. unfold sq.
  assert (S : forall x, 0 <= x * x) by apply square_nonneg.
  assert (K1 : 0 <= kt * L) by (apply mul_nonneg; auto). assert (K2 : 0 <= kb * L) by (apply mul_nonneg; auto).
  match goal with |- 0 <= kt * L * ?a + kb * L * ?b => assert (A : 0 <= a); [|assert (B : 0 <= b)] end.
  1,2: repeat match goal with |- context [?x * ?x] => pose proof (S x); set (x * x) in * end; lra.
  pose proof (mul_nonneg _ _ K1 A). pose proof (mul_nonneg _ _ K2 B). lra.
Qed.

(** positive definite: a spring at either end resists every deflection of the element *)
Lemma py_definite : forall L kt kb u, 0 < L -> 0 <= kt -> 0 <= kb -> 0 < kt + kb -> energy 6 (elem_py L kt kb) u == 0 ->
  u 1%nat == 0 /\ u 2%nat == 0 /\ u 4%nat == 0 /\ u 5%nat == 0.
Proof.
  intros L kt kb u HL HT HB HS EN. rewrite py_squares in EN. cbv zeta in EN.
  assert (S : forall x, 0 <= sq x) by apply square_nonneg.
  assert (Z : forall x, sq x == 0 -> x == 0). { intros x X. apply Qmult_integral in X. destruct X; auto. }
  assert (T : forall x, L * x == 0 -> x == 0). { intros x X. apply Qmult_integral in X. destruct X as [X|]; auto. rewrite X in HL. discriminate. }
  match type of EN with kt * L * ?a + kb * L * ?b == 0 => set (a' := a) in *; set (b' := b) in * end.
  assert (A : 0 <= a') by (unfold a'; repeat match goal with |- context [sq ?x] => pose proof (S x); set (sq x) in * end; lra).
  assert (B : 0 <= b') by (unfold b'; repeat match goal with |- context [sq ?x] => pose proof (S x); set (sq x) in * end; lra).
  assert (K1 : 0 <= kt * L) by (apply mul_nonneg; lra). assert (K2 : 0 <= kb * L) by (apply mul_nonneg; lra).
  pose proof (mul_nonneg _ _ K1 A). pose proof (mul_nonneg _ _ K2 B).
  destruct (Qlt_le_dec 0 kt) as [P|P].
  - assert (K3 : 0 < kt * L) by (apply mul_pos; auto).
    assert (A0 : a' == 0). { assert (X : kt * L * a' == 0) by lra. apply Qmult_integral in X. destruct X as [X|]; auto. rewrite X in K3. discriminate. }
    unfold a' in A0.
    pose proof (S (u 1%nat + (1 # 8) * (L * u 2%nat) + (9 # 40) * u 4%nat - (7 # 120) * (L * u 5%nat))).
    pose proof (S (L * u 2%nat + (21 # 5) * u 4%nat - L * u 5%nat)). pose proof (S (u 4%nat - (4 # 27) * (L * u 5%nat))). pose proof (S (L * u 5%nat)).
    assert (Z1 : sq (L * u 5%nat) == 0) by lra. assert (Z2 : sq (u 4%nat - (4 # 27) * (L * u 5%nat)) == 0) by lra.
    assert (Z3 : sq (L * u 2%nat + (21 # 5) * u 4%nat - L * u 5%nat) == 0) by lra.
    assert (Z4 : sq (u 1%nat + (1 # 8) * (L * u 2%nat) + (9 # 40) * u 4%nat - (7 # 120) * (L * u 5%nat)) == 0) by lra.
    apply Z in Z1, Z2, Z3, Z4. rewrite Z1 in *. assert (V2 : u 4%nat == 0) by lra. rewrite V2 in *.
    assert (T1 : L * u 2%nat == 0) by lra. rewrite T1 in *. repeat split; auto; lra.
  - assert (K3 : 0 < kb * L) by (apply mul_pos; lra).
    assert (B0 : b' == 0). { assert (X : kb * L * b' == 0) by lra. apply Qmult_integral in X. destruct X as [X|]; auto. rewrite X in K3. discriminate. }
    unfold b' in B0.
    pose proof (S (u 1%nat + (7 # 36) * (L * u 2%nat) + (3 # 4) * u 4%nat - (1 # 6) * (L * u 5%nat))).
    pose proof (S (L * u 2%nat + (63 # 5) * u 4%nat - (12 # 5) * (L * u 5%nat))). pose proof (S (u 4%nat - (3 # 37) * (L * u 5%nat))). pose proof (S (L * u 5%nat)).
    assert (Z1 : sq (L * u 5%nat) == 0) by lra. assert (Z2 : sq (u 4%nat - (3 # 37) * (L * u 5%nat)) == 0) by lra.
    assert (Z3 : sq (L * u 2%nat + (63 # 5) * u 4%nat - (12 # 5) * (L * u 5%nat)) == 0) by lra.
    assert (Z4 : sq (u 1%nat + (7 # 36) * (L * u 2%nat) + (3 # 4) * u 4%nat - (1 # 6) * (L * u 5%nat)) == 0) by lra.
    apply Z in Z1, Z2, Z3, Z4. rewrite Z1 in *. assert (V2 : u 4%nat == 0) by lra. rewrite V2 in *.
    assert (T1 : L * u 2%nat == 0) by lra. rewrite T1 in *. repeat split; auto; lra.
Qed.

Lemma py_translation : forall L kt kb u, (forall i, u i == of_list [0; 1; 0; 0; 1; 0] i) ->
  let f := mulv 6 (elem_py L kt kb) u in f 1%nat + f 4%nat == L * (kt + kb) / 2 /\ f 0%nat == 0 /\ f 3%nat == 0.
Proof.
  intros L kt kb u X f.
  pose proof (X 0%nat) as X0. pose proof (X 1%nat) as X1. pose proof (X 2%nat) as X2.
  pose proof (X 3%nat) as X3. pose proof (X 4%nat) as X4. pose proof (X 5%nat) as X5.
  unfold of_list in *; cbn [nth] in *. unfold f, elem_py. unfold_mat. rewrite X0, X1, X2, X3, X4, X5.
  repeat split; field.
Qed.

(** ** Axial soil matrix *)

Lemma tz_consistent : forall L kt kb u du,
  dot 6 du (mulv 6 (elem_tz L kt kb) u) ==
  L * pint (pmul (linear_k kt kb) (pmul (axial u) (axial du))).
Proof. intros. unfold elem_tz, axial, linear_k, pint, pprim. unfold_mat. cbn. field. Qed.

Lemma tz_symmetric : forall L kt kb, symmetric 6 (elem_tz L kt kb).
Proof.
  intros L kt kb i j Hi Hj. unfold elem_tz, of_rows.
  do 6 (destruct i as [|i]; [do 6 (destruct j as [|j]; [cbn [nth]; reflexivity|]); lia|]); lia.
Qed.

Lemma tz_psd : forall L kt kb, 0 <= L -> 0 <= kt -> 0 <= kb -> psd 6 (elem_tz L kt kb).
Proof.
  intros L kt kb HL HT HB u.
  assert (E : energy 6 (elem_tz L kt kb) u ==
     kt * L * (1#6) * (u 0%nat * u 0%nat) + (kt + kb) * L * (1#12) * ((u 0%nat + u 3%nat) * (u 0%nat + u 3%nat)) + kb * L * (1#6) * (u 3%nat * u 3%nat)).
  { unfold elem_tz. unfold_mat. field. }
  rewrite E. pose proof (mul_nonneg _ _ HT HL). pose proof (mul_nonneg _ _ HB HL).
  assert (K : 0 <= (kt + kb) * L) by (apply mul_nonneg; lra).
  pose proof (mul_nonneg (kt * L * (1#6)) _ ltac:(lra) (square_nonneg (u 0%nat))).
  pose proof (mul_nonneg ((kt + kb) * L * (1#12)) _ ltac:(lra) (square_nonneg (u 0%nat + u 3%nat))).
  pose proof (mul_nonneg (kb * L * (1#6)) _ ltac:(lra) (square_nonneg (u 3%nat))). lra.
Qed.

Lemma tz_translation : forall L kt kb u, (forall i, u i == of_list [1; 0; 0; 1; 0; 0] i) ->
  let f := mulv 6 (elem_tz L kt kb) u in f 0%nat + f 3%nat == L * (kt + kb) / 2.
Proof.
  intros L kt kb u X f.
  pose proof (X 0%nat) as X0. pose proof (X 1%nat) as X1. pose proof (X 2%nat) as X2.
  pose proof (X 3%nat) as X3. pose proof (X 4%nat) as X4. pose proof (X 5%nat) as X5.
  unfold of_list in *; cbn [nth] in *. unfold f, elem_tz. unfold_mat. rewrite X0, X1, X2, X3, X4, X5. field.
Qed.

(** ** Rotational soil matrix *)

Lemma mt_symmetric : forall c kt kb, symmetric 6 (mt_matrix c kt kb).
Proof.
  intros [[[A B] C] D] kt kb i j Hi Hj. unfold mt_matrix, of_rows.
  do 6 (destruct i as [|i]; [do 6 (destruct j as [|j]; [cbn [nth]; reflexivity|]); lia|]); lia.
Qed.

Lemma mt_eb_consistent : forall w a l L kt kb u du, ~ L == 0 ->
  dot 6 du (mulv 6 (mt_matrix (mt_coefs EulerBernoulli w a l L) kt kb) u) ==
  (kt + kb) / 2 / L * pint (pmul (pderiv (deflection L u)) (pderiv (deflection L du))).
Proof. intros. unfold mt_matrix, mt_coefs, deflection, pint, pprim. unfold_mat. cbn. field. auto. Qed.

Lemma mt_eb_psd : forall w a l L kt kb, 0 < L -> 0 <= kt -> 0 <= kb -> psd 6 (mt_matrix (mt_coefs EulerBernoulli w a l L) kt kb).
Proof.
  intros w a l L kt kb HL HT HB u.
  assert (E : energy 6 (mt_matrix (mt_coefs EulerBernoulli w a l L) kt kb) u ==
    (kt + kb) / 2 / L * ((6#5) * sq (u 1%nat - u 4%nat + (1#12) * (L * u 2%nat + L * u 5%nat))
       + (1#12) * sq (L * u 2%nat - L * u 5%nat) + (1#24) * sq (L * u 2%nat + L * u 5%nat))).
  { unfold sq, mt_matrix, mt_coefs. unfold_mat. field. apply pos_nonzero; auto. }
  rewrite E. apply mul_nonneg.
  - apply div_nonneg; auto. apply div_nonneg; lra.
  - unfold sq. pose proof (square_nonneg (u 1%nat - u 4%nat + (1#12) * (L * u 2%nat + L * u 5%nat))).
    pose proof (square_nonneg (L * u 2%nat - L * u 5%nat)). pose proof (square_nonneg (L * u 2%nat + L * u 5%nat)). lra.
Qed.

Lemma mt_translation : forall c kt kb v u i, (forall i, u i == of_list [0; v; 0; 0; v; 0] i) -> (i < 6)%nat ->
  mulv 6 (mt_matrix c kt kb) u i == 0.
Proof.
  intros [[[A B] C] D] kt kb v u i X Hi.
  pose proof (X 0%nat) as X0. pose proof (X 1%nat) as X1. pose proof (X 2%nat) as X2.
  pose proof (X 3%nat) as X3. pose proof (X 4%nat) as X4. pose proof (X 5%nat) as X5.
  unfold of_list in *; cbn [nth] in *. unfold mt_matrix. unfold_mat. rewrite X0, X1, X2, X3, X4, X5.
  do 6 (destruct i as [|i]; [cbn [nth]; ring|]). lia.
Qed.

(** unit rigid rotation about the top node *)
Lemma mt_rotation : forall A B C D L kt kb u, (forall i, u i == of_list [0; 0; 1; 0; L; 1] i) ->
  let f := mulv 6 (mt_matrix (A, B, C, D) kt kb) u in
  f 4%nat == (A * L - 2 * B) * ((kt + kb) / 2) /\ f 2%nat + f 5%nat == 2 * (C + D - B * L) * ((kt + kb) / 2).
Proof.
  intros A B C D L kt kb u X f.
  pose proof (X 0%nat) as X0. pose proof (X 1%nat) as X1. pose proof (X 2%nat) as X2.
  pose proof (X 3%nat) as X3. pose proof (X 4%nat) as X4. pose proof (X 5%nat) as X5.
  unfold of_list in *; cbn [nth] in *. unfold f, mt_matrix. unfold_mat. rewrite X0, X1, X2, X3, X4, X5.
  split; field.
Qed.

Lemma mt_eb_rotation : forall w a l L kt kb u, ~ L == 0 -> (forall i, u i == of_list [0; 0; 1; 0; L; 1] i) ->
  let f := mulv 6 (mt_matrix (mt_coefs EulerBernoulli w a l L) kt kb) u in
  f 2%nat + f 5%nat + L * f 4%nat == L * ((kt + kb) / 2) /\ f 4%nat == (kt + kb) / 2.
Proof.
  intros w a l L kt kb u HL X f. unfold f, mt_coefs.
  destruct (mt_rotation (6 / (5 * L)) (1 # 10) (2 * L / 15) (- L / 30) L kt kb u X) as [F4 F25]. cbv zeta in *.
  rewrite F25, F4. split; field; auto.
Qed.

Definition new_A (omega I area L : Q) : Q :=
  6 * (120 * (omega * omega) + 20 * omega + 1) / ((5 * L) * ((12 * omega + 1) * (12 * omega + 1)))
  + 12 * I / (area * (L * L * L) * ((12 * omega + 1) * (12 * omega + 1))).

Lemma mt_timo_shear : forall omega I area L, 0 <= omega -> 0 < I -> 0 < area -> 0 < L ->
  let '(A, B, C, D) := mt_coefs Timoshenko omega I area L in
  A == new_A omega I area L /\ (A * L - 2 * B == 1 <-> A == area).
Proof.
  intros w I a L HW HI HA HL. cbv beta iota zeta delta [mt_coefs].
  fold (new_A w I a L). split; [reflexivity|].
  set (ph := (12 * w + 1) * (12 * w + 1)) in *.
  assert (PH : 0 < ph) by (unfold ph; apply mul_pos; lra).
  assert (NA : 0 < new_A w I a L).
  { unfold new_A. fold ph. clearbody ph. assert (0 < 12 * I / (a * (L * L * L) * ph)).
    { apply div_pos; [lra|]. repeat apply mul_pos; auto. }
    assert (0 < 6 * (120 * (w * w) + 20 * w + 1) / (5 * L * ph)).
    { apply div_pos; [|repeat apply mul_pos; lra]. pose proof (square_nonneg w). lra. }
    lra. }
  set (N := new_A w I a L) in *.
  assert (E : N * L - 2 * (1 / (10 * ph) + 6 * I / (N * (L * L) * ph)) == 1 + 12 * I / (L * L * ph) * (1 / a - 1 / N)).
  { assert (E1 : N * L == (1 + 2 / (10 * ph)) + 12 * I / (L * L * ph) / a).
    { unfold N, new_A. fold ph. unfold ph. field. repeat split; apply pos_nonzero; auto. lra. }
    rewrite E1. field. repeat split; apply pos_nonzero; auto. }
  rewrite E. clear E. clearbody N ph.
  assert (C : 0 < 12 * I / (L * L * ph)). { apply div_pos; [lra|]. repeat apply mul_pos; auto. }
  split.
  - intro H. assert (Z : 12 * I / (L * L * ph) * (1 / a - 1 / N) == 0) by lra.
    apply Qmult_integral in Z. destruct Z as [Z|Z]; [rewrite Z in C; discriminate|].
    assert (Y : 1 / a == 1 / N) by lra.
    assert (Y2 : 1 / a * (a * N) == 1 / N * (a * N)) by (rewrite Y; reflexivity).
    assert (Y3 : 1 / a * (a * N) == N) by (field; apply pos_nonzero; auto).
    assert (Y4 : 1 / N * (a * N) == a) by (field; apply pos_nonzero; auto). lra.
  - intro H. rewrite H. ring.
Qed.

Lemma mech_phi_comp : forall E I A L p p', p == p' -> forall i j, (i < 6)%nat -> (j < 6)%nat ->
  mech_phi E I A L p i j == mech_phi E I A L p' i j.
Proof.
  intros E I A L p p' H i j Hi Hj. unfold mech_phi, of_rows.
  do 6 (destruct i as [|i]; [do 6 (destruct j as [|j]; [cbn [nth]; rewrite ?H; reflexivity|]); lia|]); lia.
Qed.

Lemma elem_mech_sound : forall ty c E nu I A d wt L k, 0 < E -> -(3#4) <= nu -> 0 < I -> 0 < A -> 0 < d -> 0 < L ->
  elem_mech ty c E nu I A d wt L = Ok k ->
  symmetric 6 k /\ psd 6 k /\
  (forall a v t i, (i < 6)%nat -> mulv 6 k (of_list [a; v; t; a; v + L * t; t]) i == 0) /\
  (forall u, energy 6 k u == 0 -> u 3%nat == u 0%nat /\ u 5%nat == u 2%nat /\ u 4%nat == u 1%nat + L * u 2%nat) /\
  (forall u, let f := mulv 6 k u in f 0%nat + f 3%nat == 0 /\ f 1%nat + f 4%nat == 0 /\ f 2%nat + f 5%nat + L * f 4%nat == 0).
Proof.
  intros ty c E nu I A d wt L k HE HN HI HA HD HL H.
  destruct (elem_mech_ok ty c E nu I A d wt L k) as (phi & P & -> & _); auto.
  assert (L0 : ~ L == 0) by (apply pos_nonzero; auto). assert (P0 : ~ 1 + phi == 0) by (apply pos_nonzero; lra).
  split; [apply mech_symmetric|]. split; [apply mech_psd; auto; lra|].
  split. { intros. eapply mech_rigid; eauto. intros; reflexivity. }
  split. { intros u EN. apply (mech_zero_energy E I A L phi u); auto. }
  intros u. apply mech_equilibrium; auto.
Qed.

Lemma elem_mech_cantilever : forall ty c E nu I A d wt L k P M N, 0 < E -> -(3#4) <= nu -> 0 < I -> 0 < A -> 0 < d -> 0 < L ->
  elem_mech ty c E nu I A d wt L = Ok k ->
  let ks := match ty with EulerBernoulli => 0 | Timoshenko => tube_kappa nu d wt / (A * (E / (2 * (1 + nu)))) end in
  let u := of_list [0; 0; 0; N * L / (E * A); tip_deflection (E * I) L ks P M; tip_rotation (E * I) L P M] in
  mulv 6 k u 3%nat == N /\ mulv 6 k u 4%nat == P /\ mulv 6 k u 5%nat == M.
Proof.
  intros ty c E nu I A d wt L k P M N HE HN HI HA HD HL H ks u.
  destruct (elem_mech_ok ty c E nu I A d wt L k) as (phi & HP & -> & EP); auto.
  apply (mech_cantilever E I A L phi ks P M N u); try (apply pos_nonzero; lra).
  - unfold ks. destruct ty; rewrite EP.
    + field. split; apply pos_nonzero; auto.
    + set (kp := tube_kappa nu d wt). clearbody kp. field. repeat split; apply pos_nonzero; lra.
  - intros; reflexivity.
Qed.

Lemma elem_eb_variational : forall c E nu I A d wt L k u du, 0 < L -> 0 < E -> -(1) < nu -> 0 < A ->
  elem_mech EulerBernoulli c E nu I A d wt L = Ok k ->
  dot 6 du (mulv 6 k u) ==
    E * I / (L * L * L) * pint (pmul (pderiv (pderiv (deflection L u))) (pderiv (pderiv (deflection L du)))) +
    E * A / L * pint (pmul (pderiv (axial u)) (pderiv (axial du))).
Proof.
  intros c E nu I A d wt L k u du HL HE HN HA H. unfold elem_mech in H. simpl in H. inversion H; subst k.
  rewrite <- (eb_variational E I A L u du) by (apply pos_nonzero; auto).
  assert (Z : phi_of E (shear_modulus E nu) I A L 0 == 0).
  { unfold phi_of. setoid_replace (12 * E * I * 0) with 0 by ring. unfold Qdiv. ring. }
  unfold dot. apply sum_ext. intros i Hi. rewrite (mulv_ext 6 _ (mech_phi E I A L 0) u u i); [reflexivity| |].
  - intros j Hj. apply mech_phi_comp; auto.
  - intros; reflexivity.
Qed.

Lemma elem_timo_softer : forall E nu I A d wt L kt ke c u, 0 < E -> -(3#4) <= nu -> 0 < I -> 0 < A -> 0 < d -> 0 < L ->
  elem_mech Timoshenko true E nu I A d wt L = Ok kt -> elem_mech EulerBernoulli c E nu I A d wt L = Ok ke ->
  energy 6 kt u <= energy 6 ke u.
Proof.
  intros E nu I A d wt L kt ke c u HE HN HI HA HD HL HT HEb.
  destruct (elem_mech_ok _ _ _ _ _ _ _ _ _ _ HE HN HI HA HD HL HT) as (p1 & P1 & -> & _).
  destruct (elem_mech_ok _ _ _ _ _ _ _ _ _ _ HE HN HI HA HD HL HEb) as (p2 & P2 & -> & E2).
  apply timoshenko_softer; auto; lra.
Qed.

Lemma negative_energy : exists E nu d wt L k u, 0 < E /\ -(1) < nu /\ nu <= 1#2 /\ 0 < wt /\ 2 * wt <= d /\ 0.01 <= L /\
  elem_mech Timoshenko true E nu (circ_inertia d wt) (circ_area d wt) d wt L = Ok k /\ energy 6 k u < 0.
Proof.
  exists 1, (-(9#10)), 2, 1, (1#5). eexists.
  exists (of_list [0; 1; 0; 0; 0; 0]).
  split; [reflexivity|]. split; [reflexivity|]. split; [vm_compute; discriminate|]. split; [reflexivity|].
  split; [vm_compute; discriminate|]. split; [vm_compute; discriminate|]. split; [reflexivity|]. vm_compute. reflexivity.
Qed.

Lemma elem_mt_eb : forall c E nu I A d wt L kt kb k, elem_mt EulerBernoulli c E nu I A d wt L kt kb = Ok k ->
  exists w a l, k = mt_matrix (mt_coefs EulerBernoulli w a l L) kt kb.
Proof. intros. unfold elem_mt in H. simpl in H. inversion H. exists 0, I, A. reflexivity. Qed.

Lemma elem_mt_eb_sound : forall c E nu I A d wt L kt kb k, 0 < L -> elem_mt EulerBernoulli c E nu I A d wt L kt kb = Ok k ->
  (forall u du, dot 6 du (mulv 6 k u) == (kt + kb) / 2 / L * pint (pmul (pderiv (deflection L u)) (pderiv (deflection L du)))) /\
  (0 <= kt -> 0 <= kb -> psd 6 k) /\
  (let f := mulv 6 k (of_list [0; 0; 1; 0; L; 1]) in
   f 2%nat + f 5%nat + L * f 4%nat == L * ((kt + kb) / 2) /\ f 4%nat == (kt + kb) / 2).
Proof.
  intros c E nu I A d wt L kt kb k HL H. destruct (elem_mt_eb _ _ _ _ _ _ _ _ _ _ _ H) as (w & a & l & ->).
  assert (L0 : ~ L == 0) by (apply pos_nonzero; auto).
  split; [intros; apply mt_eb_consistent; auto|]. split; [intros; apply mt_eb_psd; auto|].
  apply mt_eb_rotation; auto. intros; reflexivity.
Qed.

Lemma elem_mt_any : forall ty c E nu I A d wt L kt kb k, elem_mt ty c E nu I A d wt L kt kb = Ok k ->
  symmetric 6 k /\ forall v i, (i < 6)%nat -> mulv 6 k (of_list [0; v; 0; 0; v; 0]) i == 0.
Proof.
  intros ty c E nu I A d wt L kt kb k H. unfold elem_mt in H.
  destruct (shear_kappa ty c nu d wt); [|discriminate]. simpl in H. inversion H.
  split; [apply mt_symmetric|]. intros. eapply mt_translation; eauto. intros; reflexivity.
Qed.

Lemma elem_mt_timo_iff : forall E nu I A d wt L kt kb k, 0 < E -> -(3#4) <= nu -> 0 < I -> 0 < A -> 0 < d -> 0 < L -> 0 < kt + kb ->
  elem_mt Timoshenko true E nu I A d wt L kt kb = Ok k ->
  (mulv 6 k (of_list [0; 0; 1; 0; L; 1]) 4%nat == (kt + kb) / 2 <->
   new_A (E * I * tube_kappa nu d wt / (A * shear_modulus E nu * (L * L))) I A L == A).
Proof.
  intros E nu I A d wt L kt kb k HE HN HI HA HD HL HK H. unfold elem_mt in H. simpl bind in H.
  pose proof (shear_modulus_pos E nu HE ltac:(lra)) as HG. pose proof (kappa_pos nu d wt HN HD) as K0.
  set (w := E * I * tube_kappa nu d wt / (A * shear_modulus E nu * (L * L))) in *.
  assert (W : 0 <= w).
  { unfold w. set (G := shear_modulus E nu) in *. set (kp := tube_kappa nu d wt) in *. clearbody G kp.
    apply div_nonneg; [repeat apply mul_nonneg; lra|repeat apply mul_pos; auto]. }
  pose proof (mt_timo_shear w I A L W HI HA HL) as T.
  assert (EK : k = mt_matrix (mt_coefs Timoshenko w I A L) kt kb) by (injection H as <-; reflexivity).
  subst k. clear H. destruct (mt_coefs Timoshenko w I A L) as [[[a b] cc] dd]. destruct T as [EA IFF].
  assert (R := mt_rotation a b cc dd L kt kb (of_list [0; 0; 1; 0; L; 1]) (fun i => Qeq_refl _)). destruct R as [R _].
  rewrite R. rewrite <- EA. rewrite <- IFF.
  assert (KH : 0 < (kt + kb) / 2) by (apply div_pos; [auto|reflexivity]).
  set (q := (kt + kb) / 2) in *. clearbody q. split; intro X; [|rewrite X; ring].
  assert (Z : (a * L - 2 * b - 1) * q == 0) by lra. apply Qmult_integral in Z. destruct Z as [Z|Z]; [lra|].
  rewrite Z in KH. discriminate.
Qed.

(** m-t matrix of a Timoshenko steel tube, 2 m diameter, 50 mm wall, 1 m element *)
Lemma mt_timo_wrong : exists E nu d wt L k, 0 < E /\ 0 < nu /\ nu <= 1#2 /\ 0 < wt /\ 2 * wt < d /\ 0 < L /\
  elem_mt Timoshenko true E nu (circ_inertia d wt) (circ_area d wt) d wt L 1 1 = Ok k /\
  ~ mulv 6 k (of_list [0; 0; 1; 0; L; 1]) 4%nat == 1.
Proof.
  exists 210000000, (3#10), 2, (1#20), 1. eexists.
  split; [reflexivity|]. split; [reflexivity|]. split; [vm_compute; discriminate|]. split; [reflexivity|]. split; [reflexivity|].
  split; [reflexivity|]. split; [reflexivity|]. intro X.
  assert (Y : 1 == (1 + 1) / 2) by reflexivity. apply (fun H => Qeq_trans _ _ _ H Y) in X.
  eapply (elem_mt_timo_iff 210000000 (3#10) (circ_inertia 2 (1#20)) (circ_area 2 (1#20)) 2 (1#20) 1 1 1) in X;
    [|reflexivity|vm_compute; discriminate|reflexivity|reflexivity|reflexivity|reflexivity|reflexivity|reflexivity].
  revert X. apply Qeq_bool_neq. vm_compute. reflexivity.
Qed.

(** In steps that keep the numbers short *)
Lemma push_energy : forall A B C D, energy 6 (mt_matrix (A, B, C, D) 1 1) (of_list [0; 0; 1; 0; 5; 1]) == 25 * A - 20 * B + 2 * C + 2 * D.
Proof. intros. unfold energy, dot, mulv, mt_matrix, of_rows, of_list. cbn [sum nth]. ring. Qed.
Definition push_phi (w : Q) : Q := (12 * w + 1) * (12 * w + 1).
Definition push_A (w I a L : Q) : Q := 6 * (120 * (w * w) + 20 * w + 1) / ((5 * L) * push_phi w) + 12 * I / (a * (L * L * L) * push_phi w).
Definition push_B (w I A L : Q) : Q := 1 / (10 * push_phi w) + 6 * I / (A * (L * L) * push_phi w).
Definition push_C (w I A L : Q) : Q := (2 * L * (90 * (w * w) + 15 * w + 1)) / (15 * push_phi w) + 4 * I * (36 * (w * w) + 6 * w + 1) / (A * L * push_phi w).
Definition push_D (w I A L : Q) : Q := - L * (360 * (w * w) + 60 * w + 1) / (30 * push_phi w) - 2 * I * (72 * (w * w) + 12 * w - 1) / (A * L * push_phi w).
Lemma push_coefs : forall w I a L, mt_coefs Timoshenko w I a L = (push_A w I a L, push_B w I (push_A w I a L) L, push_C w I (push_A w I a L) L, push_D w I (push_A w I a L) L).
Proof. reflexivity. Qed.
Definition push_w : Q := 12986073 # 96472375.
Definition push_I : Q := 139893051546362401 # 35184372088832000.
Definition push_a : Q := 1237991606604977 # 175921860444160.
Definition push_A0 : Q := 39562110505745671 # 104167537661737638.
Lemma mt_timo_pushes : exists E nu d wt L k u, 0 < E /\ 0 < nu /\ nu <= 1#2 /\ 0 < wt /\ 2 * wt < d /\ 0 < L /\
  elem_mt Timoshenko true E nu (circ_inertia d wt) (circ_area d wt) d wt L 1 1 = Ok k /\ energy 6 k u < 0.
Proof.
  exists 30000000, (2#10), 3, (14#10), 3. eexists. exists (of_list [0; 0; 1; 0; 5; 1]).
  split; [reflexivity|]. split; [reflexivity|]. split; [vm_compute; discriminate|]. split; [reflexivity|]. split; [reflexivity|].
  split; [reflexivity|]. split; [reflexivity|].
  assert (HI : circ_inertia 3 (14#10) == push_I) by (vm_compute; reflexivity). assert (Ha : circ_area 3 (14#10) == push_a) by (vm_compute; reflexivity).
  assert (HW : 30000000 * circ_inertia 3 (14#10) * tube_kappa (2#10) 3 (14#10) / (circ_area 3 (14#10) * shear_modulus 30000000 (2#10) * (3 * 3)) == push_w).
  { rewrite HI, Ha. vm_compute. reflexivity. }
  set (w := 30000000 * circ_inertia 3 (14#10) * tube_kappa (2#10) 3 (14#10) / (circ_area 3 (14#10) * shear_modulus 30000000 (2#10) * (3 * 3))) in *.
  set (J := circ_inertia 3 (14#10)) in *. set (a := circ_area 3 (14#10)) in *. clearbody w J a.
  rewrite push_coefs, push_energy.
  assert (HA : push_A w J a 3 == push_A0) by (unfold push_A, push_phi; rewrite HW, HI, Ha; vm_compute; reflexivity).
  unfold push_B, push_C, push_D, push_phi. rewrite HA, HW, HI. vm_compute. reflexivity.
Qed.
