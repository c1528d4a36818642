(** Properties C23-C27 and C59: element stiffness matrices. *)
From Coq Require Import List QArith.
From Verif Require Import Base LinAlg PileModel BeamModel BeamSpec BeamProofs.
Import ListNotations.
Local Open Scope Q_scope.

(** The integral used below is a primitive evaluated at the ends, and the deflection is the cubic
    with the nodal displacements and slopes. *)
Theorem C25_primitive : forall p, Forall2 Qeq (pderiv (pprim p)) p.
Proof. exact pderiv_prim. Qed.
Print Assumptions C25_primitive.

Theorem C25_deflection_interpolates : forall L u, ~ L == 0 ->
  peval (deflection L u) 0 == u 1%nat /\ peval (pderiv (deflection L u)) 0 / L == u 2%nat /\
  peval (deflection L u) 1 == u 4%nat /\ peval (pderiv (deflection L u)) 1 / L == u 5%nat.
Proof. exact hermite_interpolates. Qed.
Print Assumptions C25_deflection_interpolates.

(** C23: full statement for every accepted Poisson's ratio (-1, 0.5]; false below -0.75 (see the
    refutation), proved from -0.75 up. *)
Theorem C23_beam_element_partial : forall ty c E nu I A d wt L k, 0 < E -> -(3#4) <= nu -> 0 < I -> 0 < A -> 0 < d -> 0 < L ->
  elem_mech ty c E nu I A d wt L = Ok k ->
  symmetric 6 k /\ psd 6 k /\
  (forall a v t i, (i < 6)%nat -> mulv 6 k (of_list [a; v; t; a; v + L * t; t]) i == 0) /\
  (forall u, energy 6 k u == 0 -> u 3%nat == u 0%nat /\ u 5%nat == u 2%nat /\ u 4%nat == u 1%nat + L * u 2%nat) /\
  (forall u, let f := mulv 6 k u in f 0%nat + f 3%nat == 0 /\ f 1%nat + f 4%nat == 0 /\ f 2%nat + f 5%nat + L * f 4%nat == 0).
Proof. exact elem_mech_sound. Qed.
Print Assumptions C23_beam_element_partial.

Theorem C23_cantilever_partial : forall ty c E nu I A d wt L k P M N, 0 < E -> -(3#4) <= nu -> 0 < I -> 0 < A -> 0 < d -> 0 < L ->
  elem_mech ty c E nu I A d wt L = Ok k ->
  let ks := match ty with EulerBernoulli => 0 | Timoshenko => tube_kappa nu d wt / (A * (E / (2 * (1 + nu)))) end in
  let u := of_list [0; 0; 0; N * L / (E * A); tip_deflection (E * I) L ks P M; tip_rotation (E * I) L P M] in
  mulv 6 k u 3%nat == N /\ mulv 6 k u 4%nat == P /\ mulv 6 k u 5%nat == M.
Proof. exact elem_mech_cantilever. Qed.
Print Assumptions C23_cantilever_partial.

Theorem C23_negative_energy_refuted : exists E nu d wt L k u, 0 < E /\ -(1) < nu /\ nu <= 1#2 /\ 0 < wt /\ 2 * wt <= d /\ 0.01 <= L /\
  elem_mech Timoshenko true E nu (circ_inertia d wt) (circ_area d wt) d wt L = Ok k /\ energy 6 k u < 0.
Proof. exact negative_energy. Qed.
Print Assumptions C23_negative_energy_refuted.

Example C23_example : exists k, elem_mech Timoshenko true 210000000 (3#10) (circ_inertia 2 (1#20)) (circ_area 2 (1#20)) 2 (1#20) 1 = Ok k /\
  0 < circ_inertia 2 (1#20) /\ 0 < circ_area 2 (1#20) /\ 0 < k 1%nat 1%nat /\ k 1%nat 4%nat < 0.
Proof. eexists. split; [reflexivity|]. repeat split. Qed.

(** C24 *)
Theorem C24_euler_bernoulli_is_bending_energy : forall c E nu I A d wt L k u du, 0 < L -> 0 < E -> -(1) < nu -> 0 < A ->
  elem_mech EulerBernoulli c E nu I A d wt L = Ok k ->
  dot 6 du (mulv 6 k u) ==
    E * I / (L * L * L) * pint (pmul (pderiv (pderiv (deflection L u))) (pderiv (pderiv (deflection L du)))) +
    E * A / L * pint (pmul (pderiv (axial u)) (pderiv (axial du))).
Proof. exact elem_eb_variational. Qed.
Print Assumptions C24_euler_bernoulli_is_bending_energy.

Theorem C24_timoshenko_never_stiffer_partial : forall E nu I A d wt L kt ke c u, 0 < E -> -(3#4) <= nu -> 0 < I -> 0 < A -> 0 < d -> 0 < L ->
  elem_mech Timoshenko true E nu I A d wt L = Ok kt -> elem_mech EulerBernoulli c E nu I A d wt L = Ok ke ->
  energy 6 kt u <= energy 6 ke u.
Proof. exact elem_timo_softer. Qed.
Print Assumptions C24_timoshenko_never_stiffer_partial.

Theorem C24_softer_with_shear_flexibility : forall E I A L p1 p2 u, 0 < E -> 0 <= I -> 0 < L -> 0 <= p1 -> p1 <= p2 ->
  energy 6 (mech_phi E I A L p2) u <= energy 6 (mech_phi E I A L p1) u.
Proof. exact timoshenko_softer. Qed.
Print Assumptions C24_softer_with_shear_flexibility.

Theorem C24_shear_coefficient_positive_partial : forall nu d wt, -(3#4) <= nu -> 0 < d -> 0 < tube_kappa nu d wt.
Proof. exact kappa_pos. Qed.
Print Assumptions C24_shear_coefficient_positive_partial.

Theorem C24_shear_coefficient_negative_refuted : tube_kappa (-(9#10)) 2 1 < 0.
Proof. exact kappa_negative. Qed.
Print Assumptions C24_shear_coefficient_negative_refuted.

Theorem C24_noncircular_timoshenko_rejected : forall E nu I A d wt L, elem_mech Timoshenko false E nu I A d wt L = Err ValueError.
Proof. exact elem_mech_noncircular. Qed.
Print Assumptions C24_noncircular_timoshenko_rejected.

Example C24_example : tube_kappa (3#10) 2 (1#20) < 1 /\ (1#2) < tube_kappa (3#10) 2 (1#20).
Proof. split; vm_compute; reflexivity. Qed.

(** C59: full statement: the shear compliance of a Timoshenko element is 1/(k A G) with the tube's
    shear coefficient k.  False for every tube with 0 <= nu <= 0.5: the code multiplies by k. *)
Theorem C59_code_shear_compliance_partial : forall E nu I A d wt L, 0 < E -> -(1) < nu -> 0 < I -> 0 < A -> 0 < L ->
  phi_of E (shear_modulus E nu) I A L (tube_kappa nu d wt) * (L * L) / (12 * (E * I)) ==
  tube_kappa nu d wt / (A * shear_modulus E nu).
Proof. exact code_shear_flexibility. Qed.
Print Assumptions C59_code_shear_compliance_partial.

Theorem C59_shear_too_stiff_refuted : forall E nu I A d wt L, 0 < E -> 0 <= nu -> nu <= 1#2 -> 0 < I -> 0 < A -> 0 < d -> 0 < L ->
  phi_of E (shear_modulus E nu) I A L (tube_kappa nu d wt) * (L * L) / (12 * (E * I)) <
  1 / (tube_kappa nu d wt * A * shear_modulus E nu).
Proof. exact shear_flexibility_small. Qed.
Print Assumptions C59_shear_too_stiff_refuted.

(** C25 *)
Theorem C25_consistent : forall L kt kb u du,
  dot 6 du (mulv 6 (elem_py L kt kb) u) ==
  L * pint (pmul (linear_k kt kb) (pmul (deflection L u) (deflection L du))).
Proof. exact py_consistent. Qed.
Print Assumptions C25_consistent.

Theorem C25_symmetric : forall L kt kb, symmetric 6 (elem_py L kt kb).
Proof. exact py_symmetric. Qed.
Print Assumptions C25_symmetric.

Theorem C25_psd : forall L kt kb, 0 <= L -> 0 <= kt -> 0 <= kb -> psd 6 (elem_py L kt kb).
Proof. exact py_psd. Qed.
Print Assumptions C25_psd.

Theorem C25_definite : forall L kt kb u, 0 < L -> 0 <= kt -> 0 <= kb -> 0 < kt + kb -> energy 6 (elem_py L kt kb) u == 0 ->
  u 1%nat == 0 /\ u 2%nat == 0 /\ u 4%nat == 0 /\ u 5%nat == 0.
Proof. exact py_definite. Qed.
Print Assumptions C25_definite.

Theorem C25_translation : forall L kt kb u, (forall i, u i == of_list [0; 1; 0; 0; 1; 0] i) ->
  let f := mulv 6 (elem_py L kt kb) u in f 1%nat + f 4%nat == L * (kt + kb) / 2 /\ f 0%nat == 0 /\ f 3%nat == 0.
Proof. exact py_translation. Qed.
Print Assumptions C25_translation.

Example C25_example : energy 6 (elem_py 2 3 5) (of_list [0; 1; 0; 0; 1; 0]) == 8.
Proof. vm_compute. reflexivity. Qed.

(** C26 *)
Theorem C26_consistent : forall L kt kb u du,
  dot 6 du (mulv 6 (elem_tz L kt kb) u) ==
  L * pint (pmul (linear_k kt kb) (pmul (axial u) (axial du))).
Proof. exact tz_consistent. Qed.
Print Assumptions C26_consistent.

Theorem C26_symmetric : forall L kt kb, symmetric 6 (elem_tz L kt kb).
Proof. exact tz_symmetric. Qed.
Print Assumptions C26_symmetric.

Theorem C26_psd : forall L kt kb, 0 <= L -> 0 <= kt -> 0 <= kb -> psd 6 (elem_tz L kt kb).
Proof. exact tz_psd. Qed.
Print Assumptions C26_psd.

Theorem C26_translation : forall L kt kb u, (forall i, u i == of_list [1; 0; 0; 1; 0; 0] i) ->
  let f := mulv 6 (elem_tz L kt kb) u in f 0%nat + f 3%nat == L * (kt + kb) / 2.
Proof. exact tz_translation. Qed.
Print Assumptions C26_translation.

(** C27: full statement for both element types; the rotation part is false for Timoshenko. *)
Theorem C27_symmetric_translation_free_partial : forall ty c E nu I A d wt L kt kb k, elem_mt ty c E nu I A d wt L kt kb = Ok k ->
  symmetric 6 k /\ forall v i, (i < 6)%nat -> mulv 6 k (of_list [0; v; 0; 0; v; 0]) i == 0.
Proof. exact elem_mt_any. Qed.
Print Assumptions C27_symmetric_translation_free_partial.

Theorem C27_euler_bernoulli_partial : forall c E nu I A d wt L kt kb k, 0 < L -> elem_mt EulerBernoulli c E nu I A d wt L kt kb = Ok k ->
  (forall u du, dot 6 du (mulv 6 k u) == (kt + kb) / 2 / L * pint (pmul (pderiv (deflection L u)) (pderiv (deflection L du)))) /\
  (0 <= kt -> 0 <= kb -> psd 6 k) /\
  (let f := mulv 6 k (of_list [0; 0; 1; 0; L; 1]) in
   f 2%nat + f 5%nat + L * f 4%nat == L * ((kt + kb) / 2) /\ f 4%nat == (kt + kb) / 2).
Proof. exact elem_mt_eb_sound. Qed.
Print Assumptions C27_euler_bernoulli_partial.

(** The Timoshenko matrix is right exactly when the overwritten variable happens to equal the area. *)
Theorem C27_timoshenko_iff_refuted : forall E nu I A d wt L kt kb k, 0 < E -> -(3#4) <= nu -> 0 < I -> 0 < A -> 0 < d -> 0 < L -> 0 < kt + kb ->
  elem_mt Timoshenko true E nu I A d wt L kt kb = Ok k ->
  (mulv 6 k (of_list [0; 0; 1; 0; L; 1]) 4%nat == (kt + kb) / 2 <->
   new_A (E * I * tube_kappa nu d wt / (A * shear_modulus E nu * (L * L))) I A L == A).
Proof. exact elem_mt_timo_iff. Qed.
Print Assumptions C27_timoshenko_iff_refuted.

Theorem C27_timoshenko_rotation_refuted : exists E nu d wt L k, 0 < E /\ 0 < nu /\ nu <= 1#2 /\ 0 < wt /\ 2 * wt < d /\ 0 < L /\
  elem_mt Timoshenko true E nu (circ_inertia d wt) (circ_area d wt) d wt L 1 1 = Ok k /\
  ~ mulv 6 k (of_list [0; 0; 1; 0; L; 1]) 4%nat == 1.
Proof. exact mt_timo_wrong. Qed.
Print Assumptions C27_timoshenko_rotation_refuted.

(** The m-t springs of a thick-walled pile can even push: some motion gains energy. *)
Theorem C27_timoshenko_pushes_refuted : exists E nu d wt L k u, 0 < E /\ 0 < nu /\ nu <= 1#2 /\ 0 < wt /\ 2 * wt < d /\ 0 < L /\
  elem_mt Timoshenko true E nu (circ_inertia d wt) (circ_area d wt) d wt L 1 1 = Ok k /\ energy 6 k u < 0.
Proof. exact mt_timo_pushes. Qed.
Print Assumptions C27_timoshenko_pushes_refuted.
