(** openpile/core/kernel.py 572-697: elem_p_delta_stiffness_matrix.  The call is commented out in
    build_stiffness_matrix (748), so no analysis uses it. *)
From Coq Require Import List Bool Arith ZArith QArith.
From Verif Require Import Base LinAlg PileModel BeamModel SolveModel.
Import ListNotations.
Local Open Scope Q_scope.

(** 618-680: coefficients A, B, C, D.  In the Timoshenko branch the area A is overwritten before B, C and D are
    computed from it. *)
Definition p_delta_coefs (ty : elem_type) (omega I area L : Q) : Q * Q * Q * Q :=
  match ty with
  | EulerBernoulli => (6 / (5 * L), 0 * L + (1 # 10), 2 * L / 15, - L / 30)
  | Timoshenko =>
      let phi := (12 * omega + 1) * (12 * omega + 1) in
      let A := 6 * (120 * (omega * omega) + 20 * omega + 1) / ((5 * L) * phi) + 12 * I / (area * (L * L * L) * phi) in
      (A, 1 / (10 * phi) + 6 * I / (A * (L * L) * phi),
       (2 * L * (90 * (omega * omega) + 15 * omega + 1)) / (15 * phi) + 4 * I * (36 * (omega * omega) + 6 * omega + 1) / (A * L * phi),
       - L * (360 * (omega * omega) + 60 * omega + 1) / (30 * phi) - 2 * I * (72 * (omega * omega) + 12 * omega - 1) / (A * L * phi))
  end.

(** 682-695; N1 and N2 are zero *)
Definition p_delta_matrix (c : Q * Q * Q * Q) (P : Q) : mat :=
  let '(A, B, C, D) := c in
  fun i j => of_rows [[0; 0; 0; 0; 0; 0]; [0; A; B; 0; - A; B]; [0; B; C; 0; - B; D];
                      [0; 0; 0; 0; 0; 0]; [0; - A; - B; 0; A; - B]; [0; B; D; 0; - B; C]] i j * - P.

(** One element under the axial force [P] *)
Definition elem_p_delta (ty : elem_type) (circular : bool) (E nu I A d wt L P : Q) : res mat :=
  bind (shear_kappa ty circular nu d wt) (fun kappa =>
  Ok (p_delta_matrix (p_delta_coefs ty (E * I * kappa / (A * shear_modulus E nu * (L * L))) I A L) P)).

(** 596-597: P = f[::6], the first of the six internal forces of every element *)
Definition axial_forces (n_nodes : nat) (k : nat -> mat) (u : vec) : list Q := map (fun f => f 0%nat) (pile_internal_forces n_nodes k u).
