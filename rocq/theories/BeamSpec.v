(** Specification of element matrices: beam theory and integrals of shape functions. *)
From Coq Require Import List QArith.
From Verif Require Import LinAlg.
Import ListNotations.
Local Open Scope Q_scope.

(** Polynomials in the local coordinate, lowest coefficient first. *)
Definition poly := list Q.
Fixpoint padd (p q : poly) : poly :=
  match p, q with
  | [], _ => q
  | _, [] => p
  | a :: p', b :: q' => (a + b) :: padd p' q'
  end.
Definition pscale (c : Q) (p : poly) : poly := map (Qmult c) p.
Fixpoint pmul (p q : poly) : poly :=
  match p with
  | [] => []
  | a :: p' => padd (pscale a q) (0 :: pmul p' q)
  end.
Fixpoint peval (p : poly) (x : Q) : Q :=
  match p with [] => 0 | a :: p' => a + x * peval p' x end.
Fixpoint pderiv_from (k : Q) (p : poly) : poly :=
  match p with [] => [] | a :: p' => (k * a) :: pderiv_from (k + 1) p' end.
Definition pderiv (p : poly) : poly := match p with [] => [] | _ :: p' => pderiv_from 1 p' end.
Fixpoint pprim_from (k : Q) (p : poly) : poly :=
  match p with [] => [] | a :: p' => (a / k) :: pprim_from (k + 1) p' end.
(** The primitive that vanishes at 0. *)
Definition pprim (p : poly) : poly := 0 :: pprim_from 1 p.
(** Integral over [0, 1]. *)
Definition pint (p : poly) : Q := peval (pprim p) 1 - peval (pprim p) 0.

(** Deflection of an element of length [L]: the cubic with the nodal values [u 1], [u 4] and the
    nodal slopes [u 2], [u 5]. *)
Definition deflection (L : Q) (u : vec) : poly :=
  padd (pscale (u 1%nat) [1; 0; -(3); 2])
 (padd (pscale (u 2%nat * L) [0; 1; -(2); 1])
 (padd (pscale (u 4%nat) [0; 0; 3; -(2)])
       (pscale (u 5%nat * L) [0; 0; -(1); 1]))).

(** Axial displacement: linear between the nodal values. *)
Definition axial (u : vec) : poly := padd (pscale (u 0%nat) [1; -(1)]) (pscale (u 3%nat) [0; 1]).

(** Stiffness varying linearly from [kt] at the top node to [kb] at the bottom node. *)
Definition linear_k (kt kb : Q) : poly := [kt; kb - kt].

(** Tip displacement and rotation of a Timoshenko cantilever under tip force [P] and moment [M];
    [ks] is the shear compliance per unit length. *)
Definition tip_deflection (EI L ks P M : Q) : Q := P * (L * L * L) / (3 * EI) + P * L * ks + M * (L * L) / (2 * EI).
Definition tip_rotation (EI L P M : Q) : Q := P * (L * L) / (2 * EI) + M * L / EI.
