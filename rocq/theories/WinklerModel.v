(** openpile/winkler.py 502-637: the Newton-Raphson iteration of winkler.
    The stiffness matrix is a parameter ([build], kernel.build_stiffness_matrix), as is the linear
    solver.  None stands for an array full of NaN.  Floating-point rounding is not modelled; norms
    are compared through their squares. *)
From Coq Require Import List Bool Arith ZArith QArith Qabs.
From Verif Require Import Base LinAlg PileModel SolveModel SpringModel.
Import ListNotations.
Local Open Scope Q_scope.

(** What the analysis leaves behind: displacements, reactions, number of passes of the loop reported
    under "converged @ iter no.", squared error and squared tolerance, and, for the proofs, the
    displacements after each pass (latest first). *)
Record outcome := { o_d : option vec; o_Q : option vec; o_iter : nat; o_err : option Q; o_tol : option Q; o_hist : list vec }.

Section Loop.
Variables (solve : solver) (n : nat) (build : vec -> kind -> res mat).
Variables (F U0 : vec) (supports : nat -> bool).

Definition zero : vec := fun _ => 0.

(** np.linalg.norm squared *)
Definition norm2 (v : vec) : Q := sum n (fun i => v i * v i).
(** the same over v[~supports] *)
Definition free_norm2 (v : vec) : Q := sum n (fun i => if supports i then 0 else v i * v i).

(** tolerance 1e-4 times the norm of F - Q *)
Definition tol2 (R : vec) : Q := (1 # 100000000) * norm2 (fun i => F i - R i).

(** 545-609: the while loop.  [fuel] is max_iter + 1 - iter_no, [U] the displacements prescribed in
    this pass, [Rg] the residual.  [last] holds the result should the loop end here.
    In the pass with iter_no = 100 displacements and reactions become NaN and stay so: a matrix built
    from NaN is full of NaN, and so is every later result, whether numpy returns NaN or raises
    LinAlgError (which sets NaN too).  The remaining passes are therefore not followed, and the
    reported number of passes is left at 100. *)
Fixpoint loop (fuel iter : nat) (d U : vec) (K : mat) (Rg : vec) (last : outcome) : res outcome :=
  match fuel with
  | O => Ok last
  | S f =>
      match solve_equations solve n K Rg U supports with
      | None => Ok {| o_d := None; o_Q := None; o_iter := iter; o_err := o_err last; o_tol := None; o_hist := o_hist last |}
      | Some (u_inc, R) =>
          let iter' := S iter in
          let d' := fun i => d i + u_inc i in
          bind (build d' Secant) (fun Ks =>
          let Rg' := fun i => (F i - R i) + - mulv n Ks d' i in
          let err := free_norm2 Rg' in
          if Qltb err (tol2 R) && (1 <? iter')%nat then
            bind (build d' Secant) (fun Kf =>
            match solve_equations solve n Kf F U0 supports with
            | None => Err LinAlgError
            | Some (_, Rf) => Ok {| o_d := Some d'; o_Q := Some Rf; o_iter := iter'; o_err := Some err; o_tol := Some (tol2 R); o_hist := d' :: o_hist last |}
            end)
          else if Nat.eqb iter' 100 then
            Ok {| o_d := None; o_Q := None; o_iter := 100; o_err := None; o_tol := None; o_hist := d' :: o_hist last |}
          else bind (build d' Tangent) (fun K' =>
            loop f iter' d' zero K' Rg'
              {| o_d := Some d'; o_Q := Some R; o_iter := iter'; o_err := Some err; o_tol := Some (tol2 R); o_hist := d' :: o_hist last |}))
      end
  end.

(** 525-543.  max_iter is non-negative. *)
Definition winkler (max_iter : nat) : res outcome :=
  bind (build zero Initial) (fun K =>
  loop (S max_iter) 0 zero U0 K F
    {| o_d := Some zero; o_Q := None; o_iter := 0; o_err := Some (free_norm2 F); o_tol := None; o_hist := [] |}).
End Loop.

(** The analysis of a model: supports = restrained | (U != 0) *)
Definition winkler_model (solve : solver) (M : wmodel) (F U0 : vec) (restrained : nat -> bool) (max_iter : nat) : res outcome :=
  winkler solve (size M) (build M) F U0 (supports_of restrained U0) max_iter.
