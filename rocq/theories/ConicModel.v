(** The PISA conic function: openpile/core/misc.py 227-258.
    Floats are real numbers; the casts to float32 are not modelled.  A NaN is [None]. *)
From Coq Require Import List Reals Lra.
From Verif Require Import Base.
Import ListNotations.
Local Open Scope R_scope.

(** np.linspace(a, b, num) *)
Definition linspace (a b : R) (num : nat) : list R :=
  match num with
  | O => []
  | S O => [a]
  | S m => map (fun i => a + (b - a) * (INR i / INR m)) (seq 0 num)
  end.

Fixpoint mapM {A B : Type} (f : A -> res B) (l : list A) : res (list B) :=
  match l with
  | [] => Ok []
  | x :: t => bind (f x) (fun y => bind (mapM f t) (fun r => Ok (y :: r)))
  end.

(** 238-241: abscissae *)
Definition conic_x (x_u : R) (output_length : nat) : list R :=
  map (fun f => f * x_u) [0; 2/100; 5/100; 1/10] ++ linspace (2/10 * x_u) x_u (output_length - 5) ++ [11/10 * x_u].

(** 247-257: one ordinate; [k] is the stiffness after line 236.  Division by zero raises in numba's
    default error model; a negative radicand gives NaN. *)
Definition conic_point (x_u n k y_u x : R) : res (option R) :=
  if Rlt_dec (Rabs (x - x_u)) (1/100) then Ok (Some y_u)
  else if Rlt_dec x x_u then
    if Req_EM_T y_u 0 then Err ZeroDivisionError else
    let a := 1 - 2 * n in
    let b := 2 * n * x / x_u - (1 - n) * (1 + x * k / y_u) in
    let c := x * (k / y_u) * (1 - n) - n * (x ^ 2 / x_u ^ 2) in
    let disc := b ^ 2 - 4 * a * c in
    if Rlt_dec disc 0 then Ok None
    else if Req_EM_T (- b + sqrt disc) 0 then Err ZeroDivisionError
    else Ok (Some (y_u * 2 * c / (- b + sqrt disc)))
  else Ok (Some y_u).

(** 228-258.  A negative number of points raises ValueError in np.linspace. *)
Definition conic (x_u n k y_u : R) (output_length : nat) : res (list R * list (option R)) :=
  if Req_EM_T x_u 0 then Err ZeroDivisionError
  else if Nat.ltb output_length 5 then Err ValueError
  else let k := Rmax (y_u / x_u) k in
       let x := conic_x x_u output_length in
       bind (mapM (conic_point x_u n k y_u) x) (fun y => Ok (x, y)).
