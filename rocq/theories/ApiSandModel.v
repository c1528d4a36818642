(** API sand p-y curve: openpile/utils/py_curves.py 214-409, and the initial subgrade reaction moduli of
    hooks.py 529-600.  Floats are real numbers, m.pi is PI, the cast to float32 is not modelled. *)
From Coq Require Import List Reals Lra.
From Verif Require Import Base ConicModel PisaModel.
Import ListNotations.
Local Open Scope R_scope.

(** kind: "static", or anything else. *)
Inductive loading := Static | Cyclic.

(** 362-365; hooks.py 545-548 *)
Definition api_k (phi : R) (below_water_table : bool) : R :=
  if below_water_table then Rmax ((0.1978 * phi ^ 2 - 10.232 * phi + 136.82) * 1000) 5400
  else Rmax ((0.2153 * phi ^ 2 - 8.232 * phi + 63.657) * 1000) 5400.

(** 369-381: the factors of the shallow and deep mechanisms.  A zero divisor raises. *)
Definition api_factors (phi : R) : res (R * R * R) :=
  let b := 0.4 in let Beta := 45 + phi / 2 in let rad := PI / 180 in
  let t := tan ((Beta - phi) * rad) in
  nonzero (t * cos (phi / 2 * rad)) (nonzero t (Ok (
    (b * tan (phi * rad) * sin (Beta * rad)) / (t * cos (phi / 2 * rad)) + (tan (Beta * rad)) ^ 2 * tan (phi / 2 * rad) / t
      + b * tan (Beta * rad) * (tan (phi * rad) * sin (Beta * rad) - tan (phi / 2 * rad)),
    tan (Beta * rad) / t - tan ((45 - phi / 2) * rad) ^ 2,
    b * tan (phi * rad) * tan (Beta * rad) ^ 4 + tan ((45 - phi / 2) * rad) ^ 2 * (tan (Beta * rad) ^ 8 - 1)))).

(** 214-409.  [A] needs D only for static curves.  The divisors of lines 394 and 407 are never zero: the
    modulus is at least 5400 or a positive k, z at least 0.1 and A at least 0.9. *)
Definition api_sand (sig X phi D : R) (kind : loading) (below_water_table : bool) (k ymax : R) (output_length : nat) : res (list R * list R) :=
  let n := Nat.max 8 output_length in
  bind (match kind with Static => nonzero D (Ok (Rmax 0.9 (3 - 0.8 * X / D))) | Cyclic => Ok 0.9 end) (fun A =>
  bind (if Req_EM_T k 0 then Ok (api_k phi below_water_table) else if Rlt_dec k 0 then Err ValueError else Ok k) (fun k_phi =>
  bind (api_factors phi) (fun c =>
  let '(C1, C2, C3) := c in
  let Pmax := Rmin (C3 * sig * D) (C1 * sig * X + C2 * sig * D) in
  let ymax := if Req_EM_T ymax 0 then
                let z := Rmax X 0.1 in
                let f := if Req_EM_T Pmax 0 then (C3 * D + C2 * D) / 2 else Pmax in
                4 * A * f / (k_phi * z)
              else ymax in
  let y := linspace 0 ymax n in
  Ok (y, map (fun v => if Req_EM_T Pmax 0 then 0 else A * Pmax * tanh ((k_phi * X * v) / (A * Pmax))) y)))).

(** x ** a for a non-negative base *)
Definition rpow (x a : R) : R := if Rlt_dec 0 x then Rpower x a else 0.

(** hooks.py 551-574 *)
Definition kallehave_k (phi : R) (below_water_table : bool) (X D : R) : R := api_k phi below_water_table * rpow (X / 2.5) 0.6 * rpow (D / 0.61) 0.5.
(** hooks.py 577-600 *)
Definition sorensen_k (phi X D : R) : R :=
  let X := Rmax X 0.01 in 1 / X * 50000 * rpow (X / 1) 0.6 * rpow (D / 1) 0.5 * rpow (phi * (PI / 180)) 3.6.
