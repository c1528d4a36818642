(** Clay p-y curves of openpile/utils/py_curves.py: api_clay (414-575), matlock_1970 (580-785) and
    modified_Matlock (790-913).  Floats are real numbers and the cast to float32 is not modelled.  The i-th
    call of random() returns [u i]; nothing is assumed about it here.  A kind other than "static" is cyclic,
    as in the code.  Negative abscissae, for which the power is not a number, are excluded by the
    hypotheses of the theorems. *)
From Coq Require Import List Reals.
From Verif Require Import Base ConicModel PisaModel ApiSandModel.
Import ListNotations.
Local Open Scope R_scope.

(** np.sort *)
Fixpoint rinsert (x : R) (l : list R) : list R :=
  match l with [] => [x] | a :: t => if Rle_dec x a then x :: l else a :: rinsert x t end.
Fixpoint rsort (l : list R) : list R := match l with [] => [] | a :: t => rinsert a (rsort t) end.

(** 518, 728, 856 *)
Definition clay_y50 (eps50 D : R) : R := 2.5 * eps50 * D.
(** 519-522, 729-732, 857-860 *)
Definition clay_Xr (sig X Su D J : R) : res R :=
  if Req_EM_T X 0 then Ok (2.5 * D) else if Req_EM_T Su 0 then Ok (2.5 * D)
  else nonzero (sig / X * D / Su + J) (Ok (Rmax ((6 * D) / (sig / X * D / Su + J)) (2.5 * D))).
(** 525-526, 735-736, 863-864 *)
Definition clay_ymax (y50 ymax : R) : R := if Req_EM_T ymax 0 then 16 * y50 else ymax.
(** 530-532, 740-742, 868-870 *)
Definition clay_Pmax (sig X Su D J : R) : R := Rmin (9 * Su * D) ((3 * Su + sig) * D + J * Su * X).
(** 534-547, 744-757, 872-885: the grid values up to ymax, then added values up to the requested length, sorted *)
Definition clay_grid (ymax : R) (grid : list R) (added : nat -> R) (output_length : nat) : list R :=
  let kept := filter (fun v => if Rle_dec v ymax then true else false) grid in
  rsort (kept ++ map added (seq 0 (output_length - length kept))).

(** The power branch, 558, 567 and 573 *)
Definition clay_power (Pmax y50 v : R) : res R := nonzero y50 (Ok (0.5 * Pmax * rpow (v / y50) 0.33)).
(** 554-558, 764-768, 892-896 *)
Definition clay_static (Pmax y50 v : R) : res R := if Rlt_dec (8 * y50) v then Ok Pmax else clay_power Pmax y50 v.
(** 561-573 and 771-783 with f = 0.7185, b = 3, w = 12; 899-911 with f = 0.5, b = 1, w = 14 *)
Definition clay_cyclic (f b w Pmax y50 X Xr v : R) : res R :=
  if Rle_dec X Xr then
    if Rlt_dec (15 * y50) v then nonzero Xr (Ok (f * Pmax * X / Xr))
    else if Rlt_dec (b * y50) v then nonzero Xr (nonzero (w * y50) (Ok (f * Pmax * (1 - (1 - X / Xr) * (v - b * y50) / (w * y50)))))
    else clay_power Pmax y50 v
  else if Rlt_dec (b * y50) v then Ok (f * Pmax) else clay_power Pmax y50 v.

Definition clay_p (f b w : R) (kind : loading) (Pmax y50 X Xr v : R) : res R :=
  match kind with Static => clay_static Pmax y50 v | Cyclic => clay_cyclic f b w Pmax y50 X Xr v end.

(** 414-575 *)
Definition api_clay (u : nat -> R) (sig X Su eps50 D J : R) (kind : loading) (ymax : R) (output_length : nat) : res (list R * list R) :=
  let n := Nat.max 8 output_length in
  let y50 := clay_y50 eps50 D in
  bind (clay_Xr sig X Su D J) (fun Xr =>
  let ymax := clay_ymax y50 ymax in
  let Pmax := clay_Pmax sig X Su D J in
  let y := clay_grid ymax [0; 0.1 * y50; 0.3 * y50; 1 * y50; 3 * y50; 8 * y50; 15 * y50; ymax] (fun i => 15 * y50 + u i * (ymax - 15 * y50)) n in
  bind (mapM (clay_p 0.7185 3 12 kind Pmax y50 X Xr) y) (fun p => Ok (y, p))).

(** 580-785 *)
Definition matlock_1970 (u : nat -> R) (sig X Su eps50 D J : R) (kind : loading) (ymax : R) (output_length : nat) : res (list R * list R) :=
  let n := Nat.max 9 output_length in
  let y50 := clay_y50 eps50 D in
  bind (clay_Xr sig X Su D J) (fun Xr =>
  let ymax := clay_ymax y50 ymax in
  let Pmax := clay_Pmax sig X Su D J in
  let y := clay_grid ymax [0; 0.001 * y50; 0.01 * y50; 0.10 * y50; 1 * y50; 3 * y50; 8 * y50; 15 * y50; ymax] (fun i => 0.01 * y50 + u i * (8 - 0.01) * y50) n in
  bind (mapM (clay_p 0.7185 3 12 kind Pmax y50 X Xr) y) (fun p => Ok (y, p))).

(** 790-913 *)
Definition modified_Matlock (u : nat -> R) (sig X Su eps50 D J : R) (kind : loading) (ymax : R) (output_length : nat) : res (list R * list R) :=
  let n := Nat.max 8 output_length in
  let y50 := clay_y50 eps50 D in
  bind (clay_Xr sig X Su D J) (fun Xr =>
  let ymax := clay_ymax y50 ymax in
  let Pmax := clay_Pmax sig X Su D J in
  let y := clay_grid ymax [0; 0.01 * y50; 0.10 * y50; 1 * y50; 3 * y50; 8 * y50; 15 * y50; ymax] (fun i => 0.01 * y50 + u i * (8 - 0.01) * y50) n in
  bind (mapM (clay_p 0.5 1 14 kind Pmax y50 X Xr) y) (fun p => Ok (y, p))).
