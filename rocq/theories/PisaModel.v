(** PISA soil reaction curves and the hooks that feed the custom PISA models:
    openpile/utils/py_curves.py 17-209 and 1032-1140, mt_curves.py, Hb_curves.py, Mb_curves.py,
    hooks.py 12-111 and 193-495.  Floats are real numbers.  A zero divisor raises ZeroDivisionError. *)
From Coq Require Import List Reals Lra.
From Verif Require Import Base ConicModel.
Import ListNotations.
Local Open Scope R_scope.

Definition nonzero {A : Type} (d : R) (r : res A) : res A := if Req_EM_T d 0 then Err ZeroDivisionError else r.

(** The last line of every curve function: return x * (num / G0), y * scale. *)
Definition scaled (c : res (list R * list (option R))) (num G0 scale : R) : res (list R * list (option R)) :=
  bind c (fun xy => nonzero G0 (Ok (map (fun v => v * (num / G0)) (fst xy), map (option_map (fun v => v * scale)) (snd xy)))).

(** ** p-y curves *)
(** py_curves.py 17-73 *)
Definition py_bothkennar (X Su G0 D : R) (m : nat) :=
  nonzero D (scaled (conic 173.8 (0.7204 + -0.002679 * X / D) (12.05 + -1.547 * X / D) (7.743 + -3.945 * exp (-0.8456 * X / D)) m)
                    (Su * D) G0 (Su * D)).
(** py_curves.py 77-133 *)
Definition py_cowden (X Su G0 D : R) (m : nat) :=
  nonzero D (scaled (conic 241.4 (0.9390 + -0.03345 * X / D) (10.6 + -1.650 * X / D) (10.7 + -7.101 * exp (-0.3085 * X / D)) m)
                    (Su * D) G0 (Su * D)).
(** py_curves.py 137-209 *)
Definition py_dunkirk (sig X Dr G0 D L : R) (m : nat) :=
  let Dr := Dr / 100 in
  nonzero D (nonzero L (scaled (conic (146.1 - 92.11 * Dr) (0.917 + 0.06193 * Dr) (8.731 - 0.6982 * Dr + -0.9178 * X / D)
                                      (0.3667 + 25.89 * Dr + (0.3375 - 8.9 * Dr) * X / L) (Nat.max 8 m))
                               (sig * D) G0 (sig * D))).
(** py_curves.py 1032-1086 *)
Definition py_custom_sand (sig G0 D X_ult n k Y_ult : R) (m : nat) := scaled (conic X_ult n k Y_ult m) (sig * D) G0 (sig * D).
(** py_curves.py 1090-1140 *)
Definition py_custom_clay (Su G0 D X_ult n k Y_ult : R) (m : nat) := scaled (conic X_ult n k Y_ult m) (Su * D) G0 (Su * D).

(** ** m-t curves *)
(** mt_curves.py 17-69 *)
Definition mt_bothkennar (X Su G0 D : R) (m : nat) :=
  nonzero D (let k := 1.698 + -0.1576 * X / D in let m_max := 0.4862 + -0.05674 * X / D in
             nonzero k (scaled (conic (m_max / k) (0 + 0 * X / D) k m_max m) Su G0 (Su * D ^ 2))).
(** mt_curves.py 73-125 *)
Definition mt_cowden (X Su G0 D : R) (m : nat) :=
  nonzero D (let k := 1.420 + -0.09643 * X / D in let m_max := 0.2899 + -0.04775 * X / D in
             nonzero k (scaled (conic (m_max / k) (0 + 0 * X / D) k m_max m) Su G0 (Su * D ^ 2))).
(** mt_curves.py 129-193 *)
Definition mt_dunkirk (sig X Dr G0 p D L : R) (m : nat) :=
  let Dr := Dr / 100 in let p := Rabs p in
  nonzero D (nonzero L (let k := 17 + 0 * X / D in let m_max := 0.2605 + (-0.1989 + 0.2019 * Dr) * X / L in
             nonzero k (scaled (conic (m_max / k) 0 k m_max m) sig G0 (p * D)))).
(** mt_curves.py 197-243 *)
Definition mt_custom_sand (sig G0 p D X_ult n k Y_ult : R) (m : nat) := scaled (conic X_ult n k Y_ult m) sig G0 (p * D).
(** mt_curves.py 247-292 *)
Definition mt_custom_clay (Su G0 D X_ult n k Y_ult : R) (m : nat) := scaled (conic X_ult n k Y_ult m) Su G0 (Su * D ^ 2).

(** ** Base shear curves *)
(** Hb_curves.py 17-74 *)
Definition Hb_bothkennar (Su G0 D L : R) (m : nat) :=
  nonzero D (scaled (conic (291.5 + 0 * L / D) (0.3113 + 0.04263 * L / D) (3.008 + -0.2701 * L / D) (0.5279 + 0.06864 * L / D) m)
                    (Su * D) G0 (Su * D ^ 2)).
(** Hb_curves.py 78-139 *)
Definition Hb_dunkirk (sig Dr G0 D L : R) (m : nat) :=
  let Dr := Dr / 100 in
  nonzero D (scaled (conic (0.5150 + 2.883 * Dr + (0.1695 - 0.7018 * Dr) * L / D) (0.09978 + 0.7974 * Dr + (0.004994 - 0.07005 * Dr) * L / D)
                           (6.505 - 2.985 * Dr + (-0.007969 - 0.4299 * Dr) * L / D) (0.09952 + 0.7996 * Dr + (0.03988 - 0.1606 * Dr) * L / D) m)
                    (sig * D) G0 (sig * D ^ 2)).
(** Hb_curves.py 143-200 *)
Definition Hb_cowden (Su G0 D L : R) (m : nat) :=
  nonzero D (scaled (conic (235.7 + 0 * L / D) (0.8793 + -0.03150 * L / D) (2.717 + -0.3575 * L / D) (0.4038 + 0.04812 * L / D) m)
                    (Su * D) G0 (Su * D ^ 2)).
(** Hb_curves.py 204-250 and 254-298 *)
Definition Hb_custom_sand (sig G0 D X_ult n k Y_ult : R) (m : nat) := scaled (conic X_ult n k Y_ult m) (sig * D) G0 (sig * D ^ 2).
Definition Hb_custom_clay (Su G0 D X_ult n k Y_ult : R) (m : nat) := scaled (conic X_ult n k Y_ult m) (Su * D) G0 (Su * D ^ 2).

(** ** Base moment curves *)
(** Mb_curves.py 17-73 *)
Definition Mb_bothkennar (Su G0 D L : R) (m : nat) :=
  nonzero D (scaled (conic 187 (0.6990 + -0.1155 * L / D) (0.3409 + -0.01995 * L / D) (0.8756 + -0.09195 * L / D) m) Su G0 (Su * D ^ 3)).
(** Mb_curves.py 77-133 *)
Definition Mb_cowden (Su G0 D L : R) (m : nat) :=
  nonzero D (scaled (conic 173.1 (1.079 + -0.1087 * L / D) (0.2146 + -0.002132 * L / D) (0.8192 + -0.08588 * L / D) m) Su G0 (Su * D ^ 3)).
(** Mb_curves.py 137-196 *)
Definition Mb_dunkirk (sig Dr G0 D L : R) (m : nat) :=
  let Dr := Dr / 100 in
  nonzero D (scaled (conic 44.89 (0.3 + 0.4986 * Dr) (0.3515 + 0 * L / D) (0.09981 + 0.3710 * Dr + (0.01998 - 0.09041 * Dr) * L / D) m)
                    sig G0 (sig * D ^ 3)).
(** Mb_curves.py 200-246 and 250-294 *)
Definition Mb_custom_sand (sig G0 D X_ult n k Y_ult : R) (m : nat) := scaled (conic X_ult n k Y_ult m) sig G0 (sig * D ^ 3).
Definition Mb_custom_clay (Su G0 D X_ult n k Y_ult : R) (m : nat) := scaled (conic X_ult n k Y_ult m) Su G0 (Su * D ^ 3).

(** ** Depth-variation hooks: the four functions of each dictionary *)
Record norm_param := mkNP { h_k : R -> R; h_n : R -> R; h_X : R -> R; h_Y : R -> R }.

(** hooks.py 193-227 *)
Definition hook_cowden_py (D : R) : norm_param :=
  mkNP (fun x => Rmax 0.0001 (10.6 + -1.650 * x / D)) (fun x => Rmin 0.999 (Rmax 0 (0.9390 + -0.03345 * x / D)))
       (fun _ => 241.4) (fun x => Rmax 0.0001 (10.7 + -7.101 * exp (-0.3085 * x / D))).
(** hooks.py 229-261 *)
Definition hook_cowden_mt (D : R) : norm_param :=
  mkNP (fun x => Rmax 0.0001 (1.420 + -0.09643 * x / D)) (fun _ => 0)
       (fun x => Rmax 0.0001 (0.2899 + -0.04775 * x / D) / Rmax 0.0001 (1.420 + -0.09643 * x / D))
       (fun x => Rmax 0.0001 (0.2899 + -0.04775 * x / D)).
(** hooks.py 263-299 *)
Definition hook_cowden_Hb (D L : R) : norm_param :=
  mkNP (fun _ => Rmax 0.0001 (2.717 + -0.3575 * L / D)) (fun _ => Rmin 0.999 (Rmax 0 (0.8793 + -0.03150 * L / D)))
       (fun _ => 235.7) (fun _ => Rmax 0.0001 (0.4038 + 0.04812 * L / D)).
(** hooks.py 301-337 *)
Definition hook_cowden_Mb (D L : R) : norm_param :=
  mkNP (fun _ => Rmax 0.0001 (0.2146 + -0.002132 * L / D)) (fun _ => Rmin 0.999 (Rmax 0 (1.079 + -0.1087 * L / D)))
       (fun _ => 173.1) (fun _ => Rmax 0.0001 (0.8192 + -0.08588 * L / D)).
(** hooks.py 339-377 *)
Definition hook_dunkirk_py (D L Dr : R) : norm_param :=
  let Dr := Dr / 100 in
  mkNP (fun x => Rmax 0.001 (8.731 - 0.6982 * Dr + -0.9178 * x / D)) (fun _ => Rmin 0.999 (Rmax 0 (0.917 + 0.06193 * Dr)))
       (fun _ => 146.1 - 92.11 * Dr) (fun x => Rmax 0.001 (0.3667 + 25.89 * Dr + (0.3375 - 8.9 * Dr) * x / L)).
(** hooks.py 379-413 *)
Definition hook_dunkirk_mt (L Dr : R) : norm_param :=
  let Dr := Dr / 100 in
  mkNP (fun _ => 17) (fun _ => 0) (fun x => Rmax 0.001 (0.2605 + (-0.1989 + 0.2019 * Dr) * x / L) / 17)
       (fun x => Rmax 0.001 (0.2605 + (-0.1989 + 0.2019 * Dr) * x / L)).
(** hooks.py 415-457 *)
Definition hook_dunkirk_Hb (D L Dr : R) : norm_param :=
  let Dr := Dr / 100 in
  mkNP (fun _ => Rmax 0.001 (6.505 - 2.985 * Dr + (-0.007969 - 0.4299 * Dr) * L / D))
       (fun _ => Rmin 0.999 (Rmax 0 (0.09978 + 0.7974 * Dr + (0.004994 - 0.07005 * Dr) * L / D)))
       (fun _ => 0.5150 + 2.883 * Dr + (0.1695 - 0.7018 * Dr) * L / D)
       (fun _ => Rmax 0.001 (0.09952 + 0.7996 * Dr + (0.03988 - 0.1606 * Dr) * L / D)).
(** hooks.py 459-495 *)
Definition hook_dunkirk_Mb (D L Dr : R) : norm_param :=
  let Dr := Dr / 100 in
  mkNP (fun _ => 0.3515) (fun _ => Rmin 0.999 (Rmax 0 (0.3 + 0.4986 * Dr)))
       (fun _ => 44.89) (fun _ => Rmax 0.001 (0.09981 + 0.3710 * Dr + (0.01998 - 0.09041 * Dr) * L / D)).

(** hooks.py 75 and 109: the multipliers of Dührkop; [x] is the depth. *)
Definition durkhop (D ra x : R) : res R := nonzero D (Ok (1 / 0.9 * Rmax 0.9 (ra * (3 - 1.143 * x / D) + 0.343 * x / D))).
Definition durkhop_normalized (D ra x : R) : res R := nonzero D (Ok (0.9 / Rmax 0.9 (ra * (3 - 1.143 * x / D) + 0.343 * x / D))).
