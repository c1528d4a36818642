(** Axial soil springs: openpile/utils/misc.py, utils/tz_curves.py, utils/qz_curves.py and the classes
    API_clay_axial and API_sand_axial of soilmodels.py 196-590.  Floats are real numbers, the cast to
    float32 is not modelled and m.pi is PI.  The i-th call of random() returns [u i]. *)
From Coq Require Import List Reals Permutation Arith.
From Verif Require Import Base ConicModel PisaModel ApiSandModel ApiClayModel ConicSpec.
Import ListNotations.
Local Open Scope R_scope.

(** np.interp over increasing abscissae *)
Fixpoint rinterp (l : list (R * R)) (x : R) : R :=
  match l with
  | [] => 0
  | (x0, y0) :: t =>
      if Rle_dec x x0 then y0
      else match t with
           | [] => y0
           | (x1, y1) :: _ => if Rle_dec x x1 then y0 + (y1 - y0) * (x - x0) / (x1 - x0) else rinterp t x
           end
  end.

(** misc.py 8-12 *)
Definition Qmax_api_clay (Su : R) : R := 9 * Su.
(** misc.py 16-29 *)
Definition Nq_table : list (R * R) := [(0, 8); (15, 8); (20, 12); (25, 20); (30, 40); (35, 50); (100, 50)].
Definition Qmax_table : list (R * R) := [(0, 1900); (15, 1900); (20, 2900); (25, 4800); (30, 9600); (35, 12000); (100, 12000)].
Definition Qmax_api_sand (sig delta : R) : R := Rmin (rinterp Qmax_table delta) (sig * rinterp Nq_table delta).
(** misc.py 33-70.  Compiled by numba, so 0 ** (-0.5) is infinite and alpha is then the limit.  A negative
    ratio, for which the power is not a number, is excluded by the hypotheses of the theorems. *)
Definition fmax_api_clay (sig Su alpha_limit : R) : R :=
  let psi := if Req_EM_T sig 0 then Su / 0.001 else Su / sig in
  let alpha := if Rlt_dec 1 psi then Rmin (0.5 * Rpower psi (-0.25)) alpha_limit
               else if Req_EM_T psi 0 then alpha_limit
               else Rmin (0.5 * Rpower psi (-0.5)) alpha_limit in
  alpha * Su.
(** misc.py 77-110 *)
Definition fs_table : list (R * R) := [(0, 47.8); (15, 47.8); (20, 67); (25, 81.3); (30, 95.7); (35, 114.8); (100, 114.8)].
Definition fmax_api_sand (sig delta K : R) : R := Rmin (rinterp fs_table delta) (K * sig * tan (delta * PI / 180)).

(** tz_curves.py 17-77.  The three points after the elastic part are at the residual.  The slices
    -z[-1:0:-1] are the values without the first, reversed.  round is to the nearest even integer, and
    output_length is odd when it is called.  fmax = 0 makes the abscissae not a number: [None].
    The logarithm of zmax raises for a negative argument; those of zpos, which would not be numbers, are [ln]
    (they are positive when that of zmax is and RF < 1). *)
Definition half_even (n : nat) : nat := let k := Nat.div n 2 in if Nat.even k then k else S k.
Definition kraft_modification (fmax D G0 residual tensile_factor RF zif : R) (output_length : nat) : res (option (list R * list R)) :=
  let n := Nat.max 15 output_length in
  let n := if Nat.even n then S n else n in
  let half := (half_even n - 2)%nat in
  let tpos := linspace 0 fmax half in
  nonzero G0 (nonzero (1 - RF) (
  if Rlt_dec 0 ((zif - RF) / (1 - RF)) then
    if Req_EM_T fmax 0 then Ok None else
    let zpos := map (fun t => t * 0.5 * D / G0 * ln ((zif - RF * t / fmax) / (1 - RF * t / fmax))) tpos in
    let zmax := fmax * D / (2 * G0) * ln ((zif - RF) / (1 - RF)) in
    let zres := zmax + 0.005 in
    let z := zpos ++ [zres; zres + 0.005] in
    let t := tpos ++ [residual * fmax; residual * fmax] in
    Ok (Some (map Ropp (rev (tl z)) ++ z, map (fun v => - v * tensile_factor) (rev (tl t)) ++ t))
  else Err ValueError)).

(** np.argsort may return any order of equal values. *)
Definition argsort (z : list R) (idx : list nat) : Prop :=
  Permutation idx (seq 0 (length z)) /\ nondecreasing (map (fun i => nth i z 0) idx).
(** Added points, sort, and t reordered by the argsort [idx] of the SORTED z: tz_curves.py 125-139, 365-379;
    qz_curves.py 67-81 *)
Definition backbone_z (zs : list R) (added : nat -> R) (n : nat) : list R := rsort (zs ++ map added (seq 0 (n - length zs))).
Definition backbone_t (zs ts : list R) (value : R) (n : nat) (idx : list nat) : list R :=
  let t := ts ++ repeat value (n - length zs) in map (fun i => nth i t 0) idx.

(** tz_curves.py 115-123 and 355-363 *)
Definition mirror (c : R) (l : list R) : list R := map (fun v => - c * v) (rev (tl l)) ++ l.
Definition clay_zs : list R := mirror 1 [0; 0.0016; 0.0031; 0.0057; 0.0080; 0.0100; 0.0200; 0.0300].
Definition clay_ts (residual tensile_factor : R) : list R := mirror tensile_factor [0; 0.3; 0.5; 0.75; 0.90; 1.00; residual; residual].
Definition sand_zs : list R := mirror 1 [0; 0.0254; 0.03; 0.032; 0.034; 0.036; 0.038; 0.04].
Definition sand_ts (tensile_factor : R) : list R := mirror tensile_factor [0; 1; 1; 1; 1; 1; 1; 1].
(** tz_curves.py 81-141 *)
Definition clay_backbone_z (u : nat -> R) (n : nat) : list R := backbone_z clay_zs (fun i => 0.02 + u i * 0.01) (Nat.max 15 n).
Definition clay_backbone_t (residual tensile_factor : R) (n : nat) (idx : list nat) : list R := backbone_t clay_zs (clay_ts residual tensile_factor) residual (Nat.max 15 n) idx.
(** tz_curves.py 327-381 *)
Definition sand_backbone_z (u : nat -> R) (n : nat) : list R := backbone_z sand_zs (fun i => 0.038 + u i * 0.01) (Nat.max 15 n).
Definition sand_backbone_t (tensile_factor : R) (n : nat) (idx : list nat) : list R := backbone_t sand_zs (sand_ts tensile_factor) 1 (Nat.max 15 n) idx.
(** tz_curves.py 145-225 and 385-469 *)
Definition scale (c : R) (l : list R) : list R := map (fun v => v * c) l.
Definition tz_api_clay (u : nat -> R) (idx : list nat) (sig Su D alpha_limit residual tensile_factor : R) (n : nat) : list R * list R :=
  (scale D (clay_backbone_z u n), scale (fmax_api_clay sig Su alpha_limit) (clay_backbone_t residual tensile_factor n idx)).
Definition tz_api_sand (u : nat -> R) (idx : list nat) (sig delta K tensile_factor : R) (n : nat) : list R * list R :=
  (sand_backbone_z u n, scale (fmax_api_sand sig delta K) (sand_backbone_t tensile_factor n idx)).

(** qz_curves.py 42-59 *)
Definition tip_zs : list R := [-0.2; -0.15; -0.1; -0.073; -0.042; -0.013; -0.002; 0; 0.002; 0.013; 0.042; 0.073; 0.100; 0.15; 0.200].
Definition tip_Qs : list R := [0; 0; 0; 0; 0; 0; 0; 0; 0.25; 0.50; 0.75; 0.90; 1; 1; 1].
(** qz_curves.py 19-83 *)
Definition tip_backbone_z (u : nat -> R) (n : nat) : list R := backbone_z tip_zs (fun i => 0.1 + u i * 0.1) (Nat.max 15 n).
Definition tip_backbone_Q (n : nat) (idx : list nat) : list R := backbone_t tip_zs tip_Qs 1 (Nat.max 15 n) idx.
(** qz_curves.py 87-130 and 134-189 *)
Definition qz_api_clay (u : nat -> R) (idx : list nat) (Su D : R) (n : nat) : list R * list R :=
  (scale D (tip_backbone_z u n), scale (Qmax_api_clay Su) (tip_backbone_Q n idx)).
Definition qz_api_sand (u : nat -> R) (idx : list nat) (sig delta D : R) (n : nat) : list R * list R :=
  (scale D (tip_backbone_z u n), scale (Qmax_api_sand sig delta) (tip_backbone_Q n idx)).

(** soilmodels.py: the options of the axial models. *)
Inductive plug := PlugNone | PlugCompression | PlugTension | PlugBoth.
(** A multiplier is a number, or a function of depth: the declared type of t_multiplier and z_multiplier
    (271-273, 467-469) accepts both. *)
Inductive multiplier := MNum (m : R) | MFun (f : R -> R).
(** array * function raises TypeError *)
Definition times (l : list R) (m : multiplier) : res (list R) := match m with MNum c => Ok (scale c l) | MFun _ => Err TypeError end.
(** 341-356, 535-550: perimeter and tension factor *)
Definition plug_factors (p : plug) (tension_multiplier cin cout : R) : res (R * R) :=
  match p with
  | PlugNone => Ok (cout + cin, tension_multiplier)
  | PlugTension => nonzero (cout + cin) (Ok (cout + cin, tension_multiplier * cin / (cout + cin)))
  | PlugCompression => nonzero cout (Ok (cout, tension_multiplier * (cin + cout) / cout))
  | PlugBoth => nonzero cout (Ok (cout, tension_multiplier * cin / cout))
  end.
(** core/misc.py 13-28 for a value at the top and one at the bottom, and the interpolation of soilmodels.py 337-338 *)
Definition at_depth (top bottom depth height : R) : res R := nonzero height (Ok (top + (bottom - top) * depth / height)).

Record clay_axial := mkClayAxial { ca_Su_top : R; ca_Su_bottom : R; ca_plug : plug; ca_alpha_limit : R; ca_tm : multiplier; ca_zm : multiplier;
  ca_Qm : R; ca_wm : R; ca_residual : R; ca_tension : R }.
Record sand_axial := mkSandAxial { sa_delta_top : R; sa_delta_bottom : R; sa_K : R; sa_plug : plug; sa_tm : multiplier; sa_zm : multiplier;
  sa_Qm : R; sa_wm : R; sa_inside : R; sa_tension : R }.
(** 306-311, 313-318, 500-505, 507-512 *)
Definition clay_shaft_friction (m : clay_axial) (sig depth height : R) : res R :=
  bind (at_depth (ca_Su_top m) (ca_Su_bottom m) depth height) (fun Su => Ok (fmax_api_clay sig Su (ca_alpha_limit m))).
Definition clay_tip_resistance (m : clay_axial) (depth height : R) : res R :=
  bind (at_depth (ca_Su_top m) (ca_Su_bottom m) depth height) (fun Su => Ok (Qmax_api_clay Su)).
Definition sand_shaft_friction (m : sand_axial) (sig depth height : R) : res R :=
  bind (at_depth (sa_delta_top m) (sa_delta_bottom m) depth height) (fun delta => Ok (fmax_api_sand sig delta (sa_K m))).
Definition sand_tip_resistance (m : sand_axial) (sig depth height : R) : res R :=
  bind (at_depth (sa_delta_top m) (sa_delta_bottom m) depth height) (fun delta => Ok (Qmax_api_sand sig delta)).
(** 325-367.  alpha_limit is not passed on, so the default 1.0 applies. *)
Definition clay_tz (m : clay_axial) (u : nat -> R) (idx : list nat) (cin cout sig height depth D : R) (n : nat) : res (list R * list R) :=
  bind (at_depth (ca_Su_top m) (ca_Su_bottom m) depth height) (fun Su =>
  bind (plug_factors (ca_plug m) (ca_tension m) cin cout) (fun pf => let '(total, tens) := pf in
  let '(z, t) := tz_api_clay u idx sig Su D 1 (ca_residual m) tens n in
  bind (times z (ca_zm m)) (fun z => bind (times t (ca_tm m)) (fun t => Ok (z, scale total t))))).
(** 519-562 *)
Definition sand_tz (m : sand_axial) (u : nat -> R) (idx : list nat) (cin cout sig height depth : R) (n : nat) : res (list R * list R) :=
  bind (at_depth (sa_delta_top m) (sa_delta_bottom m) depth height) (fun delta =>
  bind (plug_factors (sa_plug m) (sa_tension m) cin cout) (fun pf => let '(total, tens) := pf in
  let '(z, t) := tz_api_sand u idx sig delta (sa_K m) tens n in
  bind (times z (sa_zm m)) (fun z => bind (times t (sa_tm m)) (fun t => Ok (z, scale total t))))).
(** 369-391, 564-587 *)
Definition tip_surface (p : plug) (tip_area footprint : R) : R := match p with PlugBoth | PlugCompression => footprint | _ => tip_area end.
Definition clay_Qz (m : clay_axial) (u : nat -> R) (idx : list nat) (tip_area footprint height depth D : R) (n : nat) : res (list R * list R) :=
  bind (at_depth (ca_Su_top m) (ca_Su_bottom m) depth height) (fun Su =>
  let '(w, Q) := qz_api_clay u idx Su D n in Ok (scale (ca_wm m) w, scale (tip_surface (ca_plug m) tip_area footprint) (scale (ca_Qm m) Q))).
Definition sand_Qz (m : sand_axial) (u : nat -> R) (idx : list nat) (tip_area footprint sig height depth D : R) (n : nat) : res (list R * list R) :=
  bind (at_depth (sa_delta_top m) (sa_delta_bottom m) depth height) (fun delta =>
  let '(w, Q) := qz_api_sand u idx sig delta D n in Ok (scale (sa_wm m) w, scale (tip_surface (sa_plug m) tip_area footprint) (scale (sa_Qm m) Q))).
