(** The plots: openpile/utils/graphics.py, openpile/construct.py 759-816 and 1806-1843 (SoilProfile.plot,
    Model.plot), openpile/winkler.py 262-420 (plots of results).  A plot is what the code asks matplotlib
    to draw and the limits it sets; colours, fonts, grids and tick labels are left out. *)
From Coq Require Import String List Bool Arith ZArith QArith Qabs Qminmax.
From Verif Require Import Base BCModel PileModel MeshModel AccessModel LinAlg BeamModel SolveModel SpringModel WinklerModel ResultModel.
Import ListNotations.
Local Open Scope Q_scope.

Definition point := (Q * Q)%type.
(** matplotlib's markers 7, 6, 5 and "s" *)
Inductive marker := CaretDown | CaretUp | CaretRight | SquareMark.
(** FancyArrowPatch: from the first point to the second; the bend is the rad of connectionstyle arc3 *)
Record arrow := mkArrow { ar_from : point; ar_to : point; ar_bend : option Q }.
(** Rectangle(xy, width, height) *)
Record box := mkBox { bx_x : Q; bx_y : Q; bx_width : Q; bx_height : Q }.
Record caption := mkCaption { cp_x : Q; cp_y : Q; cp_text : string }.

Record picture := mkPicture {
  g_lines : list (list point);
  g_marks : list (marker * point);
  g_arrows : list arrow;
  g_boxes : list box;
  g_captions : list caption;
  g_xlim : Q * Q;
  g_ylim : Q * Q }.

(** A soil profile with the names of its layers *)
Record profile := mkProfile { pf_top : Q; pf_water : Q; pf_layers : list (string * layer) }.
Definition pf_bottom (s : profile) : Q := profile_bottom (pf_top s) (map snd (pf_layers s)).

(** ** graphics.py 147-331: connectivity_plot *)

(** y[mask], z[mask]: the nodes whose flag is set; the y coordinates are all zero
    (_model_build.py, nodes_coordinates) *)
Definition masked (z : list Q) (mask : list bool) : list point :=
  map (fun p => (0, fst p)) (filter snd (combine z mask)).
Definition marks (m : marker) (z : list Q) (mask : list bool) : list (marker * point) :=
  map (fun p => (m, p)) (masked z mask).
(** 174-178, 186-192: copies with the last entry, or all others, set to False *)
Fixpoint but_last (l : list bool) : list bool :=
  match l with [] => [] | [_] => [false] | b :: t => b :: but_last t end.
Fixpoint just_last (l : list bool) : list bool :=
  match l with [] => [] | [b] => [b] | _ :: t => false :: just_last t end.
Definition flags (a : axis) (t : table) : list bool := map (fun q => negb (Qeq_bool q 0)) (col a t).

(** 172-200 *)
Definition support_marks (z : list Q) (t : table) : list (marker * point) :=
  marks CaretDown z (but_last (flags AZ t)) ++ marks CaretUp z (just_last (flags AZ t))
  ++ marks CaretRight z (flags AY t) ++ marks SquareMark z (flags AX t).

(** 165-168: the y coordinates are equal, so the root of the square is the difference *)
Definition zmax (z : list Q) : Q := match z with [] => 0 | a :: t => fold_left Qmax t a end.
Definition zmin (z : list Q) : Q := match z with [] => 0 | a :: t => fold_left Qmin t a end.
Definition total_length (z : list Q) : Q := zmax z - zmin z.

(** 209 (also 222 and 241): abs().max() *)
Definition load_max (loads : list Q) : Q := zmax (map Qabs loads).
(** 205-207, 216, 229, 247 *)
Definition arrow_length (z loads : list Q) (load : Q) : Q := 0.10 * total_length z * Qabs (load / load_max loads).

(** 209-220 *)
Definition lateral_arrows (z loads : list Q) : list arrow :=
  flat_map (fun p => let '(zv, load) := p in let l := arrow_length z loads load in
    if Qeq_bool load 0 then []
    else if Qltb 0 load then [mkArrow (- l, zv) (0, zv) None]
    else if Qltb load 0 then [mkArrow (l, zv) (0, zv) None] else [])
  (combine z loads).

(** enumerate *)
Definition numbered_loads (z loads : list Q) : list (nat * (Q * Q)) := combine (seq 0 (length z)) (combine z loads).
Definition is_last (z : list Q) (i : nat) : bool := Nat.eqb i (length z - 1).

(** 222-239 *)
Definition axial_arrows (z loads : list Q) : list arrow :=
  flat_map (fun p => let '(i, (zv, load)) := p in let l := arrow_length z loads load in
    if Qeq_bool load 0 then []
    else if Qltb 0 load then
      (if is_last z i then [mkArrow (0, zv) (0, zv + l) None] else [mkArrow (0, zv - l) (0, zv) None])
    else if Qltb load 0 then
      (if is_last z i then [mkArrow (0, zv) (0, zv - l) None] else [mkArrow (0, zv + l) (0, zv) None])
    else [])
  (numbered_loads z loads).

(** 247-286 *)
Definition moment_arrow (z loads : list Q) (i : nat) (zv load : Q) : list arrow :=
  let l := arrow_length z loads load in
  if Qltb 0 load then
    (if is_last z i then [mkArrow (l / 1.5, zv) (- l / 1.5, zv) (Some 0.5)] else [mkArrow (- l / 1.5, zv) (l / 1.5, zv) (Some 0.5)])
  else if Qltb load 0 then
    (if is_last z i then [mkArrow (l / 1.5, zv) (- l / 1.5, zv) (Some (-0.5))] else [mkArrow (- l / 1.5, zv) (l / 1.5, zv) (Some (-0.5))])
  else [].

(** 241-286: the variable style is read before it is assigned, and is only bound by then when a
    lateral or axial load was drawn *)
Fixpoint moment_loop (style : bool) (z loads : list Q) (l : list (nat * (Q * Q))) : res (list arrow) :=
  match l with
  | [] => Ok []
  | (i, (zv, load)) :: t =>
      if Qeq_bool load 0 then moment_loop style z loads t
      else if style then bind (moment_loop true z loads t) (fun r => Ok (moment_arrow z loads i zv load ++ r))
      else Err UnboundLocalError
  end.

Definition some_load (loads : list Q) : bool := existsb (fun q => negb (Qeq_bool q 0)) loads.

Definition load_arrows (z : list Q) (t : table) : res (list arrow) :=
  let py := col AY t in let pz := col AZ t in let mx := col AX t in
  bind (moment_loop (some_load py || some_load pz) z mx (numbered_loads z mx)) (fun m =>
  Ok (lateral_arrows z py ++ axial_arrows z pz ++ m)).

(** 288-329.  [view] is what ax.get_ylim() answered after the mesh was drawn; [top] and [bottom] are
    those of the pile. *)
Definition soil_box (L : Q) (y : string * layer) : box :=
  mkBox (- (2) * L) (l_bottom (snd y)) (4 * L) (l_top (snd y) - l_bottom (snd y)).
Definition soil_caption (L : Q) (y : string * layer) : caption :=
  let t := l_top (snd y) in let b := l_bottom (snd y) in
  mkCaption (- (1) * L) (0.5 * (t + b) + 0.1 * (t - b)) (fst y).
Definition water_in_model (L w : Q) : list point := [(- (2) * L, w); (- 0.6 * L, w); (2 * L, w)].

Definition connectivity (z : list Q) (top bottom : Q) (soil : option profile) (view : Q * Q) (tf tr : table) : res picture :=
  let L := total_length z in
  bind (load_arrows z tf) (fun arrows =>
  Ok match soil with
     | None => mkPicture [map (fun q => (0, q)) z] (support_marks z tr) arrows [] [] (-0.5 * L, 0.5 * L) (fst view - 0.11 * L, snd view + 0.11 * L)
     | Some s =>
         let ends := Some (pf_top s, pf_water s, pf_bottom s) in
         mkPicture (map (fun q => (0, q)) z :: map (fun _ => water_in_model L (pf_water s)) (pf_layers s))
           (support_marks z tr) arrows (map (soil_box L) (pf_layers s)) (map (soil_caption L) (pf_layers s))
           (-0.7 * L, 0.3 * L)
           (Qmin (model_bottom bottom ends) (fst view) - 0.11 * L, Qmax (model_top top ends) (snd view) + 0.11 * L)
     end).

(** construct.py 1806-1843: Model.plot; the tables are made of the model's boundary conditions, first
    the supports (174), then the loads (209) *)
Definition model_plot (z : list Q) (top bottom : Q) (soil : option profile) (view : Q * Q) (l : list bc) : res picture :=
  bind (global_restrained z l) (fun tr => bind (global_forces z l) (fun tf => connectivity z top bottom soil view tf tr)).

(** ** graphics.py 75-144: soil_plot; drawn once, the water line twice *)
Definition water_in_profile (w : Q) : list point := [(-100, w); (0.1, w); (100, w)].
Definition soil_plot (s : profile) : picture :=
  mkPicture [water_in_profile (pf_water s); water_in_profile (pf_water s)] [] []
    (map (fun y => mkBox (-100) (l_bottom (snd y)) 200 (l_top (snd y) - l_bottom (snd y))) (pf_layers s))
    (map (fun y => mkCaption 0.02 (0.5 * (l_top (snd y) + l_bottom (snd y))) (fst y)) (pf_layers s))
    (0, 1) (pf_bottom s, Qmax (pf_top s + 5) (pf_water s + 5)).

(** ** graphics.py 14-72 and 334-395: plots of results.  A panel is one of the axes of a figure: its
    label, the curve (None: every abscissa is NaN), the vertical axis line and the limits set for the
    abscissa.  min(0, NaN) and max(0, NaN) are 0 in Python. *)
Record panel := mkPanel { pn_label : string; pn_curve : option (list point); pn_axis : list point; pn_xlim : option (Q * Q) }.

(** 334-349 and 352-367 *)
Definition disp_panel (label : string) (rows : option (list (Q * Q))) (z : list Q) : panel :=
  mkPanel label (option_map (map (fun r => (snd r * 1000, fst r))) rows) (map (fun q => (0, q)) z) None.
Definition U_plot (r : result) (z : list Q) : panel := disp_panel "Deflection [mm]" (deflection r) z.
Definition settlement_plot (r : result) (z : list Q) : panel := disp_panel "Settlement [mm]" (settlement r) z.

(** 370-395 *)
Definition limits (f : list Q) : Q * Q :=
  (Qmin 0 (zmin f - 0.1 * Qabs (zmin f + 1)), Qmax 0 (zmax f + 0.1 * Qabs (zmax f + 1))).
Definition F_plot (label : string) (pick : Q * triple -> Q) (r : result) (z : list Q) : panel :=
  let rows := column pick (res_forces r) in
  mkPanel label (option_map (map (fun q => (snd q, fst q))) rows) (map (fun q => (0, q)) (repeat_inner z))
    (Some (match rows with Some rows => limits (map snd rows) | None => (0, 0) end)).

Definition N_plot := F_plot "N [kN]" first3.
Definition V_plot := F_plot "V [kN]" second3.
Definition M_plot := F_plot "M [kNm]" third3.

(** 14-72 *)
Definition plot_deflection (r : result) (z : list Q) : list panel := [U_plot r z].
Definition plot_settlement (r : result) (z : list Q) : list panel := [settlement_plot r z; N_plot r z].
Definition plot_forces (r : result) (z : list Q) : list panel := [N_plot r z; V_plot r z; M_plot r z].
Definition plot_results (r : result) (z : list Q) : list panel := [U_plot r z; N_plot r z; V_plot r z; M_plot r z].

(** winkler.py 262-420: the figure is handed out only when asked for *)
Definition assigned (assign : bool) (fig : list panel) : option (list panel) := if assign then Some fig else None.
