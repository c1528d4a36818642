(** Axial capacity of a model with soil: openpile/construct.py 1147-1210 and 1297-1300 (t-z and Q-z springs
    of the layers), 1419-1454 (shaft_resistance and tip_resistance), with the axial models of AxialModel as the
    functions called in CreateModel.  Elevations and stresses are exact rationals, forces are real numbers. *)
From Coq Require Import List Bool Arith QArith Reals Qreals.
From Verif Require Import Base PileModel MeshModel StressModel CreateModel AxialModel.
Import ListNotations.
Local Open Scope R_scope.

Inductive axial_soil := Clay (m : clay_axial) | Sand (m : sand_axial).

(** What a spring function gives: an exception, not-a-number, or displacements and forces *)
Definition values := res (option (list R * list R)).
Definition some_values (r : res (list R * list R)) : values := match r with Ok v => Ok (Some v) | Err e => Err e end.

(** The numbers that random() gives during a call, and the order that np.argsort returns.  Calls on the same layer model with equal
    arguments get the same ones here. *)
Definition draw := axial_soil -> args -> (nat -> R) * list nat.

(** construct.py 1195-1210: the call of tz_spring_fct.  A missing width, perimeter or stress is NaN *)
Definition tz_curve (d : draw) (m : axial_soil) (a : args) : values :=
  match a_sig a, a_D a, a_perim a, a_perim_in a with
  | Some sig, Some D, Some co, Some ci =>
      let '(u, idx) := d m a in
      some_values (match m with
        | Clay c => clay_tz c u idx (Q2R ci) (Q2R co) (Q2R sig) (Q2R (a_height a)) (Q2R (a_depth a)) (Q2R D) 15
        | Sand s => sand_tz s u idx (Q2R ci) (Q2R co) (Q2R sig) (Q2R (a_height a)) (Q2R (a_depth a)) 15
        end)
  | _, _, _, _ => Ok None
  end.

(** construct.py 1212-1228: the call of Qz_spring_fct *)
Definition qz_curve (d : draw) (tip_area footprint : Q) (m : axial_soil) (a : args) : values :=
  match a_sig a, a_D a with
  | Some sig, Some D =>
      let '(u, idx) := d m a in
      some_values (match m with
        | Clay c => clay_Qz c u idx (Q2R tip_area) (Q2R footprint) (Q2R (a_height a)) (Q2R (a_depth a)) (Q2R D) 15
        | Sand s => sand_Qz s u idx (Q2R tip_area) (Q2R footprint) (Q2R sig) (Q2R (a_height a)) (Q2R (a_depth a)) (Q2R D) 15
        end)
  | _, _ => Ok None
  end.

(** A layer with its soil models *)
Record axial_layer := mkAL { x_layer : layer; x_lat : option (@lateral values); x_soil : option axial_soil }.
Definition with_springs (dt dq : draw) (tip_area footprint : Q) (x : axial_layer) : @slayer values :=
  {| s_layer := x_layer x; s_lat := x_lat x;
     s_ax := match x_soil x with
             | Some m => Some {| f_tz := tz_curve dt m; f_qz := qz_curve dq tip_area footprint m |}
             | None => None
             end |}.

(** construct.py 1163-1164, 1312-1313: the forces stored, 15 zeros where nothing was written *)
Definition stored (v : option values) : res (option (list R)) :=
  match v with
  | None => Ok (Some (map Ropp (repeat 0 15)))
  | Some (Ok (Some (_, t))) => Ok (Some (map Ropp t))
  | Some (Ok None) => Ok None
  | Some (Err e) => Err e
  end.

(** np.min and np.max of a non-empty array *)
Fixpoint least (l : list R) : R := match l with [] => 0 | [x] => x | x :: t => Rmin x (least t) end.
Fixpoint greatest (l : list R) : R := match l with [] => 0 | [x] => x | x :: t => Rmax x (greatest t) end.

(** Values or NaN, in sequence *)
Definition both {A B C : Type} (f : A -> B -> C) (x : res (option A)) (y : res (option B)) : res (option C) :=
  bind x (fun a => bind y (fun b => match a, b with Some a, Some b => Ok (Some (f a b)) | _, _ => Ok None end)).

(** 1432-1445: one element, with the influence lengths of its ends *)
Definition element_shaft (top bottom : option values) (it ib : R) : res (option (R * R)) :=
  both (fun t b => (Rabs (least t * it + least b * ib), Rabs (greatest t * it + greatest b * ib))) (stored top) (stored bottom).

Fixpoint shaft_from (M : made) (i : nat) (infl : list Q) : res (option (R * R)) :=
  match infl with
  | it :: ((ib :: _) as t) =>
      both (fun x y => (fst x + fst y, snd x + snd y)) (element_shaft (m_tz M i 0) (m_tz M i 1) (Q2R it) (Q2R ib)) (shaft_from M (S i) t)
  | _ => Ok (Some (0, 0))
  end.

(** 1419-1445: compression and tension; numpy's gradient needs two nodes *)
Definition shaft_resistance (nodes : list Q) (M : made) : res (option (R * R)) :=
  match influence nodes with None => Err ValueError | Some infl => shaft_from M 0 infl end.

(** 1448-1454 *)
Definition tip_resistance (M : @made values) : res (option R) :=
  bind (stored (m_qz M)) (fun q => Ok (option_map (fun q => Rabs (least q)) q)).
