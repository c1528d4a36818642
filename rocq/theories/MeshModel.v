(** The mesh.  Models src/openpile/core/_model_build.py 134-197 (get_coordinates). *)
From Coq Require Import List Bool Arith ZArith QArith Qabs Qround.
From Verif Require Import Base PileModel.
Import ListNotations.
Local Open Scope Q_scope.

(** construct.py 321-327: the "Elevation [m]" column of Pile.data. *)
Definition pile_elevations (p : list section) : list Q :=
  flat_map (fun s => [s_top s; s_bottom s]) p.

(** _model_build.py 140-149: soil elevations, cut at the pile tip. *)
Definition soil_elevations (bottom : Q) (layers : list layer) : list Q :=
  let e := map l_top layers ++ map l_bottom layers in
  if existsb (fun x => Qltb x bottom) e
  then filter (fun x => Qle_bool bottom x) (bottom :: e)
  else e.

(** np.unique(z)[::-1]: the distinct values, descending. *)
Fixpoint uinsert (x : Q) (l : list Q) : list Q :=
  match l with
  | [] => [x]
  | h :: t => if Qeq_bool x h then l else if Qltb h x then x :: l else h :: uinsert x t
  end.

Definition unique_desc (l : list Q) : list Q := fold_right uinsert [] l.

(** _model_build.py 137-156: the primary discretisation.  [soil = None]: no soil profile.
    [bottom] is pile.bottom_elevation. *)
Definition primary (p : list section) (bottom : Q) (soil : option (list layer)) (x2mesh : list Q) : list Q :=
  unique_desc (pile_elevations p ++
               match soil with Some ls => soil_elevations bottom ls | None => [] end ++ x2mesh).

Definition Qnat (n : nat) : Q := inject_Z (Z.of_nat n).

(** _model_build.py 162-166: the while loop, from a given divider; [None] when the fuel runs
    out (excluded by a theorem for coarseness > 0). *)
Fixpoint divider_loop (fuel : nat) (spacing coarseness : Q) (divider : nat) : option nat :=
  match fuel with
  | O => None
  | S f => if Qle_bool (spacing / Qnat divider) coarseness then Some divider
           else divider_loop f spacing coarseness (S divider)
  end.

Definition divider (spacing coarseness : Q) : option nat :=
  divider_loop (S (Z.to_nat (Qceiling (spacing / coarseness)))) spacing coarseness 1.

(** _model_build.py 167: z[i] - arange(1, divider) * new_spacing. *)
Definition subdivide (z spacing : Q) (d : nat) : list Q :=
  map (fun k => z - Qnat k * (spacing / Qnat d)) (seq 1 (d - 1)).

(** _model_build.py 159-168: the secondary discretisation. *)
Fixpoint secondary (z : list Q) (coarseness : Q) : option (list Q) :=
  match z with
  | a :: ((b :: _) as t) =>
      match divider (a - b) coarseness, secondary t coarseness with
      | Some d, Some r => Some (subdivide a (a - b) d ++ r)
      | _, _ => None
      end
  | _ => Some []
  end.

(** _model_build.py 171-172: all elevations before rounding. *)
Definition mesh (p : list section) (bottom : Q) (soil : option (list layer)) (x2mesh : list Q)
    (coarseness : Q) : option (list Q) :=
  let z := primary p bottom soil x2mesh in
  match secondary z coarseness with
  | Some r => Some (unique_desc (z ++ r))
  | None => None
  end.

(** DataFrame.round(4): rint(x * 10^4) / 10^4, halves to even, in exact arithmetic. *)
Definition rint (q : Q) : Z :=
  let f := Qfloor q in
  let r := q - inject_Z f in
  if Qltb r (1#2) then f
  else if Qltb (1#2) r then (f + 1)%Z
  else if Z.even f then f else (f + 1)%Z.

Definition round4 (q : Q) : Q := inject_Z (rint (q * 10000)) / 10000.

(** _model_build.py 177-185: nodes. *)
Definition nodes_of (m : list Q) : list Q := map round4 m.

(** _model_build.py 187-195: elements, (z_top, z_bottom), from z[:-1] and z[1:]. *)
Definition elements_of (m : list Q) : list (Q * Q) :=
  map (fun e => (round4 (fst e), round4 (snd e))) (combine (removelast m) (tl m)).
