(** Riemann sums of the friction along a pile, to compare the reported shaft resistance with. *)
From Coq Require Import List Bool Arith QArith Reals Qreals.
From Verif Require Import Base PileModel StressSpec CreateModel AxialModel AxialSpec CapacityModel CapacitySpec.
Import ListNotations.
Local Open Scope R_scope.

(** Friction per metre at any elevation [z] of element [i] *)
Definition capacity_at (compression : bool) (xs : list axial_layer) (st : setting) (co : nat -> Q) (i : nat) (z : Q) : R :=
  match layer_of xs (nth i (elems st) (0, 0)%Q) with
  | Some x => match x_soil x with
              | Some m => let l := x_layer x in
                  line_capacity compression m (Q2R (overburden (map x_layer xs) (water st) z))
                    (Q2R ((l_top l - z) / (l_top l - l_bottom l))%Q) (Q2R (co i)) (Q2R (co i))
              | None => 0
              end
  | None => 0
  end.

(** A division of an interval into pieces, from the top down: for each piece a point of it and its lower end *)
Fixpoint divides (top bottom : Q) (pieces : list (Q * Q)) : Prop :=
  match pieces with
  | [] => (top == bottom)%Q
  | (z, b) :: t => (b <= z)%Q /\ (z <= top)%Q /\ divides b bottom t
  end.

(** The sum of heights of pieces times the value at their points *)
Fixpoint riemann (f : Q -> R) (top : Q) (pieces : list (Q * Q)) : R :=
  match pieces with [] => 0 | (z, b) :: t => Q2R (top - b)%Q * f z + riemann f b t end.

(** All elements, each divided at will *)
Definition divided (st : setting) (pieces : nat -> list (Q * Q)) : Prop :=
  forall i, (i < length (elems st))%nat -> let e := nth i (elems st) (0, 0)%Q in divides (fst e) (snd e) (pieces i).
Definition friction_sum (f : nat -> Q -> R) (st : setting) (pieces : nat -> list (Q * Q)) : R :=
  Rsum (map (fun i => riemann (f i) (fst (nth i (elems st) (0, 0)%Q)) (pieces i)) (seq 0 (length (elems st)))).

(** How much the friction varies along the pile: inside the elements, and from one element to the next *)
Definition variation (cap : nat -> nat -> R) (st : setting) : R :=
  Rsum (map (fun i => Rabs (cap i 1%nat - cap i 0%nat)) (seq 0 (length (elems st)))).
Definition jumps (cap : nat -> nat -> R) (st : setting) : R :=
  Rsum (map (fun i => Rabs (cap i 1%nat - cap (S i) 0%nat)) (seq 0 (length (elems st) - 1))).

(** The friction does not decrease with depth inside an element. *)
Definition deepening (f : nat -> Q -> R) (st : setting) : Prop :=
  forall i z z', (i < length (elems st))%nat -> let e := nth i (elems st) (0, 0)%Q in
  (snd e <= z')%Q -> (z' <= z)%Q -> (z <= fst e)%Q -> f i z <= f i z'.

(** The strength of the soil does not decrease with depth. *)
Definition no_weaker_below (m : axial_soil) : Prop :=
  match m with Clay c => ca_Su_top c <= ca_Su_bottom c | Sand s => sa_delta_top s <= sa_delta_bottom s end.
