(** Vocabulary for comparing analyses of one pile under different loads. *)
From Coq Require Import List Bool Arith ZArith QArith.
From Verif Require Import Base PileModel PileSpec BCModel BCSpec SolveModel WholeSpec.
Import ListNotations.
Local Open Scope Q_scope.

(** columns of the tables of a result: axial, lateral, rotation or moment *)
Definition part (a : axis) (t : triple) : Q := match a with AZ => fst (fst t) | AY => snd (fst t) | AX => snd t end.
(** the row of a table at an elevation *)
Definition row_at (rows : list (Q * triple)) (z : Q) : triple := match find (fun r => Qeq_bool (fst r) z) rows with Some r => snd r | None => (0, 0, 0) end.

(** what the conditions of one kind ask for at an elevation *)
Definition given (k : kind) (l : list bc) (z : Q) (a : axis) : Q := Qsum (map (component_of a) (filter (fun b => kind_eqb (bc_kind b) k && Qeq_bool (bc_elev b) z) l)).

Definition same_supports (nodes : list Q) (l l' : list bc) : Prop := forall i a, supported nodes l i a <-> supported nodes l' i a.
Definition well_placed (nodes : list Q) (l : list bc) : Prop := separate nodes l /\
  forall b, In b l -> bc_kind b <> Fixation -> at_node nodes b /\ (bc_kind b = Force -> whole_load b).

(** work of the loads [l], and of the reactions [R], on the displacements [T] of another analysis *)
Definition work_of_loads (l : list bc) (T : list (Q * triple)) : Q :=
  Qsum (map (fun b => component_of AZ b * part AZ (row_at T (bc_elev b)) + component_of AY b * part AY (row_at T (bc_elev b)) + component_of AX b * part AX (row_at T (bc_elev b))) (loads l)).
Definition work_of_reactions (R T : list (Q * triple)) : Q :=
  Qsum (map (fun r => part AZ (snd r) * part AZ (row_at T (fst r)) + part AY (snd r) * part AY (row_at T (fst r)) + part AX (snd r) * part AX (row_at T (fst r))) R).

(** a table that is [x] times one plus [y] times another, row by row *)
Definition combined (x y : Q) (T1 T2 T : list (Q * triple)) : Prop :=
  length T = length T1 /\ length T = length T2 /\ forall i r r1 r2, nth_error T i = Some r -> nth_error T1 i = Some r1 -> nth_error T2 i = Some r2 ->
  fst r = fst r1 /\ fst r = fst r2 /\ forall a, part a (snd r) == x * part a (snd r1) + y * part a (snd r2).
