(** Which numbers of a model depend on random(). *)
From Coq Require Import List Bool Arith ZArith QArith Reals Qreals.
From Verif Require Import Base PileModel SolveModel SpringModel SpringSpec WinklerModel LateralModel FullModel UnitSpec.
Import ListNotations.
Local Open Scope Q_scope.

(** A model whose p-y curve gets points at random displacements below the last point of its rise *)
Definition sampled (m : lateral_model) : Prop := match m with Modified_Matlock_clay _ _ _ _ _ _ _ => True | _ => False end.

(** Two p-y springs that act alike: the same resistance at every displacement, the same first step, the same
    list of resistances *)
Definition acts_alike (c c' : SpringModel.curve) : Prop :=
  (forall d, resistance c d == resistance c' d) /\ map snd c = map snd c' /\ nth 0 c (0, 0) = nth 0 c' (0, 0) /\ nth 1 c (0, 0) = nth 1 c' (0, 0) /\
  (qsum (map fst c) == 0 <-> qsum (map fst c') == 0).

(** Two analyses with the same answer: the same error, no numbers in both, or as many passes, the same
    displacements after every pass and at the end, and the same reactions; [n] numbers each *)
Definition same_answer (n : nat) (r r' : res (option outcome)) : Prop :=
  match r, r' with
  | Err e, Err e' => e = e'
  | Ok None, Ok None => True
  | Ok (Some a), Ok (Some a') => alike n (fun _ => 1) (fun _ => 1) (Ok a) (Ok a')
  | _, _ => False
  end.

(** Storage with a relative error below a millionth, like that of float32 *)
Definition precise (rnd : R -> Q) : Prop := forall x, (Rabs (Q2R (rnd x) - x) <= 1 / 1000000 * Rabs x)%R.
