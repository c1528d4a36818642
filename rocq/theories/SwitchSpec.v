(** What assignments to the spring options of a constructed model can do. *)
From Coq Require Import List Bool Arith QArith.
From Verif Require Import Base LinAlg BeamModel SolveModel SpringModel WinklerModel CreateModel FullModel.
Local Open Scope Q_scope.

(** The springs that are on in both *)
Definition both_on (a b : options) : options :=
  {| on_py := on_py a && on_py b; on_mt := on_mt a && on_mt b; on_hb := on_hb a && on_hb b; on_mb := on_mb a && on_mb b; on_tz := on_tz a && on_tz b; on_qz := on_qz a && on_qz b |}.

Definition same_numbers (n : nat) (a b : option vec) : Prop :=
  match a, b with Some v, Some v' => forall i, (i < n)%nat -> v i == v' i | None, None => True | _, _ => False end.

(** Two answers of an analysis with [n] displacements that say the same *)
Definition same_answer (n : nat) (a b : res (option outcome)) : Prop :=
  match a, b with
  | Err e, Err e' => e = e'
  | Ok None, Ok None => True
  | Ok (Some r), Ok (Some r') => o_iter r = o_iter r' /\ same_numbers n (o_d r) (o_d r') /\ same_numbers n (o_Q r) (o_Q r')
  | _, _ => False
  end.
