(** Independent statements about the entries of details() that come from the loop. *)
From Coq Require Import ZArith QArith Qreals Reals.
Local Open Scope R_scope.

(** [s] is the norm whose square is [q], to three decimals *)
Definition to_three_decimals (q s : Q) : Prop :=
  (exists k : Z, (s == inject_Z k / 1000)%Q) /\ Rabs (Q2R s - sqrt (Q2R q)) <= 5 / 10000.
