(** Vocabulary for comparing two piles in soil: every spring of the second is at least as stiff, and so is the pile. *)
From Coq Require Import List Bool Arith ZArith QArith.
From Verif Require Import LinAlg SpringModel EquilSpec ElasticSpec StiffSpec.
Local Open Scope Q_scope.

(** Slopes of one kind of springs along the pile: the first pile has no such springs, or both have and those of the second are
    no less stiff *)
Definition slopes_grow {A : Type} (n : nat) (c c' : option A) (k k' : nat -> nat -> Q) : Prop :=
  c = None \/ (c' <> None /\ forall e j, (e < n)%nat -> (j < 2)%nat -> k e j <= k' e j).
(** the same of a spring at the tip *)
Definition slope_grows {A : Type} (c c' : option A) (k k' : Q) : Prop := c = None \/ (c' <> None /\ k <= k').

(** The same elements, no less stiff, in soil whose springs have the slopes [s] and [s'].  The way moment springs act on the
    elements has to be the same. *)
Definition sturdier (M M' : wmodel) (s s' : slopes) : Prop :=
  w_n M' = w_n M /\ (forall e, (e < w_n M)%nat -> w_L M' e = w_L M e) /\ stiffer (w_n M) (w_mech M) (w_mech M') /\
  slopes_grow (w_n M) (w_py M) (w_py M') (k_py s) (k_py s') /\ slopes_grow (w_n M) (w_tz M) (w_tz M') (k_tz s) (k_tz s') /\
  slopes_grow (w_n M) (w_mt M) (w_mt M') (k_mt s) (k_mt s') /\ (w_mt M = None \/ forall e, (e < w_n M)%nat -> w_mtc M' e = w_mtc M e) /\
  slope_grows (w_hb M) (w_hb M') (k_hb s) (k_hb s') /\ slope_grows (w_mb M) (w_mb M') (k_mb s) (k_mb s') /\ slope_grows (w_qz M) (w_qz M') (k_qz s) (k_qz s').
