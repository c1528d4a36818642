(** Vocabulary for piles in soil whose stiffnesses are known up to a factor, for example because the points of the spring curves
    are kept in arrays of single precision. *)
From Coq Require Import List Bool Arith ZArith QArith Qabs.
From Verif Require Import LinAlg SpringSpec SpringModel EquilSpec ElasticSpec.
Import ListNotations.
Local Open Scope Q_scope.

(** Slopes of one kind of springs along the pile: the first pile has no such springs, or both have and those of the first are
    at most [c] times as stiff *)
Definition slopes_upto {A : Type} (c : Q) (n : nat) (a a' : option A) (k k' : nat -> nat -> Q) : Prop :=
  a = None \/ (a' <> None /\ forall e j, (e < n)%nat -> (j < 2)%nat -> k e j <= c * k' e j).
Definition slope_upto {A : Type} (c : Q) (a a' : option A) (k k' : Q) : Prop := a = None \/ (a' <> None /\ k <= c * k').

(** The elements of the first pile and the springs around it are at most [c] times as stiff as those of the second; [s] and [s']
    are the slopes of the springs.  The way moment springs act on the elements has to be the same. *)
Definition upto (c : Q) (M M' : wmodel) (s s' : slopes) : Prop :=
  w_n M' = w_n M /\ (forall e, (e < w_n M)%nat -> w_L M' e = w_L M e) /\
  (forall e u, (e < w_n M)%nat -> energy 6 (w_mech M e) u <= c * energy 6 (w_mech M' e) u) /\
  slopes_upto c (w_n M) (w_py M) (w_py M') (k_py s) (k_py s') /\ slopes_upto c (w_n M) (w_tz M) (w_tz M') (k_tz s) (k_tz s') /\
  slopes_upto c (w_n M) (w_mt M) (w_mt M') (k_mt s) (k_mt s') /\ (w_mt M = None \/ forall e, (e < w_n M)%nat -> w_mtc M' e = w_mtc M e) /\
  slope_upto c (w_hb M) (w_hb M') (k_hb s) (k_hb s') /\ slope_upto c (w_mb M) (w_mb M') (k_mb s) (k_mb s') /\ slope_upto c (w_qz M) (w_qz M') (k_qz s) (k_qz s').

(** Neither pile and its soil are more than [1 + eps] times as stiff as the other *)
Definition near (eps : Q) (M M' : wmodel) (s s' : slopes) : Prop := upto (1 + eps) M M' s s' /\ upto (1 + eps) M' M s' s.

(** ** Curves given by points that are known up to a relative error *)
(** two numbers that differ by no more than [d] times either of them *)
Definition close (d x y : Q) : Prop := Qabs (y - x) <= d * Qabs x /\ Qabs (y - x) <= d * Qabs y.
Definition close_points (d : Q) (c c' : list (Q * Q)) : Prop :=
  length c' = length c /\ forall i, (i < length c)%nat -> close d (fst (point c i)) (fst (point c' i)) /\ close d (snd (point c i)) (snd (point c' i)).
Definition close_option {A : Type} (P : A -> A -> Prop) (a a' : option A) : Prop :=
  match a, a' with None, None => True | Some x, Some x' => P x x' | _, _ => False end.
Definition first_column (rows : list (list (Q * Q))) : list (Q * Q) := map (fun row => point row 0) rows.

(** The same pile, in springs whose curves have the same points up to the relative error [d] *)
Definition close_soil (d : Q) (M M' : wmodel) : Prop :=
  w_n M' = w_n M /\ w_L M' = w_L M /\ w_mech M' = w_mech M /\ w_mtc M' = w_mtc M /\
  close_option (fun py py' => forall e j, (e < w_n M)%nat -> (j < 2)%nat -> close_points d (py e j) (py' e j)) (w_py M) (w_py M') /\
  close_option (fun tz tz' => forall e j, (e < w_n M)%nat -> (j < 2)%nat -> close_points d (tz e j) (tz' e j)) (w_tz M) (w_tz M') /\
  close_option (fun mt mt' => forall e j, (e < w_n M)%nat -> (j < 2)%nat -> close_points d (first_column (mt e j)) (first_column (mt' e j))) (w_mt M) (w_mt M') /\
  close_option (close_points d) (w_hb M) (w_hb M') /\ close_option (close_points d) (w_mb M) (w_mb M') /\ close_option (close_points d) (w_qz M) (w_qz M').
