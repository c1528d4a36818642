(** Vocabulary for the work of the loads on a pile in soil: which soils resist most at the start, what a
    state of rest is when some loads differ a little from those given. *)
From Coq Require Import List Bool Arith ZArith QArith Qabs.
From Verif Require Import LinAlg SpringSpec SpringModel ElasticSpec.
Import ListNotations.
Local Open Scope Q_scope.

(** No point of the curve lies above the line from the origin through the second point. *)
Definition softening (c : list (Q * Q)) : Prop :=
  (2 <= length c)%nat /\ strict c /\ origin (point c 0) /\
  forall p, In p c -> Qabs (snd p) * fst (point c 1) <= Qabs (snd (point c 1)) * fst p.

(** The same of an axial curve, listed from the largest displacement down with the origin at place [m]: in either
    direction no point lies above the slope of the first points of the downward branch. *)
Definition softening_axial (m : nat) (c : list (Q * Q)) : Prop :=
  strict (rev c) /\ (S m < length c)%nat /\ origin (point c m) /\
  forall p, In p c -> Qabs (snd p) * Qabs (fst (point c (S m))) <= Qabs (snd (point c (S m))) * Qabs (fst p).

(** Moment curves that do not depend on the lateral resistance *)
Definition softening_rows (pp : list Q) (rows : list (list (Q * Q))) : Prop :=
  pp <> [] /\ nondecreasing pp /\
  (forall row, In row rows -> length row = length pp /\ forall x, In x row -> fst x == fst (point row 0) /\ snd x == snd (point row 0)) /\
  (softening (map (fun row => point row 0) rows) \/ absent (map (fun row => point row 0) rows)).

(** [place] tells where the axial curves of a given number of points have their origin. *)
Definition softening_soil (place : nat -> nat) (M : wmodel) : Prop :=
  (forall py, w_py M = Some py -> forall e j, (e < w_n M)%nat -> (j < 2)%nat -> softening (py e j) \/ absent (py e j)) /\
  (forall tz, w_tz M = Some tz -> forall e j, (e < w_n M)%nat -> (j < 2)%nat -> softening_axial (place (length (tz e j))) (tz e j) \/ absent (tz e j)) /\
  (forall py mt, w_py M = Some py -> w_mt M = Some mt -> forall e j, (e < w_n M)%nat -> (j < 2)%nat -> softening_rows (map snd (py e j)) (mt e j)) /\
  (forall c, w_hb M = Some c -> softening c \/ idle c) /\ (forall c, w_mb M = Some c -> softening c \/ idle c) /\
  (forall c, w_qz M = Some c -> softening_axial (place (length c)) c \/ idle c).

(** A load at one degree of freedom only *)
Definition single (n i : nat) (F : vec) : Prop := (i < n)%nat /\ ~ F i == 0 /\ forall j, (j < n)%nat -> j <> i -> F j == 0.
