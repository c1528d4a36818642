(** The elastic range of soil springs, said with their curves: between rest and a displacement the curve is a straight
    line through the origin.  No stiffness matrix and no iteration occur here. *)
From Coq Require Import List Bool Arith ZArith QArith Qabs.
From Verif Require Import LinAlg SpringSpec SpringModel EquilSpec.
Import ListNotations.
Local Open Scope Q_scope.

(** from rest to [u] the curve is the line of slope [k] *)
Definition straight (c : list (Q * Q)) (k u : Q) : Prop :=
  forall d p, (0 <= d /\ d <= u) \/ (u <= d /\ d <= 0) -> on_curve c d p -> p == k * d.

(** A curve for displacements of either direction, listed from the origin; its first points give the slope *)
Definition two_way (c : list (Q * Q)) (k u : Q) : Prop :=
  (2 <= length c)%nat /\ strict c /\ origin (point c 0) /\ 0 <= k /\ snd (point c 1) == k * fst (point c 1) /\ straight c k (Qabs u).
(** A layer without springs is given points at displacement zero *)
Definition absent (c : list (Q * Q)) : Prop := forall p, In p c -> fst p == 0.
Definition lateral_elastic (c : list (Q * Q)) (k u : Q) : Prop := two_way c k u \/ (absent c /\ k == 0).
(** Springs at the tip: without resistance they are left out *)
Definition idle (c : list (Q * Q)) : Prop := forall p, In p c -> snd p == 0.
Definition tip_elastic (c : list (Q * Q)) (k u : Q) : Prop := (two_way c k u /\ hardening c) \/ (idle c /\ k == 0).

(** An axial curve is listed from the largest displacement down, with the origin in the middle.  The place of the origin must
    be an odd number (see C34). *)
Definition about_middle (c : list (Q * Q)) (k u : Q) : Prop :=
  exists m, length c = (2 * m + 1)%nat /\ Nat.odd m = true /\ strict (rev c) /\ origin (point c m) /\ 0 <= k /\
    snd (point c (S m)) == k * fst (point c (S m)) /\ straight (rev c) k u.
Definition axial_elastic (c : list (Q * Q)) (k u : Q) : Prop := about_middle c k u \/ (absent c /\ k == 0).
Definition tip_axial_elastic (c : list (Q * Q)) (k u : Q) : Prop := about_middle c k u \/ (idle c /\ k == 0).

(** Moment springs are given as one row of points (rotation, moment) for each rotation, over the resistances [pp] of the lateral
    spring.  Here the rows do not depend on the resistance: all points of a row are the first one. *)
Definition rotation_elastic (pp : list Q) (rows : list (list (Q * Q))) (k t : Q) : Prop :=
  pp <> [] /\ nondecreasing pp /\
  (forall row, In row rows -> length row = length pp /\ forall x, In x row -> fst x == fst (point row 0) /\ snd x == snd (point row 0)) /\
  lateral_elastic (map (fun row => point row 0) rows) k t.

(** Loads, reactions and displacements of a linear system with prescribed displacements [U0] at the supports [s] *)
Definition linear_state (n : nat) (K : mat) (F U0 : vec) (s : nat -> bool) (V R : vec) : Prop :=
  (forall i, (i < n)%nat -> mulv n K V i == F i + R i) /\
  (forall i, (i < n)%nat -> s i = false -> R i == 0) /\
  (forall i, (i < n)%nat -> s i = true -> V i == U0 i).

(** [x] times one vector plus [y] times another *)
Definition mix (n : nat) (x y : Q) (a b c : vec) : Prop := forall i, (i < n)%nat -> c i == x * a i + y * b i.

(** A pile in soil whose springs are all in their elastic range at the displacements [u]; [k] are their slopes.  Springs belong
    to the upper (0) or lower (1) end of an element; the range is asked at both nodes of the element. *)
Record slopes := { k_py : nat -> nat -> Q; k_tz : nat -> nat -> Q; k_mt : nat -> nat -> Q; k_hb : Q; k_mb : Q; k_qz : Q }.
Definition elastic (M : wmodel) (k : slopes) (u : vec) : Prop :=
  (forall py, w_py M = Some py -> forall e j a, (e < w_n M)%nat -> (j < 2)%nat -> a = e \/ a = S e -> lateral_elastic (py e j) (k_py k e j) (u (3 * a + 1)%nat)) /\
  (forall tz, w_tz M = Some tz -> forall e j a, (e < w_n M)%nat -> (j < 2)%nat -> a = e \/ a = S e -> axial_elastic (tz e j) (k_tz k e j) (u (3 * a)%nat)) /\
  (forall mt, w_mt M = Some mt -> exists py, w_py M = Some py /\
    forall e j a, (e < w_n M)%nat -> (j < 2)%nat -> a = e \/ a = S e -> rotation_elastic (map snd (py e j)) (mt e j) (k_mt k e j) (u (3 * a + 2)%nat)) /\
  (forall c, w_hb M = Some c -> tip_elastic c (k_hb k) (u (3 * w_n M + 1)%nat)) /\
  (forall c, w_mb M = Some c -> tip_elastic c (k_mb k) (u (3 * w_n M + 2)%nat)) /\
  (forall c, w_qz M = Some c -> tip_axial_elastic c (k_qz k) (u (3 * w_n M)%nat)).

(** ** Curves with an elastic range: from the origin, with increasing displacements and resistances that never fall *)
Definition middle_curve (c : list (Q * Q)) : Prop :=
  exists m, length c = (2 * m + 1)%nat /\ Nat.odd m = true /\ strict (rev c) /\ hardening (rev c) /\ origin (point c m).
Definition fixed_rows (pp : list Q) (rows : list (list (Q * Q))) : Prop :=
  pp <> [] /\ nondecreasing pp /\
  (forall row, In row rows -> length row = length pp /\ forall x, In x row -> fst x == fst (point row 0) /\ snd x == snd (point row 0)) /\
  (lateral_curve (map (fun row => point row 0) rows) \/ absent (map (fun row => point row 0) rows)).
Definition regular (M : wmodel) : Prop :=
  (forall py, w_py M = Some py -> forall e j, (e < w_n M)%nat -> (j < 2)%nat -> lateral_curve (py e j) \/ absent (py e j)) /\
  (forall tz, w_tz M = Some tz -> forall e j, (e < w_n M)%nat -> (j < 2)%nat -> middle_curve (tz e j) \/ absent (tz e j)) /\
  (forall mt, w_mt M = Some mt -> exists py, w_py M = Some py /\ forall e j, (e < w_n M)%nat -> (j < 2)%nat -> fixed_rows (map snd (py e j)) (mt e j)) /\
  (forall c, w_hb M = Some c -> lateral_curve c \/ idle c) /\ (forall c, w_mb M = Some c -> lateral_curve c \/ idle c) /\
  (forall c, w_qz M = Some c -> middle_curve c \/ idle c).
(** the pile settles or stays where it is, at every node *)
Definition settling (M : wmodel) (u : vec) : Prop := forall a, (a <= w_n M)%nat -> u (3 * a)%nat <= 0.
(** an axial curve that starts with one slope in both directions: the points before and after the one in the middle are on one
    line through the origin *)
Definition same_start (c : list (Q * Q)) : Prop := forall m, length c = (2 * m + 1)%nat ->
  snd (point c (m - 1)) * fst (point c (S m)) == snd (point c (S m)) * fst (point c (m - 1)).
(** wherever the pile moves up, the axial springs start with one slope in both directions *)
Definition either_way (M : wmodel) (u : vec) : Prop :=
  (forall tz, w_tz M = Some tz -> forall e j a, (e < w_n M)%nat -> (j < 2)%nat -> a = e \/ a = S e -> u (3 * a)%nat <= 0 \/ same_start (tz e j)) /\
  (forall c, w_qz M = Some c -> u (3 * w_n M)%nat <= 0 \/ same_start c).
