(** The same pile and soil written in another unit of force, [l] units to the old one: moduli, resistances and
    moments are multiplied, lengths, displacements and rotations are not.  And its mirror image. *)
From Coq Require Import List Bool Arith ZArith QArith.
From Verif Require Import Base LinAlg SpringModel WinklerModel.
Import ListNotations.
Local Open Scope Q_scope.

Definition same_x_times (l : Q) (p p' : Q * Q) : Prop := fst p' == fst p /\ snd p' == l * snd p.
Definition curve_times (l : Q) (c c' : list (Q * Q)) : Prop := Forall2 (same_x_times l) c c'.

Definition opt_times {A : Type} (R : A -> A -> Prop) (o o' : option A) : Prop :=
  match o, o' with None, None => True | Some x, Some y => R x y | _, _ => False end.

Record in_unit (l : Q) (M M' : wmodel) : Prop := {
  iu_n : w_n M' = w_n M;
  iu_L : forall e, w_L M' e == w_L M e;
  iu_mech : forall e i j, w_mech M' e i j == l * w_mech M e i j;
  iu_py : opt_times (fun a b => forall e j, curve_times l (a e j) (b e j)) (w_py M) (w_py M');
  iu_tz : opt_times (fun a b => forall e j, curve_times l (a e j) (b e j)) (w_tz M) (w_tz M');
  iu_mt : opt_times (fun a b => forall e j, Forall2 (curve_times l) (a e j) (b e j)) (w_mt M) (w_mt M');
  iu_mtc : forall e, w_mtc M' e = w_mtc M e;
  iu_hb : opt_times (curve_times l) (w_hb M) (w_hb M');
  iu_mb : opt_times (curve_times l) (w_mb M) (w_mb M');
  iu_qz : opt_times (curve_times l) (w_qz M) (w_qz M') }.

(** Bending and stretching of a straight pile are independent of each other. *)
Definition uncoupled (k : mat) : Prop := forall i j, (i < 6)%nat -> (j < 6)%nat -> Nat.eqb (i mod 3) 0 <> Nat.eqb (j mod 3) 0 -> k i j == 0.
(** axial values stay, lateral ones and rotations change sign *)
Definition mirror (i : nat) : Q := if Nat.eqb (i mod 3) 0 then 1 else -(1).

(** ** What two analyses report *)
Definition reported (n : nat) (a : nat -> Q) (x x' : option vec) : Prop :=
  match x, x' with
  | None, None => True
  | Some v, Some v' => forall i, (i < n)%nat -> v' i == a i * v i
  | _, _ => False
  end.
(** the same error, or as many passes and, at the end and after every pass, displacements in the ratio [a] and
    at the end reactions in the ratio [b] *)
Definition alike (n : nat) (a b : nat -> Q) (p p' : res outcome) : Prop :=
  match p, p' with
  | Err e, Err e' => e = e'
  | Ok o, Ok o' => o_iter o' = o_iter o /\ reported n a (o_d o) (o_d o') /\ reported n b (o_Q o) (o_Q o') /\
                   Forall2 (fun v v' => forall i, (i < n)%nat -> v' i == a i * v i) (o_hist o) (o_hist o')
  | _, _ => False
  end.
