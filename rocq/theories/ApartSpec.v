(** Movement along the pile and movement across it, said without the stiffness of the pile. *)
From Coq Require Import List Bool Arith ZArith QArith Qabs.
From Verif Require Import LinAlg SpringModel BCModel.
Import ListNotations.
Local Open Scope Q_scope.

(** The degrees of freedom of node i are 3i (along the pile), 3i+1 (across it) and 3i+2 (rotation). *)
Definition along (i : nat) : bool := Nat.eqb (i mod 3) 0.
Definition across (i : nat) : bool := negb (Nat.eqb (i mod 3) 0).

(** Two vectors agree in the degrees of freedom [D] *)
Definition agree (n : nat) (D : nat -> bool) (v v' : vec) : Prop := forall i, (i < n)%nat -> D i = true -> v i == v' i.
(** Two choices of supports do *)
Definition held_alike (n : nat) (D : nat -> bool) (r r' : nat -> bool) : Prop := forall i, (i < n)%nat -> D i = true -> r i = r' i.

(** No force along the pile comes from a movement across it, and the other way round *)
Definition uncoupled (K : mat) : Prop := forall i j, along i <> along j -> K i j == 0.
(** Two matrices agree between the degrees of freedom [D] *)
Definition same_within (D : nat -> bool) (K K' : mat) : Prop := forall i j, D i = true -> D j = true -> K i j == K' i j.

Definition elements_apart (M : wmodel) : Prop := forall e, (e < w_n M)%nat -> uncoupled (w_mech M e).

(** Two models alike across the pile: springs along the pile, and the stiffness of the pile along itself, may differ *)
Definition alike_across (M M' : wmodel) : Prop :=
  w_n M = w_n M' /\ w_L M = w_L M' /\ w_py M = w_py M' /\ w_mt M = w_mt M' /\ w_mtc M = w_mtc M' /\ w_hb M = w_hb M' /\ w_mb M = w_mb M' /\
  elements_apart M /\ elements_apart M' /\ forall e, (e < w_n M)%nat -> same_within across (w_mech M e) (w_mech M' e).
(** Two models alike along the pile *)
Definition alike_along (M M' : wmodel) : Prop :=
  w_n M = w_n M' /\ w_L M = w_L M' /\ w_tz M = w_tz M' /\ w_qz M = w_qz M' /\
  elements_apart M /\ elements_apart M' /\ forall e, (e < w_n M)%nat -> same_within along (w_mech M e) (w_mech M' e).

(** As long as both lists last, their members agree in [D], in the order of the passes *)
Definition step_by_step (n : nat) (D : nat -> bool) (passes passes' : list vec) : Prop :=
  forall k v v', nth_error passes k = Some v -> nth_error passes' k = Some v' -> agree n D v v'.

(** Calls of the setters that differ in what they ask along the pile only *)
Definition same_call_across (c c' : call) : Prop :=
  match c, c' with
  | SetPointload e y _ x, SetPointload e' y' _ x' => e = e' /\ y = y' /\ x = x'
  | SetPointdisplacement e y _ x, SetPointdisplacement e' y' _ x' => e = e' /\ y = y' /\ x = x'
  | SetSupport e y _ x, SetSupport e' y' _ x' => e = e' /\ y = y' /\ x = x'
  | _, _ => False
  end.
(** across the pile only *)
Definition same_call_along (c c' : call) : Prop :=
  match c, c' with
  | SetPointload e _ z _, SetPointload e' _ z' _ => e = e' /\ z = z'
  | SetPointdisplacement e _ z _, SetPointdisplacement e' _ z' _ => e = e' /\ z = z'
  | SetSupport e _ z _, SetSupport e' _ z' _ => e = e' /\ z = z'
  | _, _ => False
  end.
