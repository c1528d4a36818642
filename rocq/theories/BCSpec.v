(** Specification vocabulary for boundary conditions, independent of the list algorithms. *)
From Coq Require Import List QArith Qabs.
From Verif Require Import Base BCModel.
Import ListNotations.
Local Open Scope Q_scope.

(** Which kind of boundary condition a public call addresses, at which elevation, and the
    value it gives along an axis: the z axis is axial (Pz, Tz), y lateral (Py, Ty), x the
    rotation / moment (Mx, Rx). *)
Definition call_kind (c : call) : kind :=
  match c with
  | SetPointload _ _ _ _ => Force
  | SetPointdisplacement _ _ _ _ => Displacement
  | SetSupport _ _ _ _ => Fixation
  end.

Definition call_elev (c : call) : Q :=
  match c with
  | SetPointload e _ _ _ => e
  | SetPointdisplacement e _ _ _ => e
  | SetSupport e _ _ _ => e
  end.

Definition call_val (a : axis) (c : call) : option Q :=
  match c, a with
  | SetPointload _ Py _ _, AY => Py
  | SetPointload _ _ Pz _, AZ => Pz
  | SetPointload _ _ _ Mx, AX => Mx
  | SetPointdisplacement _ Ty _ _, AY => Ty
  | SetPointdisplacement _ _ Tz _, AZ => Tz
  | SetPointdisplacement _ _ _ Rx, AX => Rx
  | SetSupport _ Ty _ _, AY => Ty
  | SetSupport _ _ Tz _, AZ => Tz
  | SetSupport _ _ _ Rx, AX => Rx
  end.

(** The call gives the value [q] for this kind, elevation and axis. *)
Definition gives (k : kind) (e : Q) (a : axis) (c : call) (q : Q) : Prop :=
  call_kind c = k /\ call_elev c == e /\ call_val a c = Some q.

(** [q] is the value given by the last call of the history that gives one. *)
Definition last_given (h : list call) (k : kind) (e : Q) (a : axis) (q : Q) : Prop :=
  exists h1 c h2, h = h1 ++ c :: h2 /\ gives k e a c q /\
    forall c' q', In c' h2 -> ~ gives k e a c' q'.

(** A boundary condition is of kind [k] at elevation [e]. *)
Definition at_place (k : kind) (e : Q) (b : bc) : Prop := bc_kind b = k /\ bc_elev b == e.

(** The list holds the value [q] for kind [k], elevation [e], axis [a]. *)
Definition holds (l : list bc) (k : kind) (e : Q) (a : axis) (q : Q) : Prop :=
  exists b, In b l /\ at_place k e b /\ get_axis a b = Some q.

(** At most one boundary condition per kind and elevation (positions in the list). *)
Definition one_per_place (l : list bc) : Prop :=
  forall i j b c, nth_error l i = Some b -> nth_error l j = Some c ->
    bc_kind b = bc_kind c -> bc_elev b == bc_elev c -> i = j.

(** Equality of optional values as Python compares them ([None] only equals [None]). *)
Definition opt_eq (a b : option Q) : Prop :=
  match a, b with
  | Some x, Some y => x == y
  | None, None => True
  | _, _ => False
  end.

(** Two boundary conditions of one kind at one elevation hold different values on an axis. *)
Definition conflict (l : list bc) (k : kind) : Prop :=
  exists b c a, In b l /\ In c l /\ bc_kind b = k /\ bc_kind c = k /\
    bc_elev b == bc_elev c /\ ~ opt_eq (get_axis a b) (get_axis a c).

(** The node an elevation is mapped to: the first one within tolerance. *)
Definition maps_to (nodes : list Q) (e : Q) (i : nat) : Prop :=
  exists z, nth_error nodes i = Some z /\ Qabs (z - e) <= 0.001 + 0.00001 * Qabs e /\
    forall j y, (j < i)%nat -> nth_error nodes j = Some y ->
      ~ Qabs (y - e) <= 0.001 + 0.00001 * Qabs e.

(** [q] is a non-zero value that boundary condition [b] sends to node [i] along axis [a]. *)
Definition sends (nodes : list Q) (k : kind) (i : nat) (a : axis) (b : bc) (q : Q) : Prop :=
  bc_kind b = k /\ maps_to nodes (bc_elev b) i /\ get_axis a b = Some q /\ ~ q == 0.

(** [q] is sent to node [i] by the last boundary condition of the list that sends a value there. *)
Definition last_sent (nodes : list Q) (k : kind) (l : list bc) (i : nat) (a : axis) (q : Q) : Prop :=
  exists l1 b l2, l = l1 ++ b :: l2 /\ sends nodes k i a b q /\
    forall b' q', In b' l2 -> ~ sends nodes k i a b' q'.

(** Every reference of a model points at an allocated object. *)
Definition valid (h : heap) (m : mref) : Prop := forall a, In a m -> (a < length h)%nat.

(** The calls of an interleaved program addressed to one of the two models, in order. *)
Definition calls_of (which : bool) (ops : list (bool * call)) : list call :=
  map snd (filter (fun o => Bool.eqb (fst o) which) ops).
