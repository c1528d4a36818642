(** Spring tables: openpile/core/misc.py 79-224 and openpile/construct.py 1625-1720.
    Springs are those of [n] elements with [n + 1] nodes at elevations [z]; the arrays are mutable, so
    a getter returns its table and the springs it leaves behind in the model.
    Floating-point rounding is not modelled. *)
From Coq Require Import List Bool Arith ZArith QArith Qabs Qminmax.
From Verif Require Import Base.
Import ListNotations.
Local Open Scope Q_scope.

(** springs[e, j, 0, v] (resistance) and springs[e, j, 1, v] (displacement) *)
Record springs := { s_p : nat -> nat -> nat -> Q; s_y : nat -> nat -> nat -> Q }.

(** One row pair of the table: resistance and displacement of a node *)
Definition table := nat -> nat -> Q * Q.

Section Getters.
Variables (n : nat) (z : nat -> Q).

(** misc.py 115: np.gradient with unit spacing *)
Definition gradient (i : nat) : Q :=
  if Nat.eqb i 0 then z 1%nat - z 0%nat
  else if Nat.eqb i n then z n - z (n - 1)%nat
  else (z (S i) - z (i - 1)%nat) / 2.

(** misc.py 115-117 *)
Definition influence (i : nat) : Q :=
  if Nat.eqb i 0 then Qabs (gradient i) / 2 else if Nat.eqb i n then Qabs (gradient i) / 2 else Qabs (gradient i).

(** misc.py 119-120 and 192-193: assignment into the array received *)
Definition weighted (s : springs) : springs := {|
  s_p := fun e j v => s_p s e j v * influence (if Nat.eqb j 0 then e else S e);
  s_y := s_y s |}.

(** misc.py 122-139 *)
Definition distributed_rows (s : springs) : table := fun i v =>
  if Nat.eqb i 0 then (s_p s 0%nat 0%nat v, s_y s 0%nat 0%nat v)
  else if Nat.eqb i n then (s_p s (n - 1)%nat 1%nat v, s_y s (n - 1)%nat 1%nat v)
  else let w0 := influence (i - 1) in let w1 := influence i in
       ((s_p s (i - 1)%nat 1%nat v * w0 + s_p s i 0%nat v * w1) / (w0 + w1),
        (s_y s (i - 1)%nat 1%nat v * w0 + s_y s i 0%nat v * w1) / (w0 + w1)).

(** misc.py 195-212 *)
Definition lumped_rows (s : springs) : table := fun i v =>
  if Nat.eqb i 0 then (s_p s 0%nat 0%nat v, s_y s 0%nat 0%nat v)
  else if Nat.eqb i n then (s_p s (n - 1)%nat 1%nat v, s_y s (n - 1)%nat 1%nat v)
  else let w0 := influence (i - 1) in let w1 := influence i in
       (s_p s (i - 1)%nat 1%nat v * w0 + s_p s i 0%nat v * w1,
        s_y s (i - 1)%nat 1%nat v * w0 + s_y s i 0%nat v * w1).

(** misc.py 79-151 and 154-224 for p-y and t-z springs *)
Definition get_distributed (s : springs) : table * springs := let s' := weighted s in (distributed_rows s', s').
Definition get_lumped (s : springs) : table * springs := let s' := weighted s in (lumped_rows s', s').

(** springs.max(axis=3) for m-t springs of [m + 1] p-values, first p-value index 0 *)
Fixpoint max_upto (m : nat) (f : nat -> Q) : Q := match m with O => f O | S k => Qmax (max_upto k f) (f (S k)) end.
Record springs5 := { t_m : nat -> nat -> nat -> nat -> Q; t_t : nat -> nat -> nat -> nat -> Q }.
Definition max_springs (m : nat) (s : springs5) : springs := {|
  s_p := fun e j v => max_upto m (fun q => t_m s e j q v); s_y := fun e j v => max_upto m (fun q => t_t s e j q v) |}.
End Getters.

(** ** The model's springs and the getters on it *)
Record spring_state := { g_py : springs; g_tz : springs; g_mt : springs5 }.

Inductive getter := Axial | Lateral | Rotational.
Inductive layout := Lumped | Distributed | OtherLayout.

(** construct.py 1625-1720.  None stands for Python's None.
    The distributed rotational table calls misc.get_soil_springs, which does not exist. *)
Definition call (n dim : nat) (z : nat -> Q) (g : getter) (k : layout) (s : spring_state) : res (option table) * spring_state :=
  match k with
  | OtherLayout => (Ok None, s)
  | _ =>
    let get := match k with Lumped => get_lumped n z | _ => get_distributed n z end in
    match g with
    | Axial => let '(t, s') := get (g_tz s) in (Ok (Some t), {| g_py := g_py s; g_tz := s'; g_mt := g_mt s |})
    | Lateral => let '(t, s') := get (g_py s) in (Ok (Some t), {| g_py := s'; g_tz := g_tz s; g_mt := g_mt s |})
    | Rotational =>
        match k with
        | Distributed => (Err AttributeError, s)
        | _ => (Ok (Some (fst (get (max_springs (dim - 1) (g_mt s))))), s)
        end
    end
  end.

(** A sequence of calls, results in order *)
Fixpoint calls (n dim : nat) (z : nat -> Q) (l : list (getter * layout)) (s : spring_state) : list (res (option table)) * spring_state :=
  match l with
  | [] => ([], s)
  | (g, k) :: t => let '(r, s1) := call n dim z g k s in let '(rs, s2) := calls n dim z t s1 in (r :: rs, s2)
  end.
