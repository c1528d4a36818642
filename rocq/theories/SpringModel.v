(** Soil springs: spring stiffness and stiffness matrix of the pile-soil system.
    openpile/core/kernel.py 39-65, 717-787, 828-1154 and openpile/winkler.py 620-629.
    A spring is a list of points (displacement, resistance).  Floating-point rounding (the spring
    arrays are float32) is not modelled. *)
From Coq Require Import List Bool Arith ZArith QArith Qabs Qminmax.
From Verif Require Import Base LinAlg PileModel BeamModel SolveModel.
Import ListNotations.
Local Open Scope Q_scope.

Inductive kind := Initial | Secant | Tangent.

Definition curve := list (Q * Q).

(** ** kernel.py 39-65: double_inner_njit *)

(** out[i] = v.  The compiled loop does not check bounds: a write past the end lands outside the
    array and is not seen by later reads of it. *)
Fixpoint upd (l : list Q) (i : nat) (v : Q) : list Q :=
  match l, i with
  | [], _ => []
  | _ :: t, O => v :: t
  | x :: t, S j => x :: upd t j v
  end.

Fixpoint double_loop (fuel : nat) (a : list Q) (i : nat) (out : list Q) : list Q :=
  match fuel with
  | O => out
  | S f =>
      if (i <? length out + 1)%nat then
        if Nat.eqb i 0 then double_loop f a 1 (upd out 0 (nth 0 a 0))
        else if Nat.eqb i (length out) then double_loop f a (S i) (upd out i (nth (length a - 1) a 0))
        else if Nat.eqb i (length out - 1) then double_loop f a (S i) (upd out i (nth (length a - 2) a 0))
        else if Nat.odd i then
          let x := ((i + 1) / 2)%nat in double_loop f a (i + 2) (upd (upd out i (nth x a 0)) (i + 1) (nth x a 0))
        else
          let x := (i / 2)%nat in double_loop f a (i + 2) (upd (upd out i (nth x a 0)) (i + 1) (nth x a 0))
      else out
  end.

(** The fuel exceeds the number of passes of the while loop. *)
Definition double_inner (a : list Q) : list Q :=
  double_loop (2 * length a + 2) a 0 (repeat 0 (2 * (length a - 1))).

(** ** np.interp on abscissae in increasing order: linear between the last point at or below x and
    the next one, constant outside *)
Fixpoint interp (x : Q) (pts : curve) : Q :=
  match pts with
  | [] => 0
  | (x0, y0) :: t =>
      match t with
      | [] => y0
      | (x1, y1) :: _ =>
          if Qltb x x1 then (if Qltb x x0 then y0 else y0 + (y1 - y0) / (x1 - x0) * (x - x0))
          else interp x t
      end
  end.

Fixpoint qsum (l : list Q) : Q := match l with [] => 0 | x :: t => x + qsum t end.
Fixpoint qmax (l : list Q) : Q := match l with [] => 0 | [x] => x | x :: t => Qmax x (qmax t) end.

Definition pt (c : curve) (i : nat) : Q * Q := nth i c (0, 0).
Definition last_pt (c : curve) : Q * Q := last c (0, 0).

(** kernel.py 863-866: beyond the largest displacement the last resistance is used *)
Definition resistance (c : curve) (d : Q) : Q :=
  if Qltb (qmax (map fst c)) d then snd (last_pt c) else interp d c.

(** kernel.py 855-875 and 969-991: (dx, p0, p1) *)
Definition lateral_terms (k : kind) (d : Q) (c : curve) : Q * Q * Q :=
  if (match k with Initial => true | _ => false end) || Qeq_bool d 0
  then (fst (pt c 1) - fst (pt c 0), snd (pt c 0), snd (pt c 1))
  else match k with
       | Tangent => let dx := Qmin (1#2000) d in (dx, resistance c (d - dx), resistance c d)
       | _ => (d, snd (pt c 0), resistance c d)
       end.

(** abs((p1 - p0) / dx) in compiled code, where dividing by zero raises *)
Definition ratio (t : Q * Q * Q) : res Q :=
  let '(dx, p0, p1) := t in if Qeq_bool dx 0 then Err ZeroDivisionError else Ok (Qabs ((p1 - p0) / dx)).

(** kernel.py 828-879: calculate_base_spring_stiffness *)
Definition base_spring (u : Q) (c : curve) (k : kind) : res Q :=
  if Qeq_bool (qsum (map snd c)) 0 then Ok 0 else ratio (lateral_terms k (Qabs u) c).

(** kernel.py 968-993: one spring of calculate_py_springs_stiffness *)
Definition py_spring (u : Q) (c : curve) (k : kind) : res Q :=
  if Qeq_bool (qsum (map fst c)) 0 then Ok 0 else ratio (lateral_terms k (Qabs u) c).

(** Python's round(n / 2) - 1, rounding halves to even *)
Definition zero_index (n : nat) : nat :=
  let h := (n / 2)%nat in
  (if Nat.even n then h else if Nat.even h then h else S h) - 1.

(** kernel.py 912-928 and 1037-1056: (dx, p0, p1), the points being in decreasing order *)
Definition axial_terms (k : kind) (d : Q) (c : curve) : Q * Q * Q :=
  let i := zero_index (length c) in
  if (match k with Initial => true | _ => false end) || Qeq_bool d 0
  then (fst (pt c i) - fst (pt c (S i)), snd (pt c i), snd (pt c (S i)))
  else match k with
       | Tangent =>
           let dx := Qmin (1#2000) (Qabs d) in
           (dx, interp (if Qltb 0 d then d - dx else d + dx) (rev c), interp d (rev c))
       | _ => (d, snd (pt c i), interp d (rev c))
       end.

(** kernel.py 882-932: calculate_base_axial_spring_stiffness *)
Definition base_axial_spring (u : Q) (c : curve) (k : kind) : res Q :=
  if Qeq_bool (qsum (map (fun p => Qabs (snd p)) c)) 0 then Ok 0 else ratio (axial_terms k u c).

(** kernel.py 1034-1058: one spring of calculate_tz_springs_stiffness.  This function is not
    compiled: dividing by zero gives inf or nan instead of raising; the error stands for both. *)
Definition tz_spring (u : Q) (c : curve) (k : kind) : res Q :=
  if Qeq_bool (qsum (map (fun p => Qabs (fst p)) c)) 0 then Ok 0 else ratio (axial_terms k u c).

(** ** kernel.py 1063-1154: one spring of calculate_mt_springs_stiffness.  [cols] holds for every
    index ii the points (rotation, moment) over the mobilised resistance; [pp] the resistances of
    the p-y spring.  m[0] and t[0] keep their initial value 0. *)
Definition mt_curve (p : Q) (pp : list Q) (cols : list curve) : curve :=
  (0, 0) :: map (fun col => (interp p (combine pp (map fst col)), interp p (combine pp (map snd col)))) (tl cols).

(** kernel.py 1137-1140, 1143-1150: beyond the last rotation the last moment *)
Definition moment_at (c : curve) (d : Q) : Q := if Qltb (fst (last_pt c)) d then snd (last_pt c) else interp d c.

Definition mt_terms (k : kind) (d : Q) (c : curve) : Q * Q * Q :=
  if (match k with Initial => true | _ => false end) || Qeq_bool d 0
  then (fst (pt c 1) - fst (pt c 0), snd (pt c 0), snd (pt c 1))
  else match k with
       | Tangent => let dt := Qmin ((1#100) * fst (pt c 1)) d in (dt, moment_at c (d - dt), moment_at c d)
       | _ => (d, snd (pt c 0), moment_at c d)
       end.

Definition mt_spring (u p : Q) (pp : list Q) (cols : list curve) (k : kind) : res Q :=
  if Qeq_bool (qsum (map (fun col => fst (pt col 0)) cols)) 0 then Ok 0
  else let '(dt, m0, m1) := mt_terms k (Qabs u) (mt_curve p pp cols) in
       if Qeq_bool dt 0 then Err ZeroDivisionError else Ok (Qabs (m1 - m0) / dt).

(** ** The pile-soil model as the kernel sees it *)
Record wmodel := {
  w_n : nat;                                       (** number of elements *)
  w_mech : nat -> mat;                             (** element stiffness *)
  w_L : nat -> Q;                                  (** element length *)
  w_py : option (nat -> nat -> curve);             (** p-y spring of element e, 0 top / 1 bottom *)
  w_tz : option (nat -> nat -> curve);
  w_mt : option (nat -> nat -> list curve);
  w_mtc : nat -> Q * Q * Q * Q;                    (** coefficients of the m-t matrix *)
  w_hb : option curve;
  w_mb : option curve;
  w_qz : option curve }.

(** u[c::3] *)
Definition component (n_elem : nat) (u : vec) (c : nat) : list Q := map (fun i => u (3 * i + c)%nat) (seq 0 (S n_elem)).

(** displacement of spring [j] of element [e] *)
Definition spring_disp (n_elem : nat) (u : vec) (c e j : nat) : Q := nth (2 * e + j) (double_inner (component n_elem u c)) 0.

Fixpoint collect {A : Type} (n : nat) (f : nat -> res A) : res (list A) :=
  match n with
  | O => Ok []
  | S m => bind (collect m f) (fun l => bind (f m) (fun a => Ok (l ++ [a])))
  end.

Definition both {A : Type} (f : nat -> res A) : res (A * A) := bind (f O) (fun a => bind (f 1%nat) (fun b => Ok (a, b))).

Definition py_stiffness (M : wmodel) (py : nat -> nat -> curve) (u : vec) (k : kind) : res (list (Q * Q)) :=
  collect (w_n M) (fun e => both (fun j => py_spring (spring_disp (w_n M) u 1 e j) (py e j) k)).

Definition tz_stiffness (M : wmodel) (tz : nat -> nat -> curve) (u : vec) (k : kind) : res (list (Q * Q)) :=
  collect (w_n M) (fun e => both (fun j => tz_spring (spring_disp (w_n M) u 0 e j) (tz e j) k)).

(** kernel.py 465-478: the p-y secant stiffness times the signed displacement is passed on *)
Definition mt_stiffness (M : wmodel) (py : nat -> nat -> curve) (mt : nat -> nat -> list curve) (u : vec) (k : kind) : res (list (Q * Q)) :=
  collect (w_n M) (fun e => both (fun j =>
    bind (py_spring (spring_disp (w_n M) u 1 e j) (py e j) Secant) (fun ks =>
    mt_spring (spring_disp (w_n M) u 2 e j) (ks * spring_disp (w_n M) u 1 e j) (map snd (py e j)) (mt e j) k))).

Definition kpair (l : list (Q * Q)) (e : nat) : Q * Q := nth e l (0, 0).
Definition madd (K K' : mat) : mat := fun i j => K i j + K' i j.
Definition opt_res {A B : Type} (o : option A) (d : B) (f : A -> res B) : res B := match o with None => Ok d | Some a => f a end.

(** kernel.py 752-774: element matrices with soil *)
Definition soil_elements (M : wmodel) (u : vec) (k : kind) : res (nat -> mat) :=
  bind (opt_res (w_py M) (w_mech M) (fun py => bind (py_stiffness M py u k) (fun l =>
          Ok (fun e => madd (w_mech M e) (elem_py (w_L M e) (fst (kpair l e)) (snd (kpair l e))))))) (fun k1 =>
  bind (opt_res (w_tz M) k1 (fun tz => bind (tz_stiffness M tz u k) (fun l =>
          Ok (fun e => madd (k1 e) (elem_tz (w_L M e) (fst (kpair l e)) (snd (kpair l e))))))) (fun k2 =>
  opt_res (w_mt M) k2 (fun mt =>
    match w_py M with
    | None => Err UserInputError
    | Some py => bind (mt_stiffness M py mt u k) (fun l =>
          Ok (fun e => madd (k2 e) (mt_matrix (w_mtc M e) (fst (kpair l e)) (snd (kpair l e)))))
    end))).

Definition size (M : wmodel) : nat := (3 * w_n M + 3)%nat.

(** kernel.py 776-785 *)
Definition add_base (M : wmodel) (p : nat) (o : option curve) (f : Q -> curve -> kind -> res Q) (u : vec) (k : kind) (K : mat) : res mat :=
  opt_res o K (fun c => bind (f (u (size M - p)%nat) c k) (fun v => Ok (add_diag (size M) p v K))).

(** kernel.py 717-787: build_stiffness_matrix of a model with soil *)
Definition build (M : wmodel) (u : vec) (k : kind) : res mat :=
  bind (soil_elements M u k) (fun ks =>
  bind (add_base M 2 (w_hb M) base_spring u k (jit_build (w_n M) ks)) (fun K1 =>
  bind (add_base M 1 (w_mb M) base_spring u k K1) (fun K2 =>
  add_base M 3 (w_qz M) base_axial_spring u k K2))).

(** ** winkler.py 620-629: mobilised base reaction and reported maximum *)
Definition base_mobilised (u : Q) (c : curve) : res (Q * Q) :=
  bind (base_spring u c Secant) (fun k => Ok (Qabs u * k, qmax (map snd c ++ map fst c))).
