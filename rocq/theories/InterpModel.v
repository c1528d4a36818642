(** The stiffness functions of openpile/core/kernel.py with np.interp as a parameter [f], and the search of numpy.
    With [f] the function of SpringModel they are those of SpringModel (InterpProofs, [same_*]). *)
From Coq Require Import List Bool Arith ZArith QArith Qabs Qminmax.
From Verif Require Import Base LinAlg PileModel BeamModel SolveModel SpringModel WinklerModel.
Import ListNotations.
Local Open Scope Q_scope.

Section Interp.
Variable f : Q -> curve -> Q.

(** kernel.py 864-867 and 979-982 *)
Definition resistance_by (c : curve) (d : Q) : Q := if Qltb (qmax (map fst c)) d then snd (last_pt c) else f d c.

(** kernel.py 855-875 and 969-991 *)
Definition lateral_terms_by (k : kind) (d : Q) (c : curve) : Q * Q * Q :=
  if (match k with Initial => true | _ => false end) || Qeq_bool d 0
  then (fst (pt c 1) - fst (pt c 0), snd (pt c 0), snd (pt c 1))
  else match k with
       | Tangent => let dx := Qmin (1#2000) d in (dx, resistance_by c (d - dx), resistance_by c d)
       | _ => (d, snd (pt c 0), resistance_by c d)
       end.
(** kernel.py 828-879 and 968-993 *)
Definition base_spring_by (u : Q) (c : curve) (k : kind) : res Q :=
  if Qeq_bool (qsum (map snd c)) 0 then Ok 0 else ratio (lateral_terms_by k (Qabs u) c).
Definition py_spring_by (u : Q) (c : curve) (k : kind) : res Q :=
  if Qeq_bool (qsum (map fst c)) 0 then Ok 0 else ratio (lateral_terms_by k (Qabs u) c).

(** kernel.py 912-928 and 1037-1056 *)
Definition axial_terms_by (k : kind) (d : Q) (c : curve) : Q * Q * Q :=
  let i := zero_index (length c) in
  if (match k with Initial => true | _ => false end) || Qeq_bool d 0
  then (fst (pt c i) - fst (pt c (S i)), snd (pt c i), snd (pt c (S i)))
  else match k with
       | Tangent =>
           let dx := Qmin (1#2000) (Qabs d) in
           (dx, f (if Qltb 0 d then d - dx else d + dx) (rev c), f d (rev c))
       | _ => (d, snd (pt c i), f d (rev c))
       end.
(** kernel.py 882-932 and 1034-1058 *)
Definition base_axial_spring_by (u : Q) (c : curve) (k : kind) : res Q :=
  if Qeq_bool (qsum (map (fun p => Qabs (snd p)) c)) 0 then Ok 0 else ratio (axial_terms_by k u c).
Definition tz_spring_by (u : Q) (c : curve) (k : kind) : res Q :=
  if Qeq_bool (qsum (map (fun p => Qabs (fst p)) c)) 0 then Ok 0 else ratio (axial_terms_by k u c).

(** kernel.py 1117-1130 *)
Definition mt_curve_by (p : Q) (pp : list Q) (cols : list curve) : curve :=
  (0, 0) :: map (fun col => (f p (combine pp (map fst col)), f p (combine pp (map snd col)))) (tl cols).
(** kernel.py 1133 *)
Definition moment_at_by (c : curve) (d : Q) : Q := if Qltb (fst (last_pt c)) d then snd (last_pt c) else f d c.
Definition mt_terms_by (k : kind) (d : Q) (c : curve) : Q * Q * Q :=
  if (match k with Initial => true | _ => false end) || Qeq_bool d 0
  then (fst (pt c 1) - fst (pt c 0), snd (pt c 0), snd (pt c 1))
  else match k with
       | Tangent => let dt := Qmin ((1#100) * fst (pt c 1)) d in (dt, moment_at_by c (d - dt), moment_at_by c d)
       | _ => (d, snd (pt c 0), moment_at_by c d)
       end.
(** kernel.py 1063-1154 *)
Definition mt_spring_by (u p : Q) (pp : list Q) (cols : list curve) (k : kind) : res Q :=
  if Qeq_bool (qsum (map (fun col => fst (pt col 0)) cols)) 0 then Ok 0
  else let '(dt, m0, m1) := mt_terms_by k (Qabs u) (mt_curve_by p pp cols) in
       if Qeq_bool dt 0 then Err ZeroDivisionError else Ok (Qabs (m1 - m0) / dt).

(** kernel.py 434-478, 752-787 *)
Definition py_stiffness_by (M : wmodel) (py : nat -> nat -> curve) (u : vec) (k : kind) : res (list (Q * Q)) :=
  collect (w_n M) (fun e => both (fun j => py_spring_by (spring_disp (w_n M) u 1 e j) (py e j) k)).
Definition tz_stiffness_by (M : wmodel) (tz : nat -> nat -> curve) (u : vec) (k : kind) : res (list (Q * Q)) :=
  collect (w_n M) (fun e => both (fun j => tz_spring_by (spring_disp (w_n M) u 0 e j) (tz e j) k)).
Definition mt_stiffness_by (M : wmodel) (py : nat -> nat -> curve) (mt : nat -> nat -> list curve) (u : vec) (k : kind) : res (list (Q * Q)) :=
  collect (w_n M) (fun e => both (fun j =>
    bind (py_spring_by (spring_disp (w_n M) u 1 e j) (py e j) Secant) (fun ks =>
    mt_spring_by (spring_disp (w_n M) u 2 e j) (ks * spring_disp (w_n M) u 1 e j) (map snd (py e j)) (mt e j) k))).
Definition soil_elements_by (M : wmodel) (u : vec) (k : kind) : res (nat -> mat) :=
  bind (opt_res (w_py M) (w_mech M) (fun py => bind (py_stiffness_by M py u k) (fun l =>
          Ok (fun e => madd (w_mech M e) (elem_py (w_L M e) (fst (kpair l e)) (snd (kpair l e))))))) (fun k1 =>
  bind (opt_res (w_tz M) k1 (fun tz => bind (tz_stiffness_by M tz u k) (fun l =>
          Ok (fun e => madd (k1 e) (elem_tz (w_L M e) (fst (kpair l e)) (snd (kpair l e))))))) (fun k2 =>
  opt_res (w_mt M) k2 (fun mt =>
    match w_py M with
    | None => Err UserInputError
    | Some py => bind (mt_stiffness_by M py mt u k) (fun l =>
          Ok (fun e => madd (k2 e) (mt_matrix (w_mtc M e) (fst (kpair l e)) (snd (kpair l e)))))
    end))).
Definition build_by (M : wmodel) (u : vec) (k : kind) : res mat :=
  bind (soil_elements_by M u k) (fun ks =>
  bind (add_base M 2 (w_hb M) base_spring_by u k (jit_build (w_n M) ks)) (fun K1 =>
  bind (add_base M 1 (w_mb M) base_spring_by u k K1) (fun K2 =>
  add_base M 3 (w_qz M) base_axial_spring_by u k K2))).

(** winkler.py 502-637 *)
Definition winkler_by (solve : solver) (M : wmodel) (F U0 : vec) (restrained : nat -> bool) (max_iter : nat) : res outcome :=
  winkler solve (size M) (build_by M) F U0 (supports_of restrained U0) max_iter.
End Interp.

(** ** The search of numpy (binary_search_with_guess of its compiled module, which numba follows): bisection in an interval
    of indices [imin, imax) that the guess may have narrowed; [start] is that interval. *)
Fixpoint bisect (fuel imin imax : nat) (pts : curve) (x : Q) : nat :=
  match fuel with
  | O => imin
  | S n => if (imin <? imax)%nat then
             let imid := (imin + (imax - imin) / 2)%nat in
             if Qle_bool (fst (pt pts imid)) x then bisect n (S imid) imax pts x else bisect n imin imid pts x
           else imin
  end.
Definition numpy_interp (start : curve -> Q -> nat * nat) (x : Q) (pts : curve) : Q :=
  if Qltb (fst (last_pt pts)) x then snd (last_pt pts)
  else if Qltb x (fst (pt pts 0)) then snd (pt pts 0)
  else let j := (bisect (length pts) (fst (start pts x)) (snd (start pts x)) pts x - 1)%nat in
       if Nat.eqb j (length pts - 1) then snd (pt pts j)
       else if Qeq_bool (fst (pt pts j)) x then snd (pt pts j)
       else (snd (pt pts (S j)) - snd (pt pts j)) / (fst (pt pts (S j)) - fst (pt pts j)) * (x - fst (pt pts j)) + snd (pt pts j).
