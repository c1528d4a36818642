(** The result of an analysis: openpile/winkler.py 29-125 (tables), 127-260 and 424-447
    (WinklerResult), 502-637 (what winkler returns) and openpile/construct.py 1844-1858 (solve).
    None stands for NaN.  The names, the plots and the printed messages are not modelled. *)
From Coq Require Import List Bool Arith ZArith QArith Qabs Qminmax.
From Verif Require Import Base LinAlg PileModel MeshModel BeamModel SolveModel SpringModel WinklerModel.
Import ListNotations.
Local Open Scope Q_scope.

(** winkler.py 29-64: a row of springs_mob_to_df *)
Record mob_row := { r_z : Q; r_p : option Q; r_pmax : Q; r_m : option Q; r_mmax : Q }.

(** the springs in the order of flatten() *)
Definition spring_list (n : nat) : list (nat * nat) := flat_map (fun e => [(e, 0%nat); (e, 1%nat)]) (seq 0 n).

Definition side (j : nat) (k : Q * Q) : Q := if Nat.eqb j 0 then fst k else snd k.

(** model._mt_springs[:, :, 0, -1].max(axis=2): the moments at the last lateral resistance *)
Definition moment_max (cols : list curve) : Q := qmax (map (fun col => snd (last_pt col)) cols).

(** The arrays of springs exist whether or not the springs are part of the stiffness matrix.  The
    mobilised lateral resistance is passed on with its sign, as the stiffness matrix does. *)
Definition springs_mob (M : wmodel) (z : list Q) (py : nat -> nat -> curve) (mt : nat -> nat -> list curve) (u : option vec) : res (list mob_row) :=
  match u with
  | Some u =>
      bind (py_stiffness M py u Secant) (fun lp =>
      bind (mt_stiffness M py mt u Secant) (fun lm =>
      Ok (map (fun ej => let '(e, j) := ej in
           {| r_z := nth (2 * e + j) (double_inner z) 0;
              r_p := Some (Qabs (spring_disp (w_n M) u 1 e j * side j (kpair lp e)));
              r_pmax := qmax (map snd (py e j));
              r_m := Some (Qabs (spring_disp (w_n M) u 2 e j * side j (kpair lm e)));
              r_mmax := moment_max (mt e j) |}) (spring_list (w_n M)))))
  | None =>
      Ok (map (fun ej => let '(e, j) := ej in
           {| r_z := nth (2 * e + j) (double_inner z) 0; r_p := None; r_pmax := qmax (map snd (py e j));
              r_m := None; r_mmax := moment_max (mt e j) |}) (spring_list (w_n M)))
  end.

(** winkler.py 620-629; with NaN displacements the product is NaN, the maximum is not *)
Definition base_report (u : option Q) (c : curve) : res (option Q * Q) :=
  match u with
  | Some u => bind (base_mobilised u c) (fun p => Ok (Some (fst p), snd p))
  | None => Ok (None, qmax (map snd c ++ map fst c))
  end.

(** winkler.py 127-147: WinklerResult.  A table that is None has NaN in every cell but the
    elevations; [res_iter] is what details() shows as "converged @ iter no.". *)
Record result := {
  res_disp : option (list (Q * triple));
  res_forces : option (list (Q * triple));
  res_reac : list (Q * triple);
  res_mob : option (list mob_row);
  res_hb : option (option Q * Q);
  res_mb : option (option Q * Q);
  res_iter : nat }.

(** winkler.py 67-85 on an array of NaN: no comparison holds, so every row is filtered out *)
Definition reac_table (z : list Q) (R : option vec) : list (Q * triple) :=
  match R with Some R => reaction_rows (disp_rows z R) | None => [] end.

(** winkler.py 611-637.  [z] are the elevations of the nodes, [hb] and [mb] the arrays of the base
    springs, [k] the pile's own element matrices. *)
Definition result_of (M : wmodel) (z : list Q) (py : nat -> nat -> curve) (mt : nat -> nat -> list curve) (hb mb : curve) (o : outcome) : res result :=
  let d := o_d o in
  bind (springs_mob M z py mt d) (fun mob =>
  bind (base_report (option_map (fun v => v (size M - 2)%nat) d) hb) (fun h =>
  bind (base_report (option_map (fun v => v (size M - 1)%nat) d) mb) (fun m =>
  Ok {| res_disp := option_map (disp_rows z) d;
        res_forces := option_map (fun v => structural_forces z (pile_internal_forces (S (w_n M)) (w_mech M) v) (map (w_L M) (seq 0 (w_n M)))) d;
        res_reac := reac_table z (o_Q o);
        res_mob := Some mob; res_hb := Some h; res_mb := Some m; res_iter := o_iter o |}))).

(** What the spring arrays of a model with soil hold. *)
Record soil_arrays := { a_py : nat -> nat -> curve; a_mt : nat -> nat -> list curve; a_hb : curve; a_mb : curve }.

(** winkler.py 502-637: a model without soil is only warned about (the warning is built and thrown
    away) and None is returned *)
Definition winkler_result (solve : solver) (M : wmodel) (z : list Q) (soil : option soil_arrays) (F U0 : vec) (restrained : nat -> bool) (max_iter : nat) : res (option result) :=
  match soil with
  | None => Ok None
  | Some a =>
      bind (winkler_model solve M F U0 restrained max_iter) (fun o =>
      bind (result_of M z (a_py a) (a_mt a) (a_hb a) (a_mb a) o) (fun r => Ok (Some r)))
  end.

(** winkler.py 449-499 *)
Definition beam_result (solve : solver) (M : wmodel) (z : list Q) (F U : vec) (restrained : nat -> bool) : res (option result) :=
  match beam solve (w_n M) (w_mech M) F U restrained with
  | None => Err LinAlgError
  | Some (d, R, q) =>
      Ok (Some {| res_disp := Some (disp_rows z d);
                  res_forces := Some (structural_forces z q (map (w_L M) (seq 0 (w_n M))));
                  res_reac := reaction_rows (disp_rows z R);
                  res_mob := None; res_hb := None; res_mb := None; res_iter := 1 |})
  end.

(** construct.py 1844-1858: solve; winkler is called with its default of 100 passes *)
Definition solve_model (solve : solver) (M : wmodel) (z : list Q) (soil : option soil_arrays) (F U : vec) (restrained : nat -> bool) : res (option result) :=
  match soil with
  | None => beam_result solve M z F U restrained
  | Some a => winkler_result solve M z (Some a) F U restrained 100
  end.

(** ** winkler.py 424-447: details().  round(x, n) to the nearest multiple of 10^-n, halves to even,
    in exact arithmetic; DataFrame.max and min *)
Definition round_to (p : positive) (q : Q) : Q := inject_Z (rint (q * inject_Z (Zpos p))) / inject_Z (Zpos p).

Fixpoint qmin (l : list Q) : Q := match l with [] => 0 | [x] => x | x :: t => Qmin x (qmin t) end.

Definition first3 (r : Q * triple) : Q := fst (fst (snd r)).
Definition second3 (r : Q * triple) : Q := snd (fst (snd r)).
Definition third3 (r : Q * triple) : Q := snd (snd r).

Definition extremes (p : positive) (f : Q * triple -> Q) (t : option (list (Q * triple))) : option (Q * Q) :=
  option_map (fun rows => (round_to p (qmax (map f rows)), round_to p (qmin (map f rows)))) t.

Record details := { dt_iter : nat; dt_N : option (Q * Q); dt_V : option (Q * Q); dt_M : option (Q * Q);
  dt_settlement : option (Q * Q); dt_deflection : option (Q * Q); dt_rotation : option (Q * Q) }.

Definition details_of (r : result) : details :=
  {| dt_iter := res_iter r;
     dt_N := extremes 100 first3 (res_forces r); dt_V := extremes 100 second3 (res_forces r); dt_M := extremes 100 third3 (res_forces r);
     dt_settlement := extremes 1000 first3 (res_disp r); dt_deflection := extremes 1000 second3 (res_disp r);
     dt_rotation := extremes 1000 third3 (res_disp r) |}.

(** winkler.py 176-240: the columns behind settlement, deflection, rotation, py_mobilization and
    mt_mobilization *)
Definition column (f : Q * triple -> Q) (t : option (list (Q * triple))) : option (list (Q * Q)) := option_map (map (fun r => (fst r, f r))) t.
Definition settlement (r : result) := column first3 (res_disp r).
Definition deflection (r : result) := column second3 (res_disp r).
Definition rotation (r : result) := column third3 (res_disp r).
Definition py_mobilization (r : result) : option (list (Q * option Q * Q)) := option_map (map (fun x => (r_z x, r_p x, r_pmax x))) (res_mob r).
Definition mt_mobilization (r : result) : option (list (Q * option Q * Q)) := option_map (map (fun x => (r_z x, r_m x, r_mmax x))) (res_mob r).
