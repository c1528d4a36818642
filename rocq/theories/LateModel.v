(** openpile/winkler.py 502-637 to the last pass, for any integer max_iter, and the entries of details() that come
    from the loop (630-634).  WinklerModel stops at pass 100; here the passes made with NaN are followed too. *)
From Coq Require Import List Bool Arith ZArith QArith Qabs Qround.
From Verif Require Import Base LinAlg PileModel SolveModel SpringModel WinklerModel.
Import ListNotations.
Local Open Scope Q_scope.

(** An array some entries of which may be NaN (None) *)
Definition narray := nat -> option Q.
Definition numbers (v : vec) : narray := fun i => Some (v i).
Definition not_numbers : narray := fun _ => None.

(** Displacements (None: all NaN), reactions, the variables iter_no, norm(Rg[~supports]) and nr_tol at the end of the
    loop, the last two as squares (None: NaN) *)
Record report := { p_d : option vec; p_Q : narray; p_iter : nat; p_err : option Q; p_tol : option Q }.

Section Loop.
Variables (solve : solver) (n : nat) (build : vec -> kind -> res mat).
Variables (F U0 : vec) (supports : nat -> bool).
(** What solve_equations gives in pass number i + 1 for a matrix built from NaN: None when numba raises LinAlgError,
    else the reactions.  Nothing is assumed about it.  Building the matrix raises nothing: the divisors are those of
    earlier passes or NaN. *)
Variable ask : nat -> option narray.

Fixpoint all_numbers (m : nat) (R : narray) : bool :=
  match m with O => true | S m => match R m with Some _ => all_numbers m R | None => false end end.
Definition number (x : option Q) : Q := match x with Some q => q | None => 0 end.

(** 564-566 with possible NaN in the reactions *)
Definition late_tol (R : narray) : option Q := if all_numbers n R then Some (tol2 n F (fun i => number (R i))) else None.

(** 545-608 once d is NaN: NaN plus an increment is NaN (569), the internal forces and the residual are NaN (573, 576),
    NaN is not below the tolerance (579), and iter_no is past 100 (596).  [fuel] is max_iter + 1 - iter_no. *)
Fixpoint late (fuel iter : nat) (R : narray) (err tol : option Q) : report :=
  match fuel with
  | O => {| p_d := None; p_Q := R; p_iter := iter; p_err := err; p_tol := tol |}
  | S f => match ask iter with
           | None => {| p_d := None; p_Q := not_numbers; p_iter := iter; p_err := err; p_tol := None |}
           | Some R' => late f (S iter) R' None (late_tol R')
           end
  end.

(** 545-608 while d has numbers: [err] and [tol] are those of the pass before, None before the first
    (err then is the norm of the loads, 541) *)
Fixpoint passes (fuel iter : nat) (d U : vec) (K : mat) (Rg : vec) (R : narray) (tol : option Q) : res report :=
  match fuel with
  | O => Ok {| p_d := Some d; p_Q := R; p_iter := iter; p_err := Some (free_norm2 n supports Rg); p_tol := tol |}
  | S f =>
      match solve_equations solve n K Rg U supports with
      | None => Ok {| p_d := None; p_Q := not_numbers; p_iter := iter; p_err := Some (free_norm2 n supports Rg); p_tol := None |}
      | Some (u_inc, R) =>
          let iter' := S iter in
          let tol := tol2 n F R in
          let d' := fun i => d i + u_inc i in
          bind (build d' Secant) (fun Ks =>
          let Rg' := fun i => (F i - R i) + - mulv n Ks d' i in
          let err := free_norm2 n supports Rg' in
          if Qltb err tol && (1 <? iter')%nat then
            bind (build d' Secant) (fun Kf =>
            match solve_equations solve n Kf F U0 supports with
            | None => Err LinAlgError
            | Some (_, Rf) => Ok {| p_d := Some d'; p_Q := numbers Rf; p_iter := iter'; p_err := Some err; p_tol := Some tol |}
            end)
          else if Nat.eqb iter' 100 then Ok (late f iter' not_numbers (Some err) (Some tol))
          else bind (build d' Tangent) (fun K' => passes f iter' d' zero K' Rg' (numbers R) (Some tol)))
      end
  end.

(** 525-545.  With a negative max_iter no pass is made, and the first use of the unassigned Q (618) raises. *)
Definition run (max_iter : Z) : res report :=
  bind (build zero Initial) (fun K =>
  if (max_iter <? 0)%Z then Err UnboundLocalError
  else passes (S (Z.to_nat max_iter)) 0 zero U0 K F not_numbers None).
End Loop.

Definition run_model (solve : solver) (ask : nat -> option narray) (M : wmodel) (F U0 : vec) (restrained : nat -> bool) (max_iter : Z) : res report :=
  run solve (size M) (build M) F U0 (supports_of restrained U0) ask max_iter.

(** winkler.py 67-85 with possible NaN in the array: no comparison holds of NaN *)
Definition nmask (q : option Q) : option Q := option_map mask q.
Definition nbig (q : option Q) : bool := match q with Some q => big q | None => false end.
Definition nrow : Type := (Q * (option Q * option Q * option Q))%type.
Definition nrows (z : list Q) (R : narray) : list nrow :=
  combine z (map (fun i => (R (3 * i)%nat, R (3 * i + 1)%nat, R (3 * i + 2)%nat)) (seq 0 (length z))).
Definition late_reactions (z : list Q) (R : narray) : list nrow :=
  filter (fun r => let '(_, (a, b, c)) := r in nbig a || nbig b || nbig c)
    (map (fun r => let '(z, (a, b, c)) := r in (z, (nmask a, nmask b, nmask c))) (nrows z R)).

(** 632-633: round(x, 3) of a norm whose square is [q]: the integer next to 1000 x, halves to even, over 1000 *)
Definition rint_root (q : Q) : Z :=
  let f := Z.sqrt (Qfloor q) in
  let h := inject_Z f + (1 # 2) in
  if Qltb q (h * h) then f
  else if Qltb (h * h) q then (f + 1)%Z
  else if Z.even f then f else (f + 1)%Z.
Definition shown (q : Q) : Q := inject_Z (rint_root (q * 1000000)) / 1000.

(** 630-634: what details() shows of the loop *)
Record loop_details := { ld_iter : nat; ld_error : option Q; ld_tolerance : option Q }.
Definition loop_details_of (p : report) : loop_details :=
  {| ld_iter := p_iter p; ld_error := option_map shown (p_err p); ld_tolerance := option_map shown (p_tol p) |}.
