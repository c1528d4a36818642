(** Properties C28-C31, C41 and C60: assembly, linear solution, internal forces, result tables. *)
From Coq Require Import List Bool Arith QArith Qabs.
From Verif Require Import Base LinAlg PileModel BeamModel SolveModel SolveSpec SolveProofs ForceProofs.
Import ListNotations.
Local Open Scope Q_scope.

(** The solver contract used below is met by Gaussian elimination. *)
Theorem C29_solver_exists : solver_ok gauss_solver.
Proof. exact gauss_solver_ok. Qed.
Print Assumptions C29_solver_exists.

(** C28 *)
Theorem C28_symmetric : forall n_elem k, (forall e, (e < n_elem)%nat -> symmetric 6 (k e)) ->
  symmetric (3 * n_elem + 3) (jit_build n_elem k).
Proof. exact build_symmetric. Qed.
Print Assumptions C28_symmetric.

Theorem C28_work_is_sum_over_elements : forall n_elem k u du,
  dot (3 * n_elem + 3) du (mulv (3 * n_elem + 3) (jit_build n_elem k) u) ==
  sum n_elem (fun e => dot 6 (elem_disp du e) (mulv 6 (k e) (elem_disp u e))).
Proof. exact build_work. Qed.
Print Assumptions C28_work_is_sum_over_elements.

Theorem C28_semidefinite : forall n_elem k, (forall e, (e < n_elem)%nat -> psd 6 (k e)) -> psd (3 * n_elem + 3) (jit_build n_elem k).
Proof. exact build_psd. Qed.
Print Assumptions C28_semidefinite.

Theorem C28_rigid_motion_is_free : forall n_elem k z a v t i,
  (forall e a v t j, (e < n_elem)%nat -> (j < 6)%nat ->
     mulv 6 (k e) (of_list [a; v; t; a; v + (z e - z (S e)) * t; t]) j == 0) ->
  mulv (3 * n_elem + 3) (jit_build n_elem k) (rigid z a v t) i == 0.
Proof. exact build_rigid. Qed.
Print Assumptions C28_rigid_motion_is_free.

Theorem C28_base_spring_energy : forall n p v K u, (0 < p)%nat -> (p <= n)%nat ->
  energy n (add_diag n p v K) u == energy n K u + v * (u (n - p)%nat * u (n - p)%nat).
Proof. exact add_diag_energy. Qed.
Print Assumptions C28_base_spring_energy.

(** C29 *)
Theorem C29_equilibrium_and_supports : forall solve n K F U r U' Q, solver_ok solve -> solve_equations solve n K F U r = Some (U', Q) ->
  (forall i, (i < n)%nat -> mulv n K U' i == F i + Q i) /\
  (forall i, (i < n)%nat -> r i = false -> Q i == 0) /\
  (forall i, (i < n)%nat -> r i = true -> U' i = U i).
Proof. exact solve_equations_sound. Qed.
Print Assumptions C29_equilibrium_and_supports.

Theorem C29_solves_iff_stable : forall solve n K F U r, solver_ok solve ->
  ((exists R, solve_equations solve n K F U r = Some R) <-> stable n K r).
Proof. exact solve_equations_succeeds. Qed.
Print Assumptions C29_solves_iff_stable.

Theorem C29_beam : forall solve n k F U restrained d Q q, solver_ok solve -> beam solve n k F U restrained = Some (d, Q, q) ->
  (forall i, (i < 3 * n + 3)%nat -> mulv (3 * n + 3) (jit_build n k) d i == F i + Q i) /\
  (forall i, (i < 3 * n + 3)%nat -> restrained i = false -> U i == 0 -> Q i == 0) /\
  (forall i, (i < 3 * n + 3)%nat -> restrained i = true \/ ~ U i == 0 -> d i = U i).
Proof. exact beam_sound. Qed.
Print Assumptions C29_beam.

(** C30 *)
Theorem C30_superposition : forall solve n K r a b F1 P1 U1 Q1 F2 P2 U2 Q2, solver_ok solve ->
  solve_equations solve n K F1 P1 r = Some (U1, Q1) -> solve_equations solve n K F2 P2 r = Some (U2, Q2) ->
  exists U Q, solve_equations solve n K (fun i => a * F1 i + b * F2 i) (fun i => a * P1 i + b * P2 i) r = Some (U, Q) /\
    veq n U (fun i => a * U1 i + b * U2 i) /\ veq n Q (fun i => a * Q1 i + b * Q2 i).
Proof. exact superposition. Qed.
Print Assumptions C30_superposition.

Theorem C30_unique : forall n K F r U1 Q1 U2 Q2, stable n K r ->
  (forall i, (i < n)%nat -> mulv n K U1 i == F i + Q1 i) -> (forall i, (i < n)%nat -> mulv n K U2 i == F i + Q2 i) ->
  (forall i, (i < n)%nat -> r i = false -> Q1 i == 0) -> (forall i, (i < n)%nat -> r i = false -> Q2 i == 0) ->
  (forall i, (i < n)%nat -> r i = true -> U1 i == U2 i) ->
  veq n U1 U2 /\ veq n Q1 Q2.
Proof. exact solution_unique. Qed.
Print Assumptions C30_unique.

Theorem C30_reciprocity : forall solve n K r F1 U1 Q1 F2 U2 Q2, solver_ok solve -> symmetric n K ->
  solve_equations solve n K F1 (fun _ => 0) r = Some (U1, Q1) -> solve_equations solve n K F2 (fun _ => 0) r = Some (U2, Q2) ->
  dot n F1 U2 == dot n F2 U1.
Proof. exact reciprocity. Qed.
Print Assumptions C30_reciprocity.

Theorem C30_internal_forces_linear : forall n k a b u v w, (1 <= n)%nat -> veq (3 * n + 3) w (fun i => a * u i + b * v i) ->
  forall e i, (e < n)%nat ->
    nth e (pile_internal_forces (S n) k w) (fun _ => 0) i ==
    a * nth e (pile_internal_forces (S n) k u) (fun _ => 0) i + b * nth e (pile_internal_forces (S n) k v) (fun _ => 0) i.
Proof. exact forces_linear. Qed.
Print Assumptions C30_internal_forces_linear.

(** C31 *)
Theorem C31_node_balance : forall n k u g, (1 <= n)%nat ->
  sum n (fun e => scatter e (nth e (pile_internal_forces (S n) k u) (fun _ => 0)) g) ==
  - mulv (3 * n + 3) (jit_build n k) u g.
Proof. exact node_balance. Qed.
Print Assumptions C31_node_balance.

(** Method of sections: the two rows of element [e] carry the resultant of all loads and reactions
    at nodes 0..e, the moment taken about the row's own elevation. *)
Theorem C31_force_table_is_method_of_sections : forall solve n ty c E nu I A dd wt z k F U restrained d Q q, solver_ok solve -> 0 < E -> -(3#4) <= nu ->
  (1 <= n)%nat -> length z = S n ->
  (forall e, (e < n)%nat -> 0 < I e /\ 0 < A e /\ 0 < dd e /\ nth (S e) z 0 < nth e z 0 /\
     elem_mech ty c E nu (I e) (A e) (dd e) (wt e) (nth e z 0 - nth (S e) z 0) = Ok (k e)) ->
  beam solve n k F U restrained = Some (d, Q, q) ->
  let R := fun i => F i + Q i in
  let T := structural_forces z q (map (fun e => nth e z 0 - nth (S e) z 0) (seq 0 n)) in
  length T = (2 * n)%nat /\
  forall e, (e < n)%nat ->
    fst (nth (2 * e) T no_row) = nth e z 0 /\ fst (nth (2 * e + 1) T no_row) = nth (S e) z 0 /\
    eq3 (snd (nth (2 * e) T no_row))
        (axial_above R e, shear_above R e, moment_above (fun a => nth a z 0) R e (nth e z 0)) /\
    eq3 (snd (nth (2 * e + 1) T no_row))
        (axial_above R e, shear_above R e, moment_above (fun a => nth a z 0) R e (nth (S e) z 0)).
Proof. exact pile_force_table. Qed.
Print Assumptions C31_force_table_is_method_of_sections.

(** The same table for any displacements: the nodal forces are those the structure takes, loads and
    reactions less what the soil takes. *)
Theorem C31_force_table_any_displacement : forall n k z u, (1 <= n)%nat -> length z = S n ->
  (forall e, (e < n)%nat -> elem_equilibrium (nth e z 0 - nth (S e) z 0) (k e)) ->
  let R := mulv (3 * n + 3) (jit_build n k) u in
  let T := structural_forces z (pile_internal_forces (S n) k u) (map (fun e => nth e z 0 - nth (S e) z 0) (seq 0 n)) in
  length T = (2 * n)%nat /\
  forall e, (e < n)%nat ->
    fst (nth (2 * e) T no_row) = nth e z 0 /\ fst (nth (2 * e + 1) T no_row) = nth (S e) z 0 /\
    eq3 (snd (nth (2 * e) T no_row))
        (axial_above R e, shear_above R e, moment_above (fun a => nth a z 0) R e (nth e z 0)) /\
    eq3 (snd (nth (2 * e + 1) T no_row))
        (axial_above R e, shear_above R e, moment_above (fun a => nth a z 0) R e (nth (S e) z 0)).
Proof. exact force_table. Qed.
Print Assumptions C31_force_table_any_displacement.

Theorem C31_global_equilibrium : forall solve n ty c E nu I A dd wt z k F U restrained d Q q, solver_ok solve -> 0 < E -> -(3#4) <= nu -> (1 <= n)%nat ->
  (forall e, (e < n)%nat -> 0 < I e /\ 0 < A e /\ 0 < dd e /\ z (S e) < z e /\
     elem_mech ty c E nu (I e) (A e) (dd e) (wt e) (z e - z (S e)) = Ok (k e)) ->
  beam solve n k F U restrained = Some (d, Q, q) ->
  let R := fun i => F i + Q i in
  axial_above R n == 0 /\ shear_above R n == 0 /\ forall at_z, moment_above z R n at_z == 0.
Proof. exact pile_equilibrium. Qed.
Print Assumptions C31_global_equilibrium.

(** C60 *)
Theorem C60_beam_succeeds_iff_held : forall solve n ty c E nu I A d wt z k F U restrained, solver_ok solve -> 0 < E -> -(3#4) <= nu ->
  (forall e, (e < n)%nat -> 0 < I e /\ 0 < A e /\ 0 < d e /\ z (S e) < z e /\
     elem_mech ty c E nu (I e) (A e) (d e) (wt e) (z e - z (S e)) = Ok (k e)) ->
  ((exists R, beam solve n k F U restrained = Some R) <-> held n (supports_of restrained U)).
Proof. exact pile_beam_succeeds. Qed.
Print Assumptions C60_beam_succeeds_iff_held.

(** C41: a row is listed iff one of its reactions exceeds the threshold; listed values are the
    reactions, those below the threshold replaced by zero. *)
Theorem C41_reaction_table : forall rows, reaction_rows rows = map masked (filter shown rows).
Proof. exact reaction_table. Qed.
Print Assumptions C41_reaction_table.

Theorem C41_shown_iff : forall z a b c, shown (z, (a, b, c)) = true <-> (1#1000) < Qabs a \/ (1#1000) < Qabs b \/ (1#1000) < Qabs c.
Proof. exact shown_iff. Qed.
Print Assumptions C41_shown_iff.

Theorem C41_masked_value : forall q, (Qabs q < 1#1000 -> mask q = 0) /\ ((1#1000) <= Qabs q -> mask q = q).
Proof. exact mask_value. Qed.
Print Assumptions C41_masked_value.

(** A cantilever of two 1.5 m elements, fixed at the foot and loaded laterally at the head by 7 kN:
    head deflection P L^3 / (3 E I) = 7 * 27 / (3 * 200) and moment 21 kNm at the foot. *)
Definition ex_k (e : nat) : mat := mech_phi 100 2 3 (3#2) 0.
Definition ex_F : vec := fun i => if Nat.eqb i 1 then 7 else 0.
Definition ex_restr (i : nat) : bool := (6 <=? i)%nat.

Example C31_example :
  option_map (fun r => let '(d, Q, q) := r in
      (map Qred [d 1%nat; Q 7%nat; Q 8%nat],
       map (fun row => let '(a, (b, c, d)) := row in (Qred a, (Qred b, Qred c, Qred d)))
         (structural_forces [0; -(3#2); -(3)] q [3#2; 3#2])))
    (beam gauss_solver 2 ex_k ex_F (fun _ => 0) ex_restr) =
  Some ([63#200; -(7); 21],
    [(0, (0, 7, 0)); (-(3#2), (0, 7, -(21#2))); (-(3#2), (0, 7, -(21#2))); (-(3), (0, 7, -(21)))]).
Proof. vm_compute. reflexivity. Qed.

Example C60_example : held 2 ex_restr /\ ~ held 2 (fun i => Nat.eqb i 1) /\
  beam gauss_solver 2 ex_k ex_F (fun _ => 0) (fun i => Nat.eqb i 1) = None.
Proof.
  split.
  - split; [exists 2%nat; auto|]. exists 2%nat. split; auto. split; auto. left. exists 2%nat. auto.
  - split; [|vm_compute; reflexivity].
    intros [(a & Ha & H) _]. destruct a as [|[|[|a]]]; cbn in H; discriminate.
Qed.

Example C41_example : reaction_rows [(0, (1#2000, 5, 0)); (-(1), (0, 1#1000, 1#2000)); (-(2), (0, 0, -(3)))] =
  [(0, (0, 5, 0)); (-(2), (0, 0, -(3)))].
Proof. reflexivity. Qed.
