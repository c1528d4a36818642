(** Properties C32-C34, C40, C61 and C62: soil springs and the pile-soil stiffness matrix. *)
From Coq Require Import List Bool Arith ZArith QArith Qabs Qminmax Lia.
From Verif Require Import Base LinAlg PileModel BeamModel BeamSpec SolveModel SolveSpec SolveProofs SpringModel SpringSpec SpringProofs SoilProofs SpringWitness.
Import ListNotations.
Local Open Scope Q_scope.

(** C32: full statement: spring [j] of element [e] uses the displacement of node [e + j].  True for
    every spring except the last, which uses the displacement of the node above. *)
Theorem C32_own_node_partial : forall n (u : vec) c e j, (e < n)%nat -> (j < 2)%nat -> ~ (e = (n - 1)%nat /\ j = 1%nat) ->
  spring_disp n u c e j = u (3 * (e + j) + c)%nat.
Proof.
  intros n u c e j He Hj NL. rewrite spring_disp_node by auto. unfold spring_node.
  destruct (Nat.eqb_spec e (n - 1)); destruct (Nat.eqb_spec j 1); cbn [andb]; auto. destruct NL; auto.
Qed.
Print Assumptions C32_own_node_partial.

Theorem C32_last_spring_refuted : forall n (u : vec) c, (1 <= n)%nat -> spring_disp n u c (n - 1) 1 = u (3 * (n - 1) + c)%nat.
Proof.
  intros n u c Hn. rewrite spring_disp_node by lia. unfold spring_node. rewrite !Nat.eqb_refl. reflexivity.
Qed.
Print Assumptions C32_last_spring_refuted.

(** The two doubling functions agree exactly when the last two entries do. *)
Theorem C32_agrees_iff : forall a n, length a = S n -> (1 <= n)%nat -> (double_inner a = repeat_inner a <-> nth (n - 1) a 0 = nth n a 0).
Proof. exact double_inner_repeat. Qed.
Print Assumptions C32_agrees_iff.

(** The mobilisation table reports the elevation of the last but one node twice and of the tip never. *)
Theorem C32_table_elevation_refuted : forall z n, length z = S n -> (1 <= n)%nat -> nth (2 * (n - 1) + 1) (double_inner z) 0 = nth (n - 1) z 0.
Proof. exact last_spring_node. Qed.
Print Assumptions C32_table_elevation_refuted.

Example C32_example : double_inner [0; -(1); -(2); -(3)] = [0; -(1); -(1); -(2); -(2); -(2)].
Proof. reflexivity. Qed.

(** C33 *)
Theorem C33_curve_function : forall c d p q, strict c -> c <> [] -> on_curve c d p -> on_curve c d q -> p == q.
Proof. exact on_curve_unique. Qed.
Print Assumptions C33_curve_function.

Theorem C33_py_secant : forall u c, (2 <= length c)%nat -> strict c -> hardening c -> origin (point c 0) ->
  exists k p, py_spring u c Secant = Ok k /\ on_curve c (Qabs u) p /\ k * Qabs u == p /\ 0 <= k /\ 0 <= p /\ p <= snd (point c (length c - 1)).
Proof. exact py_secant. Qed.
Print Assumptions C33_py_secant.

Theorem C33_base_secant : forall u c, (2 <= length c)%nat -> strict c -> hardening c -> origin (point c 0) ->
  exists k p, base_spring u c Secant = Ok k /\ on_curve c (Qabs u) p /\ k * Qabs u == p /\ 0 <= k /\ 0 <= p /\ p <= snd (point c (length c - 1)).
Proof. exact base_secant. Qed.
Print Assumptions C33_base_secant.

Theorem C33_rotational_secant : forall u p pp cols, let c := mt_curve p pp cols in
  (2 <= length cols)%nat -> strict c -> hardening c -> Qeq_bool (qsum (map (fun col => fst (pt col 0)) cols)) 0 = false ->
  exists k m, mt_spring u p pp cols Secant = Ok k /\ on_curve c (Qabs u) m /\ k * Qabs u == m /\ 0 <= k /\ 0 <= m /\ m <= snd (point c (length c - 1)).
Proof. exact mt_secant. Qed.
Print Assumptions C33_rotational_secant.

Theorem C33_initial : forall u c k, Qeq_bool (qsum (map fst c)) 0 = false -> py_spring u c Initial = Ok k ->
  k * Qabs (fst (point c 1) - fst (point c 0)) == Qabs (snd (point c 1) - snd (point c 0)).
Proof. exact initial_slope. Qed.
Print Assumptions C33_initial.

Theorem C33_tangent : forall u c, ~ u == 0 -> c <> [] -> ordered c -> Qeq_bool (qsum (map fst c)) 0 = false ->
  exists k dx p0 p1, py_spring u c Tangent = Ok k /\ 0 < dx /\ dx <= 1#2000 /\ dx <= Qabs u /\
    on_curve c (Qabs u - dx) p0 /\ on_curve c (Qabs u) p1 /\ k * dx == Qabs (p1 - p0).
Proof. exact py_tangent. Qed.
Print Assumptions C33_tangent.

Theorem C33_nonnegative : forall u c k v, (py_spring u c k = Ok v \/ base_spring u c k = Ok v) -> 0 <= v.
Proof. intros u c k v [H|H]; [exact (py_nonneg u c k v H)|exact (base_nonneg u c k v H)]. Qed.
Print Assumptions C33_nonnegative.

Example C33_example : ((2 <= length py0)%nat /\ strict py0 /\ hardening py0 /\ origin (point py0 0)) /\
  match py_spring (-(55#1000)) py0 Secant with Ok k => k * (55#1000) == 150 | Err _ => False end.
Proof. split; [exact py0_ok|vm_compute; reflexivity]. Qed.

(** C34 *)
Theorem C34_origin_index : forall m, (0 < m)%nat -> (zero_index (2 * m + 1) = m <-> Nat.odd m = true).
Proof. exact zero_index_middle. Qed.
Print Assumptions C34_origin_index.

Theorem C34_shaft_secant : forall u c, strict (rev c) -> hardening (rev c) ->
  (S (zero_index (length c)) < length c)%nat -> origin (point c (zero_index (length c))) ->
  exists k t, tz_spring u c Secant = Ok k /\ on_curve (rev c) u t /\ k * u == t /\ 0 <= k /\
     (0 <= u -> 0 <= t /\ t <= snd (point c 0)) /\ (u <= 0 -> snd (point c (length c - 1)) <= t /\ t <= 0).
Proof. exact tz_secant. Qed.
Print Assumptions C34_shaft_secant.

Theorem C34_tip_secant : forall u c, strict (rev c) -> hardening (rev c) ->
  (S (zero_index (length c)) < length c)%nat -> origin (point c (zero_index (length c))) ->
  exists k t, base_axial_spring u c Secant = Ok k /\ on_curve (rev c) u t /\ k * u == t /\ 0 <= k /\
     (0 <= u -> 0 <= t /\ t <= snd (point c 0)) /\ (u <= 0 -> snd (point c (length c - 1)) <= t /\ t <= 0).
Proof. exact base_axial_secant. Qed.
Print Assumptions C34_tip_secant.

Theorem C34_initial : forall u c k, Qeq_bool (qsum (map (fun p => Qabs (fst p)) c)) 0 = false -> tz_spring u c Initial = Ok k ->
  let m := zero_index (length c) in k * Qabs (fst (point c m) - fst (point c (S m))) == Qabs (snd (point c (S m)) - snd (point c m)).
Proof. exact axial_initial. Qed.
Print Assumptions C34_initial.

Theorem C34_tangent : forall u c, ~ u == 0 -> c <> [] -> ordered (rev c) -> Qeq_bool (qsum (map (fun p => Qabs (fst p)) c)) 0 = false ->
  exists k dx x p0 p1, tz_spring u c Tangent = Ok k /\ 0 < dx /\ dx <= 1#2000 /\ Qabs x + dx == Qabs u /\ 0 <= x * u /\
    on_curve (rev c) x p0 /\ on_curve (rev c) u p1 /\ k * dx == Qabs (p1 - p0).
Proof. exact tz_tangent. Qed.
Print Assumptions C34_tangent.

Example C34_example : (strict (rev tz0) /\ hardening (rev tz0) /\ (S (zero_index (length tz0)) < length tz0)%nat /\
  origin (point tz0 (zero_index (length tz0))) /\ length tz0 = 15%nat) /\
  match tz_spring (-(3#1000)) tz0 Secant with Ok k => k * (3#1000) == 30 | Err _ => False end.
Proof. split; [exact tz0_ok|vm_compute; reflexivity]. Qed.

(** C40: full statement: the reported maximum is the largest resistance.  The code takes the maximum
    over resistances and displacements together. *)
Theorem C40_reported_partial : forall u c, (2 <= length c)%nat -> strict c -> hardening c -> origin (point c 0) ->
  exists p pmax, base_mobilised u c = Ok (p, pmax) /\ on_curve c (Qabs u) p /\ p <= pmax /\
    pmax == Qmax (snd (point c (length c - 1))) (fst (point c (length c - 1))).
Proof. exact base_reported. Qed.
Print Assumptions C40_reported_partial.

Theorem C40_displacement_reported_refuted : exists u c pmax p, (2 <= length c)%nat /\ strict c /\ hardening c /\ origin (point c 0) /\
  base_mobilised u c = Ok (p, pmax) /\ ~ pmax == snd (point c (length c - 1)).
Proof.
  exists (1#10), [(0, 0); (1#5, 1#10)]. eexists. eexists. split; [cbn; lia|]. split; [cbn; split; [reflexivity|exact I]|].
  split; [cbn; split; [discriminate|exact I]|]. split; [split; reflexivity|]. split; [vm_compute; reflexivity|]. vm_compute. discriminate.
Qed.
Print Assumptions C40_displacement_reported_refuted.

Example C40_example : exists p, base_mobilised (55#1000) py0 = Ok (p, 200) /\ p == 150.
Proof. eexists. split; [vm_compute; reflexivity|reflexivity]. Qed.

(** C61: full statement: the pile-soil system responds alike in both lateral directions.  True
    without rotational springs; with them the direction matters. *)
Theorem C61_mirror_partial : forall M u v k, w_mt M = None -> mirrored u v -> build M v k = build M u k.
Proof. exact mirror_build. Qed.
Print Assumptions C61_mirror_partial.

Theorem C61_direction_refuted : exists M u v K K', mirrored u v /\ build M u Secant = Ok K /\ build M v Secant = Ok K' /\ ~ K 2%nat 2%nat == K' 2%nat 2%nat.
Proof. exact direction_matters. Qed.
Print Assumptions C61_direction_refuted.

(** Wherever the pile moves in the negative direction the m-t curve for zero lateral resistance is
    used, so springs that depend on that resistance vanish. *)
Theorem C61_zero_resistance_curve_refuted : forall p pp cols, p < 0 -> nondecreasing (0 :: pp) -> (forall col, In col cols -> col <> []) ->
  mt_curve p (0 :: pp) cols = (0, 0) :: map (fun col => point col 0) (tl cols).
Proof. exact mt_curve_negative. Qed.
Print Assumptions C61_zero_resistance_curve_refuted.

Theorem C61_spring_vanishes_refuted : forall u p pp cols k v, p < 0 -> nondecreasing (0 :: pp) -> (forall col, In col cols -> col <> []) ->
  (forall col, In col cols -> snd (point col 0) == 0) -> ordered ((0, 0) :: map (fun col => point col 0) (tl cols)) ->
  mt_spring u p (0 :: pp) cols k = Ok v -> v == 0.
Proof. exact mt_vanishes. Qed.
Print Assumptions C61_spring_vanishes_refuted.

Example C61_example : exists u p pp cols v w, 0 < v /\ w == 0 /\ mt_spring u p pp cols Secant = Ok v /\ mt_spring (- u) (- p) pp cols Secant = Ok w.
Proof. exact rotation_spring_lost. Qed.

Example C61_example_mirrored : mirrored u0 u0m.
Proof. exact u0_mirrored. Qed.

(** C62 *)
Theorem C62_virtual_work : forall M u k K, build M u k = Ok K ->
  exists kp kz km h m q, spring_values M u k kp kz km h m q /\
  (forall v dv, dot (size M) dv (mulv (size M) K v) ==
     sum (w_n M) (fun e => dot 6 (elem_disp dv e) (mulv 6 (w_mech M e) (elem_disp v e)) + soil_work M kp kz km v dv e)
     + h * v (3 * w_n M + 1)%nat * dv (3 * w_n M + 1)%nat + m * v (3 * w_n M + 2)%nat * dv (3 * w_n M + 2)%nat
     + q * v (3 * w_n M)%nat * dv (3 * w_n M)%nat).
Proof. exact build_parts. Qed.
Print Assumptions C62_virtual_work.

Theorem C62_symmetric : forall M z u k K, sound_model M z -> build M u k = Ok K -> symmetric (size M) K.
Proof. exact system_symmetric. Qed.
Print Assumptions C62_symmetric.

Theorem C62_energy : forall M z u k K, sound_model M z -> build M u k = Ok K -> psd (size M) K.
Proof. exact system_psd. Qed.
Print Assumptions C62_energy.

Theorem C62_stable : forall M z u k K, sound_model M z -> build M u k = Ok K -> forall r,
  (exists py e j s, w_py M = Some py /\ (e < w_n M)%nat /\ (j < 2)%nat /\ py_spring (spring_disp (w_n M) u 1 e j) (py e j) k = Ok s /\ 0 < s) ->
  ((exists a, (a <= w_n M)%nat /\ r (3 * a)%nat = true) \/
   (exists tz e j s, w_tz M = Some tz /\ (e < w_n M)%nat /\ (j < 2)%nat /\ tz_spring (spring_disp (w_n M) u 0 e j) (tz e j) k = Ok s /\ 0 < s) \/
   (exists c s, w_qz M = Some c /\ base_axial_spring (u (3 * w_n M)%nat) c k = Ok s /\ 0 < s)) ->
  stable (size M) K r.
Proof. exact system_stable. Qed.
Print Assumptions C62_stable.

(** Hence the linear system of any iteration in which a lateral spring is still active has a solution. *)
Theorem C62_solvable : forall solve M z u k K, solver_ok solve -> sound_model M z -> build M u k = Ok K -> forall r F U,
  (exists py e j s, w_py M = Some py /\ (e < w_n M)%nat /\ (j < 2)%nat /\ py_spring (spring_disp (w_n M) u 1 e j) (py e j) k = Ok s /\ 0 < s) ->
  ((exists a, (a <= w_n M)%nat /\ r (3 * a)%nat = true) \/
   (exists tz e j s, w_tz M = Some tz /\ (e < w_n M)%nat /\ (j < 2)%nat /\ tz_spring (spring_disp (w_n M) u 0 e j) (tz e j) k = Ok s /\ 0 < s) \/
   (exists c s, w_qz M = Some c /\ base_axial_spring (u (3 * w_n M)%nat) c k = Ok s /\ 0 < s)) ->
  exists R, solve_equations solve (size M) K F U r = Some R.
Proof.
  intros solve M z u k K SO SM HB r F U LAT AX. apply solve_equations_succeeds; [exact SO|].
  exact (system_stable M z u k K SM HB r LAT AX).
Qed.
Print Assumptions C62_solvable.

(** So has the system of a pile that its supports hold, whatever the springs. *)
Theorem C62_supported : forall solve M z u k K, solver_ok solve -> sound_model M z -> build M u k = Ok K -> forall r F U, held (w_n M) r ->
  exists R, solve_equations solve (size M) K F U r = Some R.
Proof.
  intros solve M z u k K SO SM HB r F U HL. apply solve_equations_succeeds; [exact SO|]. exact (system_held M z u k K SM HB r HL).
Qed.
Print Assumptions C62_supported.

Example C62_example : sound_model soil0 z0 /\ (exists K, build soil0 (fun _ => 0) Initial = Ok K) /\
  (exists py e j s, w_py soil0 = Some py /\ (e < w_n soil0)%nat /\ (j < 2)%nat /\
    py_spring (spring_disp (w_n soil0) (fun _ => 0) 1 e j) (py e j) Initial = Ok s /\ 0 < s) /\
  (exists tz e j s, w_tz soil0 = Some tz /\ (e < w_n soil0)%nat /\ (j < 2)%nat /\
    tz_spring (spring_disp (w_n soil0) (fun _ => 0) 0 e j) (tz e j) Initial = Ok s /\ 0 < s).
Proof. exact (conj soil0_sound (conj soil0_builds (conj soil0_lateral soil0_axial))). Qed.
