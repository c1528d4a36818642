(** Properties C35, C36, C37 and C63: the pile-soil analysis. *)
From Coq Require Import List Bool Arith ZArith QArith Qabs Lia Lqa.
From Verif Require Import Base LinAlg PileModel BeamModel BeamProofs SolveModel SolveSpec SolveProofs SpringModel SpringProper SpringWitness WinklerModel WinklerSpec WinklerProofs WinklerWitness.
Import ListNotations.
Local Open Scope Q_scope.

(** C35: full statement: the analysis ends, and a result that is not NaN is in equilibrium.
    The second part needs max_iter >= 99: see the refutation. *)
Theorem C35_terminates : forall solve M F U0 r max_iter o, solver_ok solve -> winkler_model solve M F U0 r max_iter = Ok o ->
  (length (o_hist o) <= S max_iter)%nat.
Proof. intros solve M F U0 r m o SO H. exact (proj1 (proj2 (winkler_sound _ _ _ _ _ _ SO m o H))). Qed.
Print Assumptions C35_terminates.

Theorem C35_equilibrium_partial : forall solve M F U0 r max_iter o v, solver_ok solve -> (99 <= max_iter)%nat ->
  winkler_model solve M F U0 r max_iter = Ok o -> o_d o = Some v ->
  exists Ks R e t, build M v Secant = Ok Ks /\ o_err o = Some e /\ o_tol o = Some t /\
    (forall i, (i < size M)%nat -> supports_of r U0 i = false -> R i == 0) /\
    e == out_of_balance (size M) (supports_of r U0) F Ks v /\ t == (1 # 100000000) * force2 (size M) (fun i => F i - R i) /\ e < t.
Proof. intros solve M F U0 r m o v SO L H E. exact (proj1 (proj2 (proj2 (proj2 (proj2 (winkler_sound _ _ _ _ _ _ SO m o H)))) L v E)). Qed.
Print Assumptions C35_equilibrium_partial.

(** A pile held by the soil alone: the tolerance is one ten-thousandth of the loads. *)
Theorem C35_unsupported_equilibrium_partial : forall solve M F U0 r max_iter o v, solver_ok solve -> (99 <= max_iter)%nat ->
  (forall i, (i < size M)%nat -> supports_of r U0 i = false) ->
  winkler_model solve M F U0 r max_iter = Ok o -> o_d o = Some v ->
  exists Ks, build M v Secant = Ok Ks /\ force2 (size M) (fun i => F i - mulv (size M) Ks v i) < (1 # 100000000) * force2 (size M) F.
Proof.
  intros solve M F U0 r m o v SO L NS H E. destruct (C35_equilibrium_partial solve M F U0 r m o v SO L H E) as (Ks & R & e & t & B & _ & _ & RZ & EE & ET & LT).
  exists Ks. split; [exact B|].
  assert (E1 : force2 (size M) (fun i => F i - mulv (size M) Ks v i) == e).
  { rewrite EE. unfold force2, out_of_balance. apply sum_ext. intros i Hi. rewrite (NS i Hi). reflexivity. }
  assert (E2 : force2 (size M) (fun i => F i - R i) == force2 (size M) F).
  { unfold force2. apply sum_ext. intros i Hi. rewrite (RZ i Hi (NS i Hi)). ring. }
  rewrite E1. rewrite E2 in ET. lra.
Qed.
Print Assumptions C35_unsupported_equilibrium_partial.

Theorem C35_reactions_partial : forall solve M F U0 r max_iter o v, solver_ok solve -> (99 <= max_iter)%nat ->
  winkler_model solve M F U0 r max_iter = Ok o -> o_d o = Some v ->
  (exists R, o_Q o = Some R /\ reactions_for (size M) (build M) F U0 (supports_of r U0) v R) /\ (2 <= o_iter o <= 100)%nat.
Proof. intros solve M F U0 r m o v SO L H E. exact (proj2 (proj2 (proj2 (proj2 (proj2 (winkler_sound _ _ _ _ _ _ SO m o H)))) L v E)). Qed.
Print Assumptions C35_reactions_partial.

(** In the linear range the second pass confirms the linear solution and its reactions. *)
Theorem C35_linear_range : forall solve M F U0 r K U1 R1 Ks Kt, solver_ok solve -> build M zero Initial = Ok K ->
  solve_equations solve (size M) K F U0 (supports_of r U0) = Some (U1, R1) ->
  build M U1 Secant = Ok Ks -> same (size M) Ks K -> build M U1 Tangent = Ok Kt -> same (size M) Kt K ->
  (exists i, (i < size M)%nat /\ ~ F i == 2 * R1 i) -> forall max_iter, (1 <= max_iter)%nat ->
  exists o v R, winkler_model solve M F U0 r max_iter = Ok o /\ o_iter o = 2%nat /\ o_d o = Some v /\ veq (size M) v U1 /\ o_Q o = Some R /\ veq (size M) R R1.
Proof.
  intros solve M F U0 r K U1 R1 Ks Kt H1 H2 H3 H4 H5 H6 H7 H8 m Hm.
  destruct (model_linear solve M F U0 r K U1 R1 Ks Kt H1 H2 H3 H4 H5 H6 H7 H8 m Hm) as (o & v & R & A & B & C & D & E & G & _).
  exists o, v, R. exact (conj A (conj B (conj C (conj D (conj E G))))).
Qed.
Print Assumptions C35_linear_range.

Example C35_example : exists o v, winkler_model gauss_solver soil1 small_load zero free 100 = Ok o /\ o_d o = Some v /\
  (forall i, (i < size soil1)%nat -> supports_of free zero i = false).
Proof.
  destruct soil1_linear as (K & U1 & R1 & Ks & Kt & A & B & C & D & E & G & I).
  destruct (C35_linear_range gauss_solver soil1 small_load zero free K U1 R1 Ks Kt gauss_solver_ok A B C D E G I 100 ltac:(lia)) as (o & v & R & X & _ & Y & _).
  exists o, v. split; [exact X|]. split; [exact Y|]. reflexivity.
Qed.

(** With fewer passes the last displacements are returned whatever the forces out of balance; here
    they exceed the tolerance a thousand times. *)
Theorem C35_few_passes_refuted : exists M F U0 r max_iter o e t v, winkler_model gauss_solver M F U0 r max_iter = Ok o /\
  o_d o = Some v /\ o_err o = Some e /\ o_tol o = Some t /\ 1000 * 1000 * t < e.
Proof.
  destruct one_pass_unbalanced as (o & e & t & v & H). exists soil1, pull, zero, head_only, 0%nat, o, e, t, v. exact H.
Qed.
Print Assumptions C35_few_passes_refuted.

(** C36 *)
Theorem C36_prescribed_every_pass : forall solve M F U0 r max_iter o, solver_ok solve -> winkler_model solve M F U0 r max_iter = Ok o ->
  forall d, In d (o_hist o) -> forall i, (i < size M)%nat -> supports_of r U0 i = true -> d i == U0 i.
Proof.
  intros solve M F U0 r m o SO H d HD. pose proof (proj1 (winkler_sound _ _ _ _ _ _ SO m o H)) as A. rewrite Forall_forall in A. exact (A d HD).
Qed.
Print Assumptions C36_prescribed_every_pass.

Theorem C36_prescribed_result : forall solve M F U0 r max_iter o v, solver_ok solve -> winkler_model solve M F U0 r max_iter = Ok o ->
  o_d o = Some v -> forall i, (i < size M)%nat -> supports_of r U0 i = true -> v i == U0 i.
Proof. intros solve M F U0 r m o v SO H E. exact (winkler_moves _ _ _ _ _ _ SO m o v H E). Qed.
Print Assumptions C36_prescribed_result.

Example C36_example : exists o v, winkler_model gauss_solver soil1 pull zero head_only 0 = Ok o /\ o_d o = Some v /\ supports_of head_only zero 4%nat = true /\ ~ v 1%nat == 0.
Proof.
  destruct one_pass as (o & e & t & v & A & B & _ & _ & _ & C). exists o, v. split; [exact A|]. split; [exact B|]. split; [reflexivity|exact C].
Qed.

(** C37: full statement: a model without load or prescribed displacement gives zero displacements.
    The error 0 is never below the tolerance 0, so the analysis ends in NaN. *)
Theorem C37_unloaded_nan_refuted : forall solve M F U0 r K max_iter, solver_ok solve ->
  veq (size M) F zero -> veq (size M) U0 zero -> build M zero Initial = Ok K -> stable (size M) K (supports_of r U0) -> (99 <= max_iter)%nat ->
  exists o, winkler_model solve M F U0 r max_iter = Ok o /\ o_d o = None /\ o_Q o = None.
Proof.
  intros solve M F U0 r K m SO HF HU B ST L. destruct (model_unloaded solve M F U0 r K SO HF HU B ST m) as (o & A & C & _). destruct (C L) as (D & E & _). exists o. exact (conj A (conj D E)).
Qed.
Print Assumptions C37_unloaded_nan_refuted.

Theorem C37_few_passes_partial : forall solve M F U0 r K max_iter, solver_ok solve ->
  veq (size M) F zero -> veq (size M) U0 zero -> build M zero Initial = Ok K -> stable (size M) K (supports_of r U0) -> (max_iter < 99)%nat ->
  exists o v, winkler_model solve M F U0 r max_iter = Ok o /\ o_iter o = S max_iter /\ o_d o = Some v /\ veq (size M) v zero.
Proof.
  intros solve M F U0 r K m SO HF HU B ST L. destruct (model_unloaded solve M F U0 r K SO HF HU B ST m) as (o & A & _ & C).
  destruct (C L) as (I & v & D & E). exists o, v. exact (conj A (conj I (conj D E))).
Qed.
Print Assumptions C37_few_passes_partial.

Example C37_example : exists K, build soil1 zero Initial = Ok K /\ stable (size soil1) K (supports_of free zero).
Proof. exact soil1_stable. Qed.

(** C63: full statement: the tolerance is one ten-thousandth of loads and reactions together (F + Q).
    The code subtracts the reactions, and they are counted once more in every pass. *)
Theorem C63_linear_tolerance_partial : forall solve M F U0 r K U1 R1 Ks Kt, solver_ok solve -> build M zero Initial = Ok K ->
  solve_equations solve (size M) K F U0 (supports_of r U0) = Some (U1, R1) ->
  build M U1 Secant = Ok Ks -> same (size M) Ks K -> build M U1 Tangent = Ok Kt -> same (size M) Kt K ->
  (exists i, (i < size M)%nat /\ ~ F i == 2 * R1 i) -> forall max_iter, (1 <= max_iter)%nat ->
  exists o R t, winkler_model solve M F U0 r max_iter = Ok o /\ o_Q o = Some R /\ veq (size M) R R1 /\
    o_tol o = Some t /\ t == (1 # 100000000) * force2 (size M) (fun i => F i - 2 * R1 i).
Proof.
  intros solve M F U0 r K U1 R1 Ks Kt H1 H2 H3 H4 H5 H6 H7 H8 m Hm.
  destruct (model_linear solve M F U0 r K U1 R1 Ks Kt H1 H2 H3 H4 H5 H6 H7 H8 m Hm) as (o & v & R & A & _ & _ & _ & E & G & t & T1 & T2).
  exists o, R, t. exact (conj A (conj E (conj G (conj T1 T2)))).
Qed.
Print Assumptions C63_linear_tolerance_partial.

(** Pile head moved, no load: the squared tolerance is four times what loads and reactions give. *)
Theorem C63_tolerance_refuted : exists M F U0 r max_iter o R t, winkler_model gauss_solver M F U0 r max_iter = Ok o /\ o_Q o = Some R /\ o_tol o = Some t /\
  0 < force2 (size M) (fun i => F i + R i) /\ t == 4 * ((1 # 100000000) * force2 (size M) (fun i => F i + R i)).
Proof.
  destruct soil1_moved as (K & U1 & R1 & Ks & Kt & A & B & C & D & E & G & I & P).
  destruct (C63_linear_tolerance_partial gauss_solver soil1 zero head_moved free K U1 R1 Ks Kt gauss_solver_ok A B C D E G I 100 ltac:(lia)) as (o & R & t & X & Y & Z & T & W).
  exists soil1, zero, head_moved, free, 100%nat, o, R, t. split; [exact X|]. split; [exact Y|]. split; [exact T|]. split.
  - eapply Qlt_le_trans; [|apply (sum_member (size soil1) (fun i => (zero i + R i) * (zero i + R i)) 1)]; cbv beta.
    + assert (Q1 : 0 < zero 1%nat + R 1%nat) by (rewrite (Z 1%nat) by (unfold size; cbn; lia); unfold zero; lra). apply mul_pos; exact Q1.
    + intros i _. apply square_nonneg.
    + unfold size; cbn; lia.
  - rewrite W. assert (S4 : force2 (size soil1) (fun i => zero i - 2 * R1 i) == 4 * force2 (size soil1) (fun i => zero i + R i)).
    { unfold force2. rewrite <- sum_scale. apply sum_ext. intros i Hi. rewrite (Z i Hi). unfold zero. ring. }
    rewrite S4. ring.
Qed.
Print Assumptions C63_tolerance_refuted.
