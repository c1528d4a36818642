(** Property C77: the loads and reactions of the pile-soil analysis are carried by the soil. *)
From Coq Require Import List Bool Arith ZArith QArith Lia Lqa.
From Verif Require Import Base LinAlg PileModel BeamModel BeamSpec BeamProofs SolveModel SolveSpec SolveProofs SpringModel SpringSpec SpringProofs SoilProofs SpringProper SpringWitness WinklerModel WinklerSpec WinklerProofs WinklerWitness WinklerProps BalanceSpec BalanceProofs.
Import ListNotations.
Local Open Scope Q_scope.

(** The three balances for nodal forces [G] and displacements [V] and spring stiffnesses. *)
Definition axial_balance (M : wmodel) (kz : nat -> Q * Q) (q : Q) (V G : vec) : Prop :=
  total_axial (w_n M) G == sum (w_n M) (fun e => when (w_tz M) (shaft_axial (w_L M e) (kz e) (elem_disp V e))) + q * V (3 * w_n M)%nat.
Definition lateral_balance (M : wmodel) (kp : nat -> Q * Q) (h : Q) (V G : vec) : Prop :=
  total_lateral (w_n M) G == sum (w_n M) (fun e => when (w_py M) (shaft_lateral (w_L M e) (kp e) (elem_disp V e))) + h * V (3 * w_n M + 1)%nat.
Definition moment_balance (M : wmodel) (z : nat -> Q) (kp km : nat -> Q * Q) (h m : Q) (V G : vec) : Prop :=
  total_moment (w_n M) z G ==
    sum (w_n M) (fun e => when (w_py M) (shaft_moment (w_L M e) (z O - z e) (kp e) (elem_disp V e)) + when (w_mt M) (shaft_rotation (w_L M e) (km e) (elem_disp V e)))
    + (z O - z (w_n M)) * (h * V (3 * w_n M + 1)%nat) + m * V (3 * w_n M + 2)%nat.
(** no distributed moment springs, or Euler-Bernoulli elements *)
Definition no_timoshenko_mt (M : wmodel) : Prop :=
  forall e, (e < w_n M)%nat -> w_mt M = None \/ exists w a l, w_mtc M e = mt_coefs EulerBernoulli w a l (w_L M e).

Theorem C77_matrix_balance : forall M z u k K, sound_pile M z -> build M u k = Ok K ->
  exists kp kz km h m q, spring_values M u k kp kz km h m q /\
  forall V G, (forall i, (i < size M)%nat -> mulv (size M) K V i == G i) ->
    axial_balance M kz q V G /\ lateral_balance M kp h V G /\ (no_timoshenko_mt M -> moment_balance M z kp km h m V G).
Proof. exact balance_parts. Qed.
Print Assumptions C77_matrix_balance.

(** Reported reactions balance the loads with springs that have the stiffness of the reported
    displacements, for displacements [V] that meet the supports. *)
Theorem C77_result_balance : forall solve M z F U0 r max_iter o v, solver_ok solve -> (99 <= max_iter)%nat -> sound_pile M z ->
  winkler_model solve M F U0 r max_iter = Ok o -> o_d o = Some v ->
  exists R V kp kz km h m q, o_Q o = Some R /\ spring_values M v Secant kp kz km h m q /\
    (forall i, (i < size M)%nat -> supports_of r U0 i = true -> V i = U0 i /\ v i == U0 i) /\
    (forall i, (i < size M)%nat -> supports_of r U0 i = false -> R i == 0) /\
    let G := fun i => F i + R i in
    axial_balance M kz q V G /\ lateral_balance M kp h V G /\ (no_timoshenko_mt M -> moment_balance M z kp km h m V G).
Proof.
  intros solve M z F U0 r mi o v SO L SM H E.
  destruct (C35_reactions_partial solve M F U0 r mi o v SO L H E) as [(R & ER & Ks & V & BK & EQ & RZ & VU) _].
  destruct (balance_parts M z v Secant Ks SM BK) as (kp & kz & km & h & m & q & SV & B).
  exists R, V, kp, kz, km, h, m, q. split; [exact ER|]. split; [exact SV|].
  split; [intros i Hi Si; split; [exact (VU i Hi Si)|exact (C36_prescribed_result solve M F U0 r mi o v SO H E i Hi Si)]|].
  split; [exact RZ|]. exact (B V (fun i => F i + R i) EQ).
Qed.
Print Assumptions C77_result_balance.

(** In the linear range the reported displacements and reactions themselves are in balance. *)
Theorem C77_linear_balance : forall solve M z F U0 r K U1 R1 Ks Kt, solver_ok solve -> sound_pile M z -> build M zero Initial = Ok K ->
  solve_equations solve (size M) K F U0 (supports_of r U0) = Some (U1, R1) ->
  build M U1 Secant = Ok Ks -> same (size M) Ks K -> build M U1 Tangent = Ok Kt -> same (size M) Kt K ->
  (exists i, (i < size M)%nat /\ ~ F i == 2 * R1 i) -> forall max_iter, (1 <= max_iter)%nat ->
  exists o v R kp kz km h m q, winkler_model solve M F U0 r max_iter = Ok o /\ o_d o = Some v /\ o_Q o = Some R /\
    spring_values M zero Initial kp kz km h m q /\
    let G := fun i => F i + R i in
    axial_balance M kz q v G /\ lateral_balance M kp h v G /\ (no_timoshenko_mt M -> moment_balance M z kp km h m v G).
Proof.
  intros solve M z F U0 r K U1 R1 Ks Kt SO SM B S1 BS SS BT TT NZ mi Hm.
  destruct (C35_linear_range solve M F U0 r K U1 R1 Ks Kt SO B S1 BS SS BT TT NZ mi Hm) as (o & v & R & HW & _ & HD & EV & HQ & ER).
  destruct (solve_equations_sound solve (size M) K F U0 (supports_of r U0) U1 R1 SO S1) as (EQ & _ & _).
  destruct (balance_parts M z zero Initial K SM B) as (kp & kz & km & h & m & q & SV & BL).
  exists o, v, R, kp, kz, km, h, m, q. split; [exact HW|]. split; [exact HD|]. split; [exact HQ|]. split; [exact SV|].
  apply BL. intros i Hi. rewrite (ER i Hi), <- (EQ i Hi). apply mulv_ext; [intros; reflexivity|exact EV].
Qed.
Print Assumptions C77_linear_balance.

Lemma soil1_sound : sound_model soil1 z0.
Proof.
  constructor.
  - intros e He. cbn in He. split; [|reflexivity]. cbn [w_L soil1]. destruct e as [|[|]]; [reflexivity|reflexivity|lia].
  - intros e He. exact mech0_deforms.
  - intros mt E. discriminate.
  - intros py mt _ E. discriminate.
  - left. reflexivity.
Qed.

Example C77_example : exists K U1 R1 Ks Kt, sound_pile soil1 z0 /\ no_timoshenko_mt soil1 /\ build soil1 zero Initial = Ok K /\
  solve_equations gauss_solver (size soil1) K small_load zero (supports_of free zero) = Some (U1, R1) /\
  build soil1 U1 Secant = Ok Ks /\ same (size soil1) Ks K /\ build soil1 U1 Tangent = Ok Kt /\ same (size soil1) Kt K /\
  (exists i, (i < size soil1)%nat /\ ~ small_load i == 2 * R1 i).
Proof.
  destruct soil1_linear as (K & U1 & R1 & Ks & Kt & A). exists K, U1, R1, Ks, Kt. split; [apply sound_model_pile, soil1_sound|].
  split; [intros e _; left; reflexivity|exact A].
Qed.

Example C77_matrix_example : sound_pile soil0 z0 /\ no_timoshenko_mt soil0 /\ exists K, build soil0 (fun _ => 0) Initial = Ok K.
Proof.
  split; [apply sound_model_pile, soil0_sound|]. split; [intros e _; right; exists 0, 1, 1; reflexivity|].
  assert (B : match build soil0 (fun _ => 0) Initial with Ok _ => true | Err _ => false end = true) by (vm_compute; reflexivity).
  destruct (build soil0 (fun _ => 0) Initial) as [K|]; [exists K; reflexivity|discriminate].
Qed.
