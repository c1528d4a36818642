(** Properties C75 and C76: displacements of the beam analysis and independence of the mesh. *)
From Coq Require Import List Bool Arith QArith Lia Lqa.
From Verif Require Import Base LinAlg BeamModel BeamSpec BeamProofs SolveModel SolveSpec SolveProofs ForceProofs RefineSpec CantileverProofs RefineProofs.
Import ListNotations.
Local Open Scope Q_scope.

(** C75: the ends of every element move against each other as beam theory says, given the resultants of all loads
    and reactions above it; any loads, supports and sections. *)
Theorem C75_element_flexibility : forall solve n ty c E nu I A dd wt z k F U restrained d Q q, solver_ok solve -> 0 < E -> -(3#4) <= nu ->
  (forall e, (e < n)%nat -> 0 < I e /\ 0 < A e /\ 0 < dd e /\ z (S e) < z e /\
     elem_mech ty c E nu (I e) (A e) (dd e) (wt e) (z e - z (S e)) = Ok (k e)) ->
  beam solve n k F U restrained = Some (d, Q, q) ->
  let R := fun i => F i + Q i in
  forall e, (e < n)%nat ->
  let L := z e - z (S e) in let N := axial_above R e in let V := shear_above R e in let M := moment_above z R e (z e) in
  d (3 * e)%nat - d (3 * S e)%nat == N * L / (E * A e) /\
  d (3 * e + 2)%nat - d (3 * S e + 2)%nat == M * L / (E * I e) - V * (L * L) / (2 * (E * I e)) /\
  d (3 * e + 1)%nat - (d (3 * S e + 1)%nat - L * d (3 * S e + 2)%nat) ==
    V * (L * L * L) / (3 * (E * I e)) - M * (L * L) / (2 * (E * I e)) + shear_flex ty E nu (A e) (dd e) (wt e) * V * L.
Proof.
  intros solve n ty c E nu I A dd wt z k F U restrained d Q q SO HE HN HK HB R e He L N V M.
  destruct (beam_sound _ _ _ _ _ _ _ _ _ SO HB) as (B1 & _ & _).
  destruct (chain ty c E nu n I A dd wt z k HE HN HK d e He) as (C0 & C2 & C1). cbv zeta in C0, C1, C2.
  destruct (above_ext _ R n B1 e z (z e) ltac:(lia)) as (X1 & X2 & X3). rewrite X1 in C0. rewrite X2, X3 in C1, C2.
  fold L N in C0. fold L V M in C1, C2. destruct (HK e He) as (P1 & P2 & P3 & _ & _).
  assert (NE : ~ E == 0) by (apply pos_nonzero; auto). assert (NI : ~ I e == 0) by (apply pos_nonzero; auto).
  rewrite C0, C1, C2. split; [|split]; [ring|ring|field; auto].
Qed.
Print Assumptions C75_element_flexibility.

(** A pile of one section held at its tip and loaded at its head: the textbook displacements, on every mesh. *)
Theorem C75_cantilever_exact : forall solve n ty c E nu I A dd wt z k F restrained, solver_ok solve -> 0 < E -> -(3#4) <= nu -> 0 < I -> 0 < A -> 0 < dd ->
  (1 <= n)%nat -> (forall e, (e < n)%nat -> z (S e) < z e /\ elem_mech ty c E nu I A dd wt (z e - z (S e)) = Ok (k e)) ->
  (forall i, (3 <= i < 3 * n)%nat -> F i == 0) -> tip_only n restrained ->
  exists d Q q, beam solve n k F (fun _ => 0) restrained = Some (d, Q, q) /\
  let N := F 0%nat in let P := F 1%nat in let M := F 2%nat in let H := z 0%nat - z n in
  forall a, (a <= n)%nat -> let h := z a - z n in
    d (3 * a)%nat == N * h / (E * A) /\
    d (3 * a + 1)%nat == P * (h * h) * (3 * H - h) / (6 * (E * I)) - M * (h * h) / (2 * (E * I)) + shear_flex ty E nu A dd wt * P * h /\
    d (3 * a + 2)%nat == M * h / (E * I) - P * h * (2 * H - h) / (2 * (E * I)).
Proof. exact cantilever_exact. Qed.
Print Assumptions C75_cantilever_exact.

(** C76: one node more, without load or support, changes neither displacements nor reactions at the others. *)
Theorem C76_one_node_more : forall solve ty c E nu j m x d Q, solver_ok solve -> 0 < E -> -(3#4) <= nu ->
  analysed solve ty c E nu j d Q -> (m < j_n j)%nat -> j_z j (S m) < x -> x < j_z j m ->
  exists d' Q', analysed solve ty c E nu (insert_node m x j) d' Q' /\
    (forall a q, (a <= j_n j)%nat -> (q < 3)%nat -> d' (3 * shift m a + q)%nat == d (3 * a + q)%nat /\ Q' (3 * shift m a + q)%nat == Q (3 * a + q)%nat) /\
    (forall q, (q < 3)%nat -> Q' (3 * S m + q)%nat == 0).
Proof. exact insert_analysed. Qed.
Print Assumptions C76_one_node_more.

(** Any refinement; results are unique, so every analysis of the finer mesh is this one. *)
Theorem C76_refinement : forall solve ty c E nu j j' g d Q d' Q', solver_ok solve -> 0 < E -> -(3#4) <= nu ->
  analysed solve ty c E nu j d Q -> refines j j' g -> analysed solve ty c E nu j' d' Q' ->
  forall a, (a <= j_n j)%nat -> j_z j' (g a) = j_z j a /\
    forall q, (q < 3)%nat -> d' (3 * g a + q)%nat == d (3 * a + q)%nat /\ Q' (3 * g a + q)%nat == Q (3 * a + q)%nat.
Proof.
  intros solve ty c E nu j j' g d Q d' Q' SO HE HN HA HR HA' a Ha.
  destruct (refines_analysed solve ty c E nu j j' g d Q SO HE HN HA HR) as (d1 & Q1 & A1 & V). destruct (V a Ha) as (G & Z & W). split; [exact Z|].
  intros q Hq. destruct (analysed_unique _ _ _ _ _ _ _ _ _ _ SO HA' A1) as [U1 U2]. rewrite (U1 (3 * g a + q)%nat), (U2 (3 * g a + q)%nat) by lia. apply W; auto.
Qed.
Print Assumptions C76_refinement.

Theorem C76_refinement_succeeds : forall solve ty c E nu j j' g d Q, solver_ok solve -> 0 < E -> -(3#4) <= nu ->
  analysed solve ty c E nu j d Q -> refines j j' g -> exists d' Q', analysed solve ty c E nu j' d' Q'.
Proof.
  intros solve ty c E nu j j' g d Q SO HE HN HA HR. destruct (refines_analysed solve ty c E nu j j' g d Q SO HE HN HA HR) as (d1 & Q1 & A1 & _). eauto.
Qed.
Print Assumptions C76_refinement_succeeds.

(** A pile of two elements of different sections with a lateral head load and a support in the middle, refined twice. *)
Definition ex_job : job := {| j_n := 2; j_I := fun e => if Nat.eqb e 0 then 2 else 1; j_A := fun _ => 3; j_d := fun _ => 2; j_wt := fun _ => 1#10;
  j_z := fun a => - inject_Z (Z.of_nat a) * 4; j_F := fun i => if Nat.eqb i 1 then 7 else 0; j_U := fun _ => 0;
  j_r := fun i => Nat.eqb i 4 || (6 <=? i)%nat |}.
Example C76_example : (exists d Q, analysed gauss_solver EulerBernoulli true 100 (3#10) ex_job d Q /\ ~ d 1%nat == 0) /\
  refines ex_job (insert_node 2 (-(7)) (insert_node 0 (-(1)) ex_job)) (fun a => shift 2 (shift 0 a)).
Proof.
  split.
  - assert (B : match beam gauss_solver 2 (fun e => mech_phi 100 (j_I ex_job e) 3 (j_z ex_job e - j_z ex_job (S e)) (phi_of 100 (shear_modulus 100 (3#10)) (j_I ex_job e) 3 (j_z ex_job e - j_z ex_job (S e)) 0))
        (j_F ex_job) (j_U ex_job) (j_r ex_job) with Some (d, _, _) => negb (Qeq_bool (d 1%nat) 0) | None => false end = true) by (vm_compute; reflexivity).
    destruct (beam gauss_solver 2 _ (j_F ex_job) (j_U ex_job) (j_r ex_job)) as [[[d Q] q]|] eqn:HB; [|discriminate].
    exists d, Q. split; [|intro X; apply Qeq_bool_iff in X; rewrite X in B; discriminate].
    eexists; eexists; split; [|exact HB]. intros e He. destruct e as [|[|e]]; [| |cbn in He; lia]; repeat split.
  - change (fun a => shift 2 (shift 0 a)) with (fun a => shift 2 ((fun a => shift 0 ((fun a => a) a)) a)).
    apply refines_insert; [apply refines_insert; [apply refines_same| | |]| | |]; try (cbn; lia); cbn; reflexivity.
Qed.
(** The same for the cantilever: three elements of unequal length. *)
Example C75_example : match beam gauss_solver 3 (fun e => mech_phi 100 2 3 (nth e [1; 2; 3] 0) 0) (fun i => if Nat.eqb i 1 then 7 else 0) (fun _ => 0) (fun i => (9 <=? i)%nat) with
  Some (d, _, _) => Qeq_bool (d 1%nat) (7 * 216 / 600) | None => false end = true.
Proof. vm_compute. reflexivity. Qed.
