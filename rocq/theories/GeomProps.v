(** Property C115: the second-order matrix. *)
From Coq Require Import List Bool Arith ZArith QArith Qfield Lia Lqa.
From Verif Require Import Base LinAlg PileModel BeamModel BeamSpec BeamProofs SolveModel SolveSpec SolveProofs ForceProofs GeomModel.
Import ListNotations.
Local Open Scope Q_scope.

(** The matrix is that of a distributed moment spring (C27) with stiffness -P. *)
Lemma p_delta_as_mt : forall ty c E nu I A d wt L P k, elem_p_delta ty c E nu I A d wt L P = Ok k ->
  exists k', elem_mt ty c E nu I A d wt L (- P) (- P) = Ok k' /\ forall i j, k i j == k' i j.
Proof.
  intros ty c E nu I A d wt L P k H. unfold elem_p_delta in H. unfold elem_mt.
  destruct (shear_kappa ty c nu d wt) as [kappa|]; cbn [bind] in *; [|discriminate]. injection H as <-. eexists. split; [reflexivity|].
  intros i j. unfold p_delta_matrix, mt_matrix, p_delta_coefs, mt_coefs. destruct ty.
  - transitivity (of_rows [[0; 0; 0; 0; 0; 0]; [0; 6 / (5 * L); 1#10; 0; - (6 / (5 * L)); 1#10]; [0; 1#10; 2 * L / 15; 0; - (1#10); - L / 30];
       [0; 0; 0; 0; 0; 0]; [0; - (6 / (5 * L)); - (1#10); 0; 6 / (5 * L); - (1#10)]; [0; 1#10; - L / 30; 0; - (1#10); 2 * L / 15]] i j * - P); [|ring].
    apply Qmult_comp; [|reflexivity].
    destruct i as [|[|[|[|[|[|i]]]]]]; destruct j as [|[|[|[|[|[|j]]]]]]; unfold of_rows; cbn [nth]; try reflexivity; try ring;
      try (destruct j; reflexivity); try (destruct i; destruct j; reflexivity).
  - cbv zeta. match goal with |- ?a * _ == ?a * _ => set (x := a) end. ring.
Qed.

Lemma same_mulv : forall k k' u i, (forall i j, k i j == k' i j) -> mulv 6 k u i == mulv 6 k' u i.
Proof. intros k k' u i H. unfold mulv. apply sum_ext. intros j Hj. rewrite H. reflexivity. Qed.
Lemma same_dot : forall k k' u du, (forall i j, k i j == k' i j) -> dot 6 du (mulv 6 k u) == dot 6 du (mulv 6 k' u).
Proof. intros k k' u du H. unfold dot. apply sum_ext. intros i Hi. rewrite (same_mulv k k' u i H). reflexivity. Qed.

(** C115: virtual work of an axial force, compression positive, on the rotation of the element. *)
Theorem C115_consistent : forall c E nu I A d wt L P k, 0 < L -> elem_p_delta EulerBernoulli c E nu I A d wt L P = Ok k ->
  forall u du, dot 6 du (mulv 6 k u) == - (P / L) * pint (pmul (pderiv (deflection L u)) (pderiv (deflection L du))).
Proof.
  intros c E nu I A d wt L P k HL H u du. destruct (p_delta_as_mt _ _ _ _ _ _ _ _ _ _ _ H) as (k' & H' & S).
  destruct (elem_mt_eb_sound _ _ _ _ _ _ _ _ _ _ _ HL H') as (W & _). rewrite (same_dot k k' u du S), W.
  apply Qmult_comp; [|reflexivity]. assert (L0 : ~ L == 0) by (intros E0; rewrite E0 in HL; lra). field. exact L0.
Qed.
Print Assumptions C115_consistent.

(** C115: compression takes energy from bending, tension adds to it. *)
Theorem C115_sign : forall c E nu I A d wt L P k u, 0 < L -> elem_p_delta EulerBernoulli c E nu I A d wt L P = Ok k ->
  (0 <= P -> energy 6 k u <= 0) /\ (P <= 0 -> 0 <= energy 6 k u).
Proof.
  intros c E nu I A d wt L P k u HL H.
  destruct (elem_mt_eb_sound c E nu I A d wt L 1 1 (mt_matrix (mt_coefs EulerBernoulli (E * I * 0 / (A * shear_modulus E nu * (L * L))) I A L) 1 1) HL eq_refl) as (W & N & _).
  assert (N1 : 0 <= (1 + 1) / 2 / L * pint (pmul (pderiv (deflection L u)) (pderiv (deflection L u)))).
  { rewrite <- W. apply N; lra. }
  assert (X : energy 6 k u == - P * ((1 + 1) / 2 / L * pint (pmul (pderiv (deflection L u)) (pderiv (deflection L u))))).
  { unfold energy. rewrite (C115_consistent _ _ _ _ _ _ _ _ _ _ HL H). assert (L0 : ~ L == 0) by (intros E0; rewrite E0 in HL; lra). field. exact L0. }
  rewrite X. split; intros HP.
  - assert (0 <= P * ((1 + 1) / 2 / L * pint (pmul (pderiv (deflection L u)) (pderiv (deflection L u))))) by (apply Qmult_le_0_compat; auto). lra.
  - apply Qmult_le_0_compat; [lra|auto].
Qed.
Print Assumptions C115_sign.

(** C115: symmetric, and rigid translation is free, for both kinds of element. *)
Theorem C115_translation : forall ty c E nu I A d wt L P k, elem_p_delta ty c E nu I A d wt L P = Ok k ->
  symmetric 6 k /\ forall a v i, (i < 6)%nat -> mulv 6 k (of_list [a; v; 0; a; v; 0]) i == 0.
Proof.
  intros ty c E nu I A d wt L P k H. unfold elem_p_delta in H. destruct (shear_kappa ty c nu d wt) as [kappa|]; cbn [bind] in H; [|discriminate]. injection H as <-.
  unfold p_delta_matrix. destruct (p_delta_coefs _ _ _ _ _) as [[[a0 b0] c0] d0]. split.
  - intros i j Hi Hj. do 6 (destruct i as [|i]; [do 6 (destruct j as [|j]; [unfold of_rows; cbn [nth]; ring|]); lia|]). lia.
  - intros a v i Hi. do 6 (destruct i as [|i]; [unfold mulv, of_rows, of_list; cbn [sum nth]; ring|]). lia.
Qed.
Print Assumptions C115_translation.

(** C115: rotated rigidly by t, an element under P pushes its ends apart sideways with P t and carries no
    moment. *)
Theorem C115_rigid_rotation : forall c E nu I A d wt L P k t, 0 < L -> elem_p_delta EulerBernoulli c E nu I A d wt L P = Ok k ->
  let f := mulv 6 k (of_list [0; 0; t; 0; L * t; t]) in
  f 1%nat == P * t /\ f 4%nat == - (P * t) /\ f 2%nat == 0 /\ f 5%nat == 0 /\ f 0%nat == 0 /\ f 3%nat == 0.
Proof.
  intros c E nu I A d wt L P k t HL H. assert (L0 : ~ L == 0) by (intros E0; rewrite E0 in HL; lra).
  unfold elem_p_delta in H. cbn [shear_kappa bind] in H. injection H as <-. unfold mulv, p_delta_matrix, p_delta_coefs, of_rows, of_list. cbn [sum nth].
  repeat split; field; exact L0.
Qed.
Print Assumptions C115_rigid_rotation.

(** C115 refuted: with Timoshenko elements this holds only if the variable that replaces the area happens
    to be equal to it. *)
Theorem C115_timoshenko_refuted : forall E nu I A d wt L P k t, 0 < E -> -(3#4) <= nu -> 0 < I -> 0 < A -> 0 < d -> 0 < L -> ~ P == 0 -> ~ t == 0 ->
  elem_p_delta Timoshenko true E nu I A d wt L P = Ok k ->
  (mulv 6 k (of_list [0; 0; t; 0; L * t; t]) 4%nat == - (P * t) <->
   new_A (E * I * tube_kappa nu d wt / (A * shear_modulus E nu * (L * L))) I A L == A).
Proof.
  intros E nu I A d wt L P k t HE HN HI HA HD HL HP HT H. unfold elem_p_delta in H. cbn [shear_kappa bind] in H.
  set (om := E * I * tube_kappa nu d wt / (A * shear_modulus E nu * (L * L))) in *.
  assert (OM : 0 <= om).
  { unfold om. apply Qlt_le_weak. pose proof (shear_modulus_pos E nu HE ltac:(lra)) as HG. pose proof (kappa_pos nu d wt HN HD) as K0.
    set (G := shear_modulus E nu) in *. set (kp := tube_kappa nu d wt) in *. clearbody G kp. apply div_pos; repeat apply mul_pos; auto. }
  pose proof (mt_timo_shear om I A L OM HI HA HL) as T. unfold mt_coefs in T. cbv zeta in T.
  assert (HK : k = p_delta_matrix (p_delta_coefs Timoshenko om I A L) P) by congruence. clear H. subst k.
  unfold p_delta_coefs. cbv zeta.
  set (A' := 6 * (120 * (om * om) + 20 * om + 1) / (5 * L * ((12 * om + 1) * (12 * om + 1))) + 12 * I / (A * (L * L * L) * ((12 * om + 1) * (12 * om + 1)))) in *.
  set (B' := 1 / (10 * ((12 * om + 1) * (12 * om + 1))) + 6 * I / (A' * (L * L) * ((12 * om + 1) * (12 * om + 1)))) in *.
  destruct T as [T1 T2]. rewrite <- T1, <- T2.
  unfold mulv, p_delta_matrix, of_rows, of_list. cbn [sum nth].
  assert (X : forall a, a * (P * t) == - (P * t) <-> a == - (1)).
  { intros a. split; intros H; [|rewrite H; ring]. assert (PT : ~ P * t == 0) by (intros Z; apply Qmult_integral in Z; tauto).
    assert (Y : (a + 1) * (P * t) == 0) by lra. apply Qmult_integral in Y. destruct Y; [lra|contradiction]. }
  rewrite <- (Qopp_involutive (A' * L - 2 * B')).
  assert (Y : - - (A' * L - 2 * B') == 1 <-> - (A' * L - 2 * B') == - (1)) by (split; intros; lra). rewrite Y, <- X. clear X Y.
  match goal with |- ?a == _ <-> ?b == _ => assert (EQ : a == b) by ring; rewrite EQ end. reflexivity.
Qed.
Print Assumptions C115_timoshenko_refuted.

(** C115: the axial force that is used is positive exactly when the element is shortened. *)
Theorem C115_axial_force : forall n ty c E nu I A d wt z k u, (1 <= n)%nat ->
  (forall e, (e < n)%nat -> z (S e) < z e /\ elem_mech ty c E nu (I e) (A e) (d e) (wt e) (z e - z (S e)) = Ok (k e)) ->
  length (axial_forces (S n) k u) = n /\
  forall e, (e < n)%nat -> nth e (axial_forces (S n) k u) 0 == E * A e / (z e - z (S e)) * (u (3 * e + 3)%nat - u (3 * e)%nat).
Proof.
  intros n ty c E nu I A d wt z k u H1 H. unfold axial_forces.
  destruct (internal_forces_elements n k u H1) as [LN NT]. rewrite map_length. split; [exact LN|]. intros e He.
  assert (MN : forall (l : list vec) e, nth e (map (fun f : vec => f 0%nat) l) 0 == nth e l (fun _ => 0) 0%nat).
  { induction l as [|x l IH]; intros [|i]; cbn [map nth]; auto using Qeq_refl. }
  etransitivity; [apply MN|].
  destruct (H e He) as (HZ & HM).
  unfold elem_mech in HM. destruct (shear_kappa ty c nu (d e) (wt e)) as [kappa|]; cbn [bind] in HM; [|discriminate]. injection HM as HM.
  rewrite NT by exact He. rewrite <- HM. unfold mech_phi, mulv, of_rows, elem_disp. cbn [sum nth]. rewrite Nat.add_0_r.
  assert (L0 : ~ z e - z (S e) == 0) by lra. unfold Qdiv. ring.
Qed.
Print Assumptions C115_axial_force.

(** A tube of 2 m and 50 mm wall, in compression: the shear that a rigid rotation calls for is missed. *)
Example C115_example : exists k, elem_p_delta Timoshenko true 210000000 (3#10) (1#100) (3#10) 2 (5#100) 1 1000 = Ok k /\
  ~ mulv 6 k (of_list [0; 0; 1; 0; 1 * 1; 1]) 4%nat == - (1000 * 1).
Proof. eexists. split; [reflexivity|]. vm_compute. discriminate. Qed.
