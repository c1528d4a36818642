(** C119, C120: results do not depend on the unit of force, on the linear solver or on the side to which a pile is pushed. *)
From Coq Require Import List Bool Arith ZArith QArith Qabs Qminmax Lia Lqa.
From Verif Require Import Base LinAlg PileModel BeamModel BeamProofs SolveModel SolveSpec SolveProofs SpringModel SpringSpec SpringProofs SpringProper SpringWitness WinklerModel WinklerSpec WinklerWitness TwinProofs UnitSpec UnitProofs UnitWitness EquilSpec.
Import ListNotations.
Local Open Scope Q_scope.

Definition one (_ : nat) : Q := 1.

(** C119: a model written in another unit of force, under loads written in it: the same displacements after every
    pass and at the end, as many passes, and the reactions in the new unit.  When one raises, so does the other. *)
Theorem C119_unit : forall solve l M M' F F' U0 r max_iter, solver_ok solve -> 0 < l -> in_unit l M M' ->
  (forall i, (i < size M)%nat -> F' i == l * F i) ->
  alike (size M) one (fun _ => l) (winkler_model solve M F U0 r max_iter) (winkler_model solve M' F' U0 r max_iter).
Proof.
  intros solve l M M' F F' U0 r mi SO HL IU HF. apply outcomes_alike with (beta := l * l). unfold one.
  apply unit_winkler; auto. intros i Hi. reflexivity.
Qed.
Print Assumptions C119_unit.

(** C119: the linear solver does not matter, as long as it solves what can be solved. *)
Theorem C119_solver : forall solve solve' M F U0 r max_iter, solver_ok solve -> solver_ok solve' ->
  alike (size M) one one (winkler_model solve M F U0 r max_iter) (winkler_model solve' M F U0 r max_iter).
Proof. intros solve solve' M F U0 r mi SO SO'. apply outcomes_alike with (beta := 1). apply solver_winkler; auto. Qed.
Print Assumptions C119_solver.

(** C119: the stiffness of a pile element is proportional to the modulus. *)
Theorem C119_element : forall ty circular l E nu I A d wt L k, 0 < l -> elem_mech ty circular E nu I A d wt L = Ok k ->
  exists k', elem_mech ty circular (l * E) nu I A d wt L = Ok k' /\ forall i j, k' i j == l * k i j.
Proof.
  intros ty circular l E nu I A d wt L k HL H. unfold elem_mech in *. destruct (shear_kappa ty circular nu d wt) as [kappa|]; cbn [bind] in *; [|discriminate].
  injection H as <-. eexists. split; [reflexivity|].
  assert (P : phi_of (l * E) (shear_modulus (l * E) nu) I A L kappa == phi_of E (shear_modulus E nu) I A L kappa).
  { unfold phi_of, shear_modulus, Qdiv. rewrite !Qinv_mult_distr. assert (X : l * / l == 1) by (apply Qmult_inv_r; lra).
    transitivity (12 * E * I * kappa * (/ A * (/ E * / / (2 + 2 * nu)) * (/ L * / L)) * (l * / l)); [ring|rewrite X; ring]. }
  revert P. generalize (phi_of (l * E) (shear_modulus (l * E) nu) I A L kappa). generalize (phi_of E (shear_modulus E nu) I A L kappa). clear. intros phi phi' P i j.
  unfold mech_phi, of_rows, Qdiv.
  do 6 (destruct i as [|i]; [do 6 (destruct j as [|j]; [cbn [nth]; rewrite ?P; ring|]); destruct j; cbn [nth]; ring|]). destruct i; destruct j; cbn [nth]; ring.
Qed.
Print Assumptions C119_element.

(** C119 does not hold for the unit of length: tangents are taken over half a unit per thousand.  In metres this spring
    still has stiffness just beyond yield, in millimetres it has none. *)
Theorem C119_length_refuted : exists u c k k', lateral_curve c /\
  py_spring u c Tangent = Ok k /\ py_spring (1000 * u) (map (fun p => (1000 * fst p, snd p / 1000)) c) Tangent = Ok k' /\
  0 < k /\ k' == 0.
Proof.
  exists (12#10000), [(0, 0); (1#1000, 100); (1, 100)]. eexists. eexists. split; [repeat split; cbn; try lra; lia|].
  split; [vm_compute; reflexivity|]. split; [vm_compute; reflexivity|]. split; vm_compute; reflexivity.
Qed.
Print Assumptions C119_length_refuted.

(** every model can be written in another unit; the pile of C35 in newtons *)
Example C119_example : in_unit 1000 soil1 (times 1000 soil1) /\ solver_ok gauss_solver /\
  exists o v, winkler_model gauss_solver soil1 small_load zero free 100 = Ok o /\ o_d o = Some v.
Proof.
  split; [apply times_in_unit|]. split; [apply gauss_solver_ok|]. destruct soil1_linear as (K & U1 & R1 & Ks & Kt & A & B & C & D & E & G & I).
  destruct (model_linear gauss_solver soil1 small_load zero free K U1 R1 Ks Kt gauss_solver_ok A B C D E G I 100 ltac:(lia)) as (o & v & _ & W & _ & DV & _).
  exists o, v. exact (conj W DV).
Qed.

(** C120: the mirror image of the loads and prescribed displacements gives, after every pass and at the end, the mirror
    image of the displacements and reactions, after as many passes; an error stays an error. *)
Theorem C120_mirror_partial : forall solve solve' M F F' U0 U0' r max_iter, solver_ok solve -> solver_ok solve' -> w_mt M = None ->
  (forall e, (e < w_n M)%nat -> uncoupled (w_mech M e)) ->
  (forall i, (i < size M)%nat -> F' i == mirror i * F i) -> (forall i, (i < size M)%nat -> U0' i == mirror i * U0 i) ->
  alike (size M) mirror mirror (winkler_model solve M F U0 r max_iter) (winkler_model solve' M F' U0' r max_iter).
Proof.
  intros solve solve' M F F' U0 U0' r mi SO SO' NM SP HF HU. apply outcomes_alike with (beta := 1). apply mirror_winkler; auto.
Qed.
Print Assumptions C120_mirror_partial.

(** C120: the elements of every pile meet the condition. *)
Theorem C120_element : forall ty circular E nu I A d wt L k, elem_mech ty circular E nu I A d wt L = Ok k -> uncoupled k.
Proof.
  intros ty circular E nu I A d wt L k H. unfold elem_mech in H. destruct (shear_kappa ty circular nu d wt) as [kappa|]; cbn [bind] in H; [|discriminate].
  injection H as <-. generalize (phi_of E (shear_modulus E nu) I A L kappa). intros phi i j Hi Hj D. unfold mech_phi, of_rows. cbv zeta.
  do 6 (destruct i as [|i]; [do 6 (destruct j as [|j]; [first [elim D; reflexivity|reflexivity]|]); lia|]). lia.
Qed.
Print Assumptions C120_element.

(** C120: loads and prescribed displacements along the pile alone move no node sideways, turn none, and call for no lateral
    reaction, in whatever pass. *)
Theorem C120_axial_partial : forall solve M F U0 r max_iter o, solver_ok solve -> w_mt M = None ->
  (forall e, (e < w_n M)%nat -> uncoupled (w_mech M e)) ->
  (forall i, (i < size M)%nat -> (i mod 3 <> 0)%nat -> F i == 0 /\ U0 i == 0) -> winkler_model solve M F U0 r max_iter = Ok o ->
  forall v, (o_d o = Some v \/ o_Q o = Some v \/ In v (o_hist o)) -> forall i, (i < size M)%nat -> (i mod 3 <> 0)%nat -> v i == 0.
Proof.
  intros solve M F U0 r mi o SO NM SP Z W v Hv i Hi Ni.
  assert (HM : forall G : vec, (forall i, (i < size M)%nat -> (i mod 3 <> 0)%nat -> G i == 0) -> forall i, (i < size M)%nat -> G i == mirror i * G i).
  { intros G HG j Hj. unfold mirror. destruct (Nat.eqb (j mod 3) 0) eqn:E; [ring|]. apply Nat.eqb_neq in E. rewrite (HG j Hj E). ring. }
  pose proof (C120_mirror_partial solve solve M F F U0 U0 r mi SO SO NM SP (HM F (fun j Hj Nj => proj1 (Z j Hj Nj))) (HM U0 (fun j Hj Nj => proj2 (Z j Hj Nj)))) as A.
  rewrite W in A. cbn [alike] in A. destruct A as (_ & A1 & A2 & A3).
  assert (X : v i == mirror i * v i).
  { destruct Hv as [E|[E|E]].
    - rewrite E in A1. exact (A1 i Hi).
    - rewrite E in A2. exact (A2 i Hi).
    - clear - A3 E Hi. revert E. revert A3. generalize (o_hist o). intros l A. 
      assert (G : forall l l', Forall2 (fun v v' => forall i, (i < size M)%nat -> v' i == mirror i * v i) l l' -> l = l' -> In v l -> v i == mirror i * v i).
      { clear - Hi. intros l l' H. induction H as [|x y t t' E Ht IH]; intros EQ IN; [destruct IN|]. injection EQ as <- <-. destruct IN as [->|IN]; [apply E; auto|apply IH; auto]. }
      intros IN. exact (G l l A eq_refl IN). }
  unfold mirror in X. apply Nat.eqb_neq in Ni. rewrite Ni in X. lra.
Qed.
Print Assumptions C120_axial_partial.

(** C120 does not hold with moment springs: the lateral resistance enters with its sign, and the springs resist rotation
    on one side only.  Whatever the solvers, the two results are not mirror images. *)
Theorem C120_mirror_refuted : exists M F F' v, w_n M = 1%nat /\ (forall e, (e < w_n M)%nat -> uncoupled (w_mech M e)) /\ (forall i, (i < size M)%nat -> F' i == mirror i * F i) /\
  (forall solve max_iter, solver_ok solve -> (1 <= max_iter)%nat -> exists o w, winkler_model solve M F zero free max_iter = Ok o /\ o_d o = Some w /\ veq (size M) w v) /\
  (forall solve max_iter o' v', solver_ok solve -> (99 <= max_iter)%nat -> winkler_model solve M F' zero free max_iter = Ok o' -> o_d o' = Some v' ->
     exists i, (i < size M)%nat /\ ~ v' i == mirror i * v i).
Proof. exact one_sided. Qed.
Print Assumptions C120_mirror_refuted.

(** the pile of C35, pushed and pulled *)
Example C120_example : w_mt soil1 = None /\ (forall e, (e < w_n soil1)%nat -> uncoupled (w_mech soil1 e)) /\
  exists o v, winkler_model gauss_solver soil1 small_load zero free 100 = Ok o /\ o_d o = Some v.
Proof.
  split; [reflexivity|]. split; [intros e He; apply (C120_element EulerBernoulli true 1000 0 1 1 1 1 1); reflexivity|]. exact (proj2 (proj2 C119_example)).
Qed.
