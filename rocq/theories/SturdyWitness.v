(** The pile of ElasticWitness with a lateral spring twice as stiff at its tip. *)
From Coq Require Import List Bool Arith ZArith QArith Qabs Qminmax Lia Lqa.
From Verif Require Import Base LinAlg PileModel BeamModel BeamProofs SolveModel SolveSpec SolveProofs SpringModel SpringSpec SpringProofs SoilProofs SpringProper SpringWitness WinklerModel WinklerSpec WinklerProofs WinklerWitness WinklerProps EquilSpec UnitWitness ElasticSpec ElasticProofs ElasticWitness StiffSpec SturdySpec.
Import ListNotations.
Local Open Scope Q_scope.

Definition py2 : curve := [(0, 0); (1#100, 200); (1#10, 400)].
Definition soil_h : wmodel := {| w_n := 1; w_mech := fun _ => mech0; w_L := fun _ => 1;
  w_py := Some (fun _ _ => py0); w_tz := Some (fun _ _ => tz_m); w_mt := None;
  w_mtc := fun _ => mt_coefs EulerBernoulli 0 1 1 1; w_hb := Some py2; w_mb := None; w_qz := None |}.

(** a lateral load on the head, and what it does to both piles *)
Definition head_h : vec := of_list [0; 10; 0; 0; 0; 0].
Definition moved_e : vec := of_list [0; 129956 # 38960125; -6759 # 1558405; 0; -29773 # 77920250; -49887 # 15584050].
Definition moved_h : vec := of_list [0; 228626 # 70246125; -19199 # 4683075; 0; -29773 # 140492250; -27437 # 9366150].
(** loads under which nothing but the tip of the first pile moves *)
Definition tip_loads : vec := of_list [0; -(375#7); -(1195#42); 0; 900#7; -(685#21)].
Definition tip_e : vec := of_list [0; 0; 0; 0; 1#200; 0].
Definition tip_h : vec := of_list [0; 29773 # 28098450; -5821 # 1873230; 0; 311681 # 112393800; -3331 # 936615].

Lemma py2_ok : lateral_curve py2.
Proof. split; [cbn; lia|]. split; [repeat split|]. split; [vm_compute; repeat split; discriminate|]. split; reflexivity. Qed.

Lemma soil_h_sound : sound_model soil_h z0.
Proof.
  constructor.
  - intros e He. cbn in He. split; [|reflexivity]. cbn [w_L soil_h]. destruct e as [|]; [reflexivity|lia].
  - intros e He. exact mech0_deforms.
  - intros mt E. discriminate E.
  - intros py mt _ E. discriminate E.
  - left. reflexivity.
Qed.

Lemma soil_h_regular : regular soil_h.
Proof.
  split; [|split; [|split; [|split; [|split]]]].
  - intros py E e j _ _. cbn [w_py soil_h] in E. injection E as <-. left. exact py0_ok.
  - intros tz E e j _ _. cbn [w_tz soil_h] in E. injection E as <-. left. exact tz_m_middle.
  - intros mt E. discriminate E.
  - intros c E. cbn [w_hb soil_h] in E. injection E as <-. left. exact py2_ok.
  - intros c E. discriminate E.
  - intros c E. discriminate E.
Qed.

Lemma soil_h_elastic : forall u, (forall a, (a <= 1)%nat -> Qabs (u (3 * a + 1)%nat) <= 1#100 /\ -(1#100) <= u (3 * a)%nat /\ u (3 * a)%nat <= 0) -> elastic soil_h (first_slopes soil_h) u.
Proof.
  intros u H. split; [|split; [|split; [|split; [|split]]]].
  - intros py E e j a He Hj Ha. cbn [w_py soil_h] in E. injection E as <-. left. apply first_segment; [exact py0_ok|]. apply H. cbn [w_n soil_h] in He. lia.
  - intros tz E e j a He Hj Ha. cbn [w_tz soil_h] in E. injection E as <-. left. cbn [w_n soil_h] in He. destruct (H a ltac:(lia)) as (_ & A & B).
    destruct tz_m_middle as (m & L & X). assert (m = 1%nat) by (cbn in L; lia). subst m.
    apply (middle_segment tz_m (u (3 * a)%nat) 1 L); try apply X; assumption.
  - intros mt E. discriminate E.
  - intros c E. cbn [w_hb soil_h] in E. injection E as <-. left. split; [|apply py2_ok]. apply first_segment; [exact py2_ok|]. apply (H 1%nat). lia.
  - intros c E. discriminate E.
  - intros c E. discriminate E.
Qed.

Definition small6 (u : vec) : bool := forallb (fun a => Qle_bool (Qabs (u (3 * a + 1)%nat)) (1#100) && Qle_bool (-(1#100)) (u (3 * a)%nat) && Qle_bool (u (3 * a)%nat) 0) [0; 1]%nat.
Lemma small6_ok : forall u, small6 u = true -> forall a, (a <= 1)%nat -> Qabs (u (3 * a + 1)%nat) <= 1#100 /\ -(1#100) <= u (3 * a)%nat /\ u (3 * a)%nat <= 0.
Proof.
  intros u H a Ha. unfold small6 in H. rewrite forallb_forall in H. specialize (H a). destruct (andb_prop _ _ (H ltac:(destruct a as [|[|]]; cbn; auto; lia))) as [H1 H3].
  apply andb_prop in H1. destruct H1 as [H1 H2]. apply Qle_bool_iff in H1, H2, H3. auto.
Qed.

Lemma stable_e : exists K, build soil_e zero Initial = Ok K /\ stable (size soil_e) K (supports_of free zero) /\
  linear_state (size soil_e) K head_h zero (supports_of free zero) moved_e zero /\ linear_state (size soil_e) K tip_loads zero (supports_of free zero) tip_e zero.
Proof.
  destruct initial_e as (K & B & ST & _). exists K. split; [exact B|]. split; [exact ST|].
  assert (C : match build soil_e zero Initial with Ok K0 => forallb (fun i => Qeq_bool (mulv 6 K0 moved_e i) (head_h i) && Qeq_bool (mulv 6 K0 tip_e i) (tip_loads i)) (seq 0 6) | Err _ => false end = true) by (vm_compute; reflexivity).
  rewrite B in C. rewrite forallb_forall in C.
  split; (split; [|split; [intros; reflexivity|intros i Hi Z; discriminate Z]]); intros i Hi; change (size soil_e) with 6%nat in *;
    specialize (C i ltac:(apply in_seq; lia)); apply andb_prop in C; destruct C as [C1 C2]; apply Qeq_bool_iff in C1, C2; unfold zero; [rewrite C1|rewrite C2]; ring.
Qed.

Lemma stable_h : exists K, build soil_h zero Initial = Ok K /\ stable (size soil_h) K (supports_of free zero) /\
  linear_state (size soil_h) K head_h zero (supports_of free zero) moved_h zero /\ linear_state (size soil_h) K tip_loads zero (supports_of free zero) tip_h zero.
Proof.
  destruct (elastic_builds soil_h (first_slopes soil_h) zero Initial) as [K B].
  { apply soil_h_elastic. intros a _. unfold zero. split; [discriminate|]. split; discriminate. }
  exists K. split; [exact B|]. split.
  { apply (system_stable soil_h z0 zero Initial K soil_h_sound B).
    - exists (fun _ _ => py0), 0%nat, 0%nat, 10000. split; [reflexivity|]. split; [cbn; lia|]. split; [lia|]. split; [vm_compute; reflexivity|reflexivity].
    - right; left. exists (fun _ _ => tz_m), 0%nat, 0%nat, 1000. split; [reflexivity|]. split; [cbn; lia|]. split; [lia|]. split; [vm_compute; reflexivity|reflexivity]. }
  assert (C : match build soil_h zero Initial with Ok K0 => forallb (fun i => Qeq_bool (mulv 6 K0 moved_h i) (head_h i) && Qeq_bool (mulv 6 K0 tip_h i) (tip_loads i)) (seq 0 6) | Err _ => false end = true) by (vm_compute; reflexivity).
  rewrite B in C. rewrite forallb_forall in C.
  split; (split; [|split; [intros; reflexivity|intros i Hi Z; discriminate Z]]); intros i Hi; change (size soil_h) with 6%nat in *;
    specialize (C i ltac:(apply in_seq; lia)); apply andb_prop in C; destruct C as [C1 C2]; apply Qeq_bool_iff in C1, C2; unfold zero; [rewrite C1|rewrite C2]; ring.
Qed.

Lemma h_sturdier : sturdier soil_e soil_h (first_slopes soil_e) (first_slopes soil_h).
Proof.
  split; [reflexivity|]. split; [reflexivity|]. split; [intros e u _; apply Qle_refl|].
  split; [right; split; [discriminate|intros; apply Qle_refl]|]. split; [right; split; [discriminate|intros; apply Qle_refl]|].
  split; [left; reflexivity|]. split; [left; reflexivity|]. split; [right; split; [discriminate|vm_compute; discriminate]|]. split; left; reflexivity.
Qed.
