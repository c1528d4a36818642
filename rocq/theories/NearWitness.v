(** The pile of ElasticWitness with a lateral spring at its tip that is one per cent stronger. *)
From Coq Require Import List Bool Arith ZArith QArith Qabs Qminmax Lia Lqa.
From Verif Require Import Base LinAlg PileModel BeamModel BeamProofs SolveModel SolveSpec SolveProofs SpringModel SpringSpec SpringProofs SoilProofs SpringProper SpringWitness WinklerModel WinklerSpec WinklerProofs WinklerWitness WinklerProps EquilSpec UnitWitness ElasticSpec ElasticProofs ElasticWitness SturdySpec SturdyWitness NearSpec NearProofs.
Import ListNotations.
Local Open Scope Q_scope.

Definition py_n : curve := [(0, 0); (1#100, 101); (1#10, 202)].
Definition soil_n : wmodel := {| w_n := 1; w_mech := fun _ => mech0; w_L := fun _ => 1;
  w_py := Some (fun _ _ => py0); w_tz := Some (fun _ _ => tz_m); w_mt := None;
  w_mtc := fun _ => mt_coefs EulerBernoulli 0 1 1 1; w_hb := Some py_n; w_mb := None; w_qz := None |}.

Definition moved_n : vec := of_list [0; 1309427 # 392729850; -567217 # 130909950; 0; -29773 # 78545970; -418427 # 130909950].
(** the head pushed by two millimetres *)
Definition head_2 : vec := of_list [0; 1#500; 0; 0; 0; 0].
Definition pushed_e : vec := of_list [0; 1 # 500; -6759 # 2599120; 0; -29773 # 129956000; -49887 # 25991200].
Definition held_e : vec := of_list [0; 1558405 # 259912; 0; 0; 0; 0].
Definition pushed_n : vec := of_list [0; 1 # 500; -243093 # 93530500; 0; -29773 # 130942700; -1255281 # 654713500].
Definition held_n : vec := of_list [0; 7854597 # 1309427; 0; 0; 0; 0].

Lemma py_n_ok : lateral_curve py_n.
Proof. split; [cbn; lia|]. split; [repeat split|]. split; [vm_compute; repeat split; discriminate|]. split; reflexivity. Qed.

Lemma soil_n_sound : sound_model soil_n z0.
Proof.
  constructor.
  - intros e He. cbn in He. split; [|reflexivity]. cbn [w_L soil_n]. destruct e as [|]; [reflexivity|lia].
  - intros e He. exact mech0_deforms.
  - intros mt E. discriminate E.
  - intros py mt _ E. discriminate E.
  - left. reflexivity.
Qed.

Lemma soil_n_regular : regular soil_n.
Proof.
  split; [|split; [|split; [|split; [|split]]]].
  - intros py E e j _ _. cbn [w_py soil_n] in E. injection E as <-. left. exact py0_ok.
  - intros tz E e j _ _. cbn [w_tz soil_n] in E. injection E as <-. left. exact tz_m_middle.
  - intros mt E. discriminate E.
  - intros c E. cbn [w_hb soil_n] in E. injection E as <-. left. exact py_n_ok.
  - intros c E. discriminate E.
  - intros c E. discriminate E.
Qed.

Lemma soil_n_elastic : forall u, (forall a, (a <= 1)%nat -> Qabs (u (3 * a + 1)%nat) <= 1#100 /\ -(1#100) <= u (3 * a)%nat /\ u (3 * a)%nat <= 0) -> elastic soil_n (first_slopes soil_n) u.
Proof.
  intros u H. split; [|split; [|split; [|split; [|split]]]].
  - intros py E e j a He Hj Ha. cbn [w_py soil_n] in E. injection E as <-. left. apply first_segment; [exact py0_ok|]. apply H. cbn [w_n soil_n] in He. lia.
  - intros tz E e j a He Hj Ha. cbn [w_tz soil_n] in E. injection E as <-. left. cbn [w_n soil_n] in He. destruct (H a ltac:(lia)) as (_ & A & B).
    destruct tz_m_middle as (m & L & X). assert (m = 1%nat) by (cbn in L; lia). subst m.
    apply (middle_segment tz_m (u (3 * a)%nat) 1 L); try apply X; assumption.
  - intros mt E. discriminate E.
  - intros c E. cbn [w_hb soil_n] in E. injection E as <-. left. split; [|apply py_n_ok]. apply first_segment; [exact py_n_ok|]. apply (H 1%nat). lia.
  - intros c E. discriminate E.
  - intros c E. discriminate E.
Qed.

Definition solved (M : wmodel) (F V : vec) : bool := match build M zero Initial with Ok K => forallb (fun i => Qeq_bool (mulv 6 K V i) (F i)) (seq 0 6) | Err _ => false end.
Lemma solved_ok : forall M F V K, solved M F V = true -> build M zero Initial = Ok K -> forall i, (i < 6)%nat -> mulv 6 K V i == F i.
Proof. intros M F V K H B i Hi. unfold solved in H. rewrite B in H. rewrite forallb_forall in H. apply Qeq_bool_iff, H, in_seq. lia. Qed.

Lemma state_of : forall M F U V R K s, solved M (fun i => F i + R i) V = true -> build M zero Initial = Ok K -> size M = 6%nat ->
  forallb (fun i => Qeq_bool (R i) 0 || s i) (seq 0 6) = true -> forallb (fun i => Qeq_bool (V i) (U i) || negb (s i)) (seq 0 6) = true -> linear_state (size M) K F U s V R.
Proof.
  intros M F U V R K s H B E C1 C2. rewrite E. rewrite forallb_forall in C1, C2. split; [|split].
  - intros i Hi. exact (solved_ok M _ V K H B i Hi).
  - intros i Hi Z. specialize (C1 i ltac:(apply in_seq; lia)). rewrite Z, orb_false_r in C1. apply Qeq_bool_iff, C1.
  - intros i Hi Z. specialize (C2 i ltac:(apply in_seq; lia)). rewrite Z, orb_false_r in C2. apply Qeq_bool_iff, C2.
Qed.

Lemma stable_both : forall r, exists K K', build soil_e zero Initial = Ok K /\ build soil_n zero Initial = Ok K' /\ stable (size soil_e) K r /\ stable (size soil_n) K' r.
Proof.
  intros r. destruct initial_e as (K & B & _). destruct (elastic_builds soil_n (first_slopes soil_n) zero Initial) as [K' B'].
  { apply soil_n_elastic. intros a _. unfold zero. split; [discriminate|]. split; discriminate. }
  exists K, K'. split; [exact B|]. split; [exact B'|]. split.
  - apply (system_stable soil_e z0 zero Initial K soil_e_sound B).
    + exists (fun _ _ => py0), 0%nat, 0%nat, 10000. split; [reflexivity|]. split; [cbn; lia|]. split; [lia|]. split; [vm_compute; reflexivity|reflexivity].
    + right; left. exists (fun _ _ => tz_m), 0%nat, 0%nat, 1000. split; [reflexivity|]. split; [cbn; lia|]. split; [lia|]. split; [vm_compute; reflexivity|reflexivity].
  - apply (system_stable soil_n z0 zero Initial K' soil_n_sound B').
    + exists (fun _ _ => py0), 0%nat, 0%nat, 10000. split; [reflexivity|]. split; [cbn; lia|]. split; [lia|]. split; [vm_compute; reflexivity|reflexivity].
    + right; left. exists (fun _ _ => tz_m), 0%nat, 0%nat, 1000. split; [reflexivity|]. split; [cbn; lia|]. split; [lia|]. split; [vm_compute; reflexivity|reflexivity].
Qed.

Lemma close_same : forall d c, 0 <= d -> close_points d c c.
Proof.
  intros d c D. split; [reflexivity|]. intros i _. assert (G : forall x, close d x x).
  { intros x. assert (E : Qabs (x - x) == 0) by (setoid_replace (x - x) with 0 by ring; reflexivity). split; rewrite E; apply Qmult_le_0_compat; [exact D|apply Qabs_nonneg|exact D|apply Qabs_nonneg]. }
  split; apply G.
Qed.

Lemma n_close : close_soil (1#100) soil_e soil_n.
Proof.
  do 4 (split; [reflexivity|]). split; [intros e j _ _; apply close_same; lra|]. split; [intros e j _ _; apply close_same; lra|]. split; [exact Logic.I|].
  split; [|split; exact Logic.I]. split; [reflexivity|]. intros i Hi. change (length py0) with 3%nat in Hi.
  do 3 (destruct i as [|i]; [split; (split; vm_compute; discriminate)|]). lia.
Qed.
