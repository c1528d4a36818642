(** A pile that is pushed sideways to the end of the elastic range of its springs. *)
From Coq Require Import List Bool Arith ZArith QArith Qabs Qminmax Lia Lqa.
From Verif Require Import Base LinAlg PileModel BeamModel BeamProofs SolveModel SolveSpec SolveProofs SpringModel SpringSpec SpringProofs SoilProofs SpringProper SpringWitness WinklerModel WinklerSpec WinklerProofs WinklerWitness WinklerProps EquilSpec UnitWitness ElasticSpec ElasticProofs.
Import ListNotations.
Local Open Scope Q_scope.

(** one element with lateral and axial springs and a lateral spring at the tip *)
Definition soil_e : wmodel := {| w_n := 1; w_mech := fun _ => mech0; w_L := fun _ => 1;
  w_py := Some (fun _ _ => py0); w_tz := Some (fun _ _ => tz_m); w_mt := None;
  w_mtc := fun _ => mt_coefs EulerBernoulli 0 1 1 1; w_hb := Some py0; w_mb := None; w_qz := None |}.
(** loads that move it by one centimetre, and the same twice *)
Definition push1 : vec := of_list [0; 50; 25#3; 0; 150; -(25#3)].
Definition push2 : vec := of_list [0; 100; 50#3; 0; 300; -(50#3)].
Definition moved1 : vec := of_list [0; 1#100; 0; 0; 1#100; 0].
Definition moved2 : vec := of_list [0; 1#50; 0; 0; 1#50; 0].
(** a load on the head *)
Definition head1 : vec := of_list [-(5); 10; 0; 0; 0; 0].

Definition under_head : vec := of_list [-2 # 325; 129956 # 38960125; -6759 # 1558405; -1 # 260; -29773 # 77920250; -49887 # 15584050].

Lemma soil_e_sound : sound_model soil_e z0.
Proof.
  constructor.
  - intros e He. cbn in He. split; [|reflexivity]. cbn [w_L soil_e]. destruct e as [|]; [reflexivity|lia].
  - intros e He. exact mech0_deforms.
  - intros mt E. discriminate E.
  - intros py mt _ E. discriminate E.
  - left. reflexivity.
Qed.

Lemma tz_m_middle : middle_curve tz_m.
Proof. exists 1%nat. split; [reflexivity|]. split; [reflexivity|]. split; [repeat split|]. split; [vm_compute; repeat split; discriminate|]. split; reflexivity. Qed.

Lemma soil_e_regular : regular soil_e.
Proof.
  split; [|split; [|split; [|split; [|split]]]].
  - intros py E e j _ _. cbn [w_py soil_e] in E. injection E as <-. left. exact py0_ok.
  - intros tz E e j _ _. cbn [w_tz soil_e] in E. injection E as <-. left. exact tz_m_middle.
  - intros mt E. discriminate E.
  - intros c E. cbn [w_hb soil_e] in E. injection E as <-. left. exact py0_ok.
  - intros c E. discriminate E.
  - intros c E. discriminate E.
Qed.

Lemma soil_e_elastic : forall u, (forall a, (a <= 1)%nat -> Qabs (u (3 * a + 1)%nat) <= 1#100 /\ -(1#100) <= u (3 * a)%nat /\ u (3 * a)%nat <= 0) -> elastic soil_e (first_slopes soil_e) u.
Proof.
  intros u H. split; [|split; [|split; [|split; [|split]]]].
  - intros py E e j a He Hj Ha. cbn [w_py soil_e] in E. injection E as <-. left. apply first_segment; [exact py0_ok|]. apply H. cbn [w_n soil_e] in He. lia.
  - intros tz E e j a He Hj Ha. cbn [w_tz soil_e] in E. injection E as <-. left. cbn [w_n soil_e] in He. destruct (H a ltac:(lia)) as (_ & A & B).
    destruct tz_m_middle as (m & L & X). assert (m = 1%nat) by (cbn in L; lia). subst m.
    apply (middle_segment tz_m (u (3 * a)%nat) 1 L); try apply X; assumption.
  - intros mt E. discriminate E.
  - intros c E. cbn [w_hb soil_e] in E. injection E as <-. left. split; [|apply py0_ok]. apply first_segment; [exact py0_ok|]. apply (H 1%nat). lia.
  - intros c E. discriminate E.
  - intros c E. discriminate E.
Qed.

Lemma initial_e : exists K, build soil_e zero Initial = Ok K /\ stable (size soil_e) K (supports_of free zero) /\
  linear_state (size soil_e) K push1 zero (supports_of free zero) moved1 zero /\ linear_state (size soil_e) K head1 zero (supports_of free zero) under_head zero.
Proof.
  destruct (elastic_builds soil_e (first_slopes soil_e) zero Initial) as [K B].
  { apply soil_e_elastic. intros a _. unfold zero. split; [discriminate|]. split; discriminate. }
  exists K. split; [exact B|]. split.
  { apply (system_stable soil_e z0 zero Initial K soil_e_sound B).
    - exists (fun _ _ => py0), 0%nat, 0%nat, 10000. split; [reflexivity|]. split; [cbn; lia|]. split; [lia|]. split; [vm_compute; reflexivity|reflexivity].
    - right; left. exists (fun _ _ => tz_m), 0%nat, 0%nat, 1000. split; [reflexivity|]. split; [cbn; lia|]. split; [lia|]. split; [vm_compute; reflexivity|reflexivity]. }
  assert (C : match build soil_e zero Initial with Ok K0 => forallb (fun i => Qeq_bool (mulv 6 K0 moved1 i) (push1 i) && Qeq_bool (mulv 6 K0 under_head i) (head1 i)) (seq 0 6) | Err _ => false end = true) by (vm_compute; reflexivity).
  rewrite B in C. rewrite forallb_forall in C.
  split; (split; [|split; [intros; reflexivity|intros i Hi Z; discriminate Z]]); intros i Hi; change (size soil_e) with 6%nat in *;
    specialize (C i ltac:(apply in_seq; lia)); apply andb_prop in C; destruct C as [C1 C2]; apply Qeq_bool_iff in C1, C2; unfold zero; [rewrite C1|rewrite C2]; ring.
Qed.

Lemma twice_unbalanced : match unbalance soil_e push2 moved2 with Some e => (1#100000000) * force2 6 push2 < e | _ => False end.
Proof. vm_compute. reflexivity. Qed.

Lemma not_twice : forall solve max_iter o v, solver_ok solve -> (99 <= max_iter)%nat -> winkler_model solve soil_e push2 zero free max_iter = Ok o -> o_d o = Some v ->
  exists i, (i < size soil_e)%nat /\ ~ v i == 2 * moved1 i.
Proof.
  intros solve mi o v SO Hm W DV. pose proof twice_unbalanced as FU.
  destruct (Forall_Exists_dec (fun i => v i == 2 * moved1 i) (fun i => Qeq_dec (v i) (2 * moved1 i)) (seq 0 6)) as [ALL|EX].
  2: { apply Exists_exists in EX. destruct EX as (i & Hi & NE). apply in_seq in Hi. exists i. split; [change (size soil_e) with 6%nat; lia|exact NE]. }
  exfalso. rewrite Forall_forall in ALL.
  assert (V : veq (size soil_e) moved2 v).
  { intros i Hi. change (size soil_e) with 6%nat in Hi. rewrite (ALL i) by (apply in_seq; lia). do 6 (destruct i as [|i]; [vm_compute; reflexivity|]). lia. }
  destruct (C35_unsupported_equilibrium_partial solve soil_e push2 zero free mi o v SO Hm (fun i _ => eq_refl) W DV) as (K2 & B2 & LT).
  unfold unbalance in FU. pose proof (build_comp soil_e _ v Secant V) as BC. rewrite B2 in BC.
  destruct (build soil_e moved2 Secant) as [K3|]; [|contradiction]. cbn [req] in BC. change (size soil_e) with 6%nat in *.
  assert (X : Qred (force2 6 (fun i => Qred (push2 i - mulv 6 (fun i j => Qred (K3 i j)) moved2 i))) == force2 6 (fun i => push2 i - mulv 6 K2 v i)).
  { rewrite Qred_correct. unfold force2. apply sum_ext. intros i Hi. rewrite Qred_correct.
    assert (Y : mulv 6 (fun i j => Qred (K3 i j)) moved2 i == mulv 6 K2 v i).
    { unfold mulv. apply sum_ext. intros j Hj. rewrite Qred_correct, (BC i j), (V j Hj). reflexivity. }
    rewrite Y. reflexivity. }
  revert FU LT X. generalize (Qred (force2 6 (fun i => Qred (push2 i - mulv 6 (fun i j => Qred (K3 i j)) moved2 i)))).
  generalize (force2 6 (fun i => push2 i - mulv 6 K2 v i)). generalize ((1 # 100000000) * force2 6 push2). clear. intros x y z A B C. lra.
Qed.
