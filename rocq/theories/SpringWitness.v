(** Concrete pile-soil model used by the examples. *)
From Coq Require Import List Bool Arith ZArith QArith Qabs Lia Lqa.
From Verif Require Import Base LinAlg PileModel BeamModel BeamSpec BeamProofs SolveModel SolveSpec SolveProofs ForceProofs SpringModel SpringSpec SpringProofs SoilProofs.
Import ListNotations.
Local Open Scope Q_scope.

Definition py0 : curve := [(0, 0); (1#100, 100); (1#10, 200)].
Definition tz0 : curve := map (fun i => let x := inject_Z (7 - Z.of_nat i) in (x / 1000, x * 10)) (seq 0 15).
(** moments proportional to the lateral resistance *)
Definition mt0 : list curve := [[(0, 0); (0, 0); (0, 0)]; [(1#100, 0); (1#100, 50); (1#100, 100)]; [(1#10, 0); (1#10, 100); (1#10, 200)]].
Definition mech0 : mat := match elem_mech EulerBernoulli true 1000 0 1 1 1 1 1 with Ok k => k | Err _ => fun _ _ => 0 end.

Definition soil0 : wmodel := {| w_n := 2; w_mech := fun _ => mech0; w_L := fun _ => 1;
  w_py := Some (fun _ _ => py0); w_tz := Some (fun _ _ => tz0); w_mt := Some (fun _ _ => mt0);
  w_mtc := fun _ => mt_coefs EulerBernoulli 0 1 1 1; w_hb := Some py0; w_mb := Some py0; w_qz := Some tz0 |}.

Definition z0 (e : nat) : Q := - inject_Z (Z.of_nat e).

Lemma mech0_deforms : elem_deforms 1 mech0.
Proof.
  destruct (elem_mech_sound EulerBernoulli true 1000 0 1 1 1 1 1 mech0) as (A & B & C & D & _); try lra; [reflexivity|].
  exact (conj A (conj B (conj C D))).
Qed.

Lemma soil0_sound : sound_model soil0 z0.
Proof.
  constructor.
  - intros e He. cbn in He. split; [|reflexivity]. cbn [w_L soil0]. destruct e as [|[|]]; [reflexivity|reflexivity|lia].
  - intros e He. exact mech0_deforms.
  - intros mt _ e He kt kb H1 H2. apply mt_eb_psd; auto. lra.
  - intros py mt EP EM e j He Hj. cbn in EP, EM. injection EP as <-. injection EM as <-.
    intros col q HC HQ. cbn in HC. destruct HC as [<-|[<-|[<-|[]]]]; cbn in HQ; destruct HQ as [<-|[<-|[<-|[]]]]; cbn; lra.
  - right. eexists; reflexivity.
Qed.

Lemma py0_ok : (2 <= length py0)%nat /\ strict py0 /\ hardening py0 /\ origin (point py0 0).
Proof. repeat split; cbn; try lra; lia. Qed.

Lemma tz0_ok : strict (rev tz0) /\ hardening (rev tz0) /\ (S (zero_index (length tz0)) < length tz0)%nat /\ origin (point tz0 (zero_index (length tz0))) /\ length tz0 = 15%nat.
Proof.
  split; [vm_compute; repeat split|]. split; [vm_compute; repeat split; discriminate|]. split; [vm_compute; lia|]. split; [|reflexivity].
  split; vm_compute; reflexivity.
Qed.

(** lateral field and its mirror image *)
Definition u0 : vec := of_list [0; 1#100; 1#100; 0; 1#100; 1#100; 0; 1#100; 1#100].
Definition u0m : vec := fun i => if Nat.eqb (i mod 3) 0 then u0 i else - u0 i.

Lemma u0_mirrored : mirrored u0 u0m.
Proof.
  intros i. unfold u0m.
  replace ((3 * i) mod 3)%nat with 0%nat by (rewrite Nat.mul_comm, Nat.mod_mul; auto).
  replace ((3 * i + 1) mod 3)%nat with 1%nat by (rewrite Nat.add_comm, Nat.mul_comm, Nat.mod_add; auto).
  replace ((3 * i + 2) mod 3)%nat with 2%nat by (rewrite Nat.add_comm, Nat.mul_comm, Nat.mod_add; auto). auto.
Qed.

Definition entry (i j : nat) (r : res mat) : option Q := match r with Ok K => Some (Qred (K i j)) | Err _ => None end.

Lemma direction_matters : exists M u v K K', mirrored u v /\ build M u Secant = Ok K /\ build M v Secant = Ok K' /\ ~ K 2%nat 2%nat == K' 2%nat 2%nat.
Proof.
  exists soil0, u0, u0m.
  assert (E : entry 2 2 (build soil0 u0 Secant) <> entry 2 2 (build soil0 u0m Secant)) by (vm_compute; discriminate).
  assert (A : match build soil0 u0 Secant with Ok _ => True | Err _ => False end) by (vm_compute; exact I).
  assert (B : match build soil0 u0m Secant with Ok _ => True | Err _ => False end) by (vm_compute; exact I).
  destruct (build soil0 u0 Secant) as [K|]; [|contradiction]. destruct (build soil0 u0m Secant) as [K'|]; [|contradiction].
  exists K, K'. split; [apply u0_mirrored|]. split; [reflexivity|]. split; [reflexivity|]. intros X. apply E. cbn [entry]. f_equal. apply Qred_complete. exact X.
Qed.

Lemma rotation_spring_lost : exists u p pp cols v w, 0 < v /\ w == 0 /\ mt_spring u p pp cols Secant = Ok v /\ mt_spring (- u) (- p) pp cols Secant = Ok w.
Proof.
  exists (1#100), 100, (map snd py0), mt0. eexists. eexists. split; [|split; [|split]]; [| |vm_compute; reflexivity|vm_compute; reflexivity]; reflexivity.
Qed.

(** hypotheses of the stability theorem for the unloaded pile: springs on shaft, no support *)
Lemma soil0_lateral : exists py e j s, w_py soil0 = Some py /\ (e < w_n soil0)%nat /\ (j < 2)%nat /\
  py_spring (spring_disp (w_n soil0) (fun _ => 0) 1 e j) (py e j) Initial = Ok s /\ 0 < s.
Proof. eexists. exists 0%nat, 0%nat. eexists. split; [reflexivity|]. split; [cbn; lia|]. split; [lia|]. split; [vm_compute; reflexivity|reflexivity]. Qed.

Lemma soil0_axial : exists tz e j s, w_tz soil0 = Some tz /\ (e < w_n soil0)%nat /\ (j < 2)%nat /\
  tz_spring (spring_disp (w_n soil0) (fun _ => 0) 0 e j) (tz e j) Initial = Ok s /\ 0 < s.
Proof. eexists. exists 0%nat, 0%nat. eexists. split; [reflexivity|]. split; [cbn; lia|]. split; [lia|]. split; [vm_compute; reflexivity|reflexivity]. Qed.

Lemma soil0_builds : exists K, build soil0 (fun _ => 0) Initial = Ok K.
Proof.
  assert (A : match build soil0 (fun _ => 0) Initial with Ok _ => True | Err _ => False end) by (vm_compute; exact I).
  destruct (build soil0 (fun _ => 0) Initial) as [K|]; [eauto|contradiction].
Qed.
