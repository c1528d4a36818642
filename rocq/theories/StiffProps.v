(** C118: the displacements found have the least potential energy; a stiffer pile and a pile with more supports gives way less. *)
From Coq Require Import List Bool Arith ZArith QArith Qabs Lia Lqa.
From Verif Require Import Base LinAlg PileModel BeamModel BeamProofs SolveModel SolveSpec SolveProofs ForceProofs SpringWitness StiffSpec StiffProofs.
Import ListNotations.
Local Open Scope Q_scope.

(** C118: a beam analysis returns the displacements of least potential energy among all that agree with the supports and
    prescribed displacements; what others have more is the work it takes to deform the pile from one to the other. *)
Theorem C118_least_energy : forall solve n k F U r d Q q v, solver_ok solve -> (forall e, (e < n)%nat -> symmetric 6 (k e) /\ psd 6 (k e)) ->
  beam solve n k F U r = Some (d, Q, q) -> prescribed (3 * n + 3) r U v ->
  prescribed (3 * n + 3) r U d /\ potential (3 * n + 3) (jit_build n k) F d <= potential (3 * n + 3) (jit_build n k) F v /\
  potential (3 * n + 3) (jit_build n k) F v - potential (3 * n + 3) (jit_build n k) F d == sum n (fun e => energy 6 (k e) (elem_disp (fun i => v i - d i) e)).
Proof.
  intros solve n k F U r d Q q v SO PR B PV. pose proof (beam_least n solve k F U r d Q q v SO PR B PV) as L.
  split; [exact (beam_prescribed n solve k F U r d Q q SO B)|]. split.
  - assert (PS : psd (3 * n + 3) (jit_build n k)) by (apply build_psd; intros e He; apply (PR e He)). pose proof (PS (fun i => v i - d i)). lra.
  - rewrite L. apply build_energy.
Qed.
Print Assumptions C118_least_energy.

(** C118: under the same loads, without prescribed displacements, the loads do less work on a stiffer pile or one held by more supports. *)
Theorem C118_loads : forall solve solve' n k k' F U r r' d Q q d' Q' q', solver_ok solve -> solver_ok solve' -> (forall e, (e < n)%nat -> symmetric 6 (k e) /\ psd 6 (k e)) ->
  stiffer n k k' -> more_supports n r r' -> (forall i, (i < 3 * n + 3)%nat -> U i == 0) ->
  beam solve n k F U r = Some (d, Q, q) -> beam solve' n k' F U r' = Some (d', Q', q') ->
  0 <= dot (3 * n + 3) F d' /\ dot (3 * n + 3) F d' <= dot (3 * n + 3) F d.
Proof.
  intros solve solve' n k k' F U r r' d Q q d' Q' q' SO SO' PR ST MS UZ B B'.
  destruct (stiffer_loads n solve solve' k k' F U r r' d Q q d' Q' q' SO SO' PR ST MS UZ B B') as [A C]. split; [exact A|].
  assert (PS : psd (3 * n + 3) (jit_build n k)) by (apply build_psd; intros e He; apply (PR e He)). pose proof (PS (fun i => d' i - d i)). lra.
Qed.
Print Assumptions C118_loads.

(** C118: a single load moves the point where it acts, in its own direction, no further. *)
Theorem C118_under_the_load : forall solve solve' n k k' F U r r' d Q q d' Q' q' i, solver_ok solve -> solver_ok solve' -> (forall e, (e < n)%nat -> symmetric 6 (k e) /\ psd 6 (k e)) ->
  stiffer n k k' -> more_supports n r r' -> (forall i, (i < 3 * n + 3)%nat -> U i == 0) ->
  (i < 3 * n + 3)%nat -> ~ F i == 0 -> (forall j, (j < 3 * n + 3)%nat -> j <> i -> F j == 0) ->
  beam solve n k F U r = Some (d, Q, q) -> beam solve' n k' F U r' = Some (d', Q', q') ->
  Qabs (d' i) <= Qabs (d i) /\ 0 <= F i * d' i.
Proof.
  intros solve solve' n k k' F U r r' d Q q d' Q' q' i SO SO' PR ST MS UZ Hi NZ Z B B'.
  destruct (C118_loads solve solve' n k k' F U r r' d Q q d' Q' q' SO SO' PR ST MS UZ B B') as [A C].
  rewrite !(dot_single _ F _ i Hi Z) in C. rewrite (dot_single _ F _ i Hi Z) in A. split; [|exact A]. exact (abs_le_from (F i) (d' i) (d i) NZ A C).
Qed.
Print Assumptions C118_under_the_load.

(** C118: to impose displacements on an unloaded pile takes at least as much work when it is stiffer or held by more supports. *)
Theorem C118_settlements : forall solve solve' n k k' F U r r' d Q q d' Q' q', solver_ok solve -> solver_ok solve' -> (forall e, (e < n)%nat -> symmetric 6 (k e) /\ psd 6 (k e)) ->
  stiffer n k k' -> more_supports n r r' -> (forall i, (i < 3 * n + 3)%nat -> F i == 0) ->
  beam solve n k F U r = Some (d, Q, q) -> beam solve' n k' F U r' = Some (d', Q', q') ->
  0 <= dot (3 * n + 3) Q U /\ dot (3 * n + 3) Q U <= dot (3 * n + 3) Q' U.
Proof. exact (fun solve solve' n => stiffer_settlements n solve solve'). Qed.
Print Assumptions C118_settlements.

(** C118: which elements are stiffer: Euler-Bernoulli elements of larger bending and axial stiffness; elements of either type of a
    larger modulus; an Euler-Bernoulli element compared with a Timoshenko one. *)
Theorem C118_elements : forall c c' E nu I A d wt L k, 0 < E -> -(3#4) <= nu -> 0 < I -> 0 < A -> 0 < d -> 0 < L ->
  (forall E' nu' I' A' d' wt' k', 0 < E' -> -(3#4) <= nu' -> 0 < I' -> 0 < A' -> 0 < d' -> E * I <= E' * I' -> E * A <= E' * A' ->
     elem_mech EulerBernoulli c E nu I A d wt L = Ok k -> elem_mech EulerBernoulli c' E' nu' I' A' d' wt' L = Ok k' -> forall u, energy 6 k u <= energy 6 k' u) /\
  (forall ty E' k', E <= E' -> elem_mech ty c E nu I A d wt L = Ok k -> elem_mech ty c E' nu I A d wt L = Ok k' -> forall u, energy 6 k u <= energy 6 k' u) /\
  (forall k', elem_mech Timoshenko c E nu I A d wt L = Ok k -> elem_mech EulerBernoulli c' E nu I A d wt L = Ok k' -> forall u, energy 6 k u <= energy 6 k' u).
Proof.
  intros c c' E nu I A d wt L k HE HN HI HA HD HL. split; [|split].
  - intros E' nu' I' A' d' wt' k' HE' HN' HI' HA' HD' B1 B2 H H' u.
    destruct (elem_mech_ok _ _ _ _ _ _ _ _ _ _ HE HN HI HA HD HL H) as (p & P & -> & EP).
    destruct (elem_mech_ok _ _ _ _ _ _ _ _ _ _ HE' HN' HI' HA' HD' HL H') as (p' & P' & -> & EP').
    apply mech_stiffer; auto; [lra|]. rewrite EP, EP'. lra.
  - intros ty E' k' LE H H' u. assert (HE' : 0 < E') by lra.
    destruct (elem_mech_ok _ _ _ _ _ _ _ _ _ _ HE HN HI HA HD HL H) as (p & P & -> & EP).
    destruct (elem_mech_ok _ _ _ _ _ _ _ _ _ _ HE' HN HI HA HD HL H') as (p' & P' & -> & EP').
    assert (X : p == p').
    { rewrite EP, EP'. destruct ty; [reflexivity|]. field. repeat split; apply pos_nonzero; auto; lra. }
    assert (Y : E * I <= E' * I) by (apply Qmult_le_compat_r; lra).
    apply mech_stiffer; auto; [rewrite !(Qmult_comm A); apply Qmult_le_compat_r; lra|]. rewrite X. apply Qmult_le_compat_r; [exact Y|lra].
  - intros k' H H' u. assert (CT : c = true) by (destruct c; auto; rewrite elem_mech_noncircular in H; discriminate). subst c.
    exact (elem_timo_softer E nu I A d wt L k k' c' u HE HN HI HA HD HL H H').
Qed.
Print Assumptions C118_elements.

(** C118: a pile of larger modulus, whatever its sections and element type, moves less where a single load acts. *)
Theorem C118_pile : forall solve n ty c E E' nu I A dd wt z k k' F U r d Q q d' Q' q' i, solver_ok solve -> 0 < E -> E <= E' -> -(3#4) <= nu ->
  (forall e, (e < n)%nat -> 0 < I e /\ 0 < A e /\ 0 < dd e /\ z (S e) < z e /\
     elem_mech ty c E nu (I e) (A e) (dd e) (wt e) (z e - z (S e)) = Ok (k e) /\
     elem_mech ty c E' nu (I e) (A e) (dd e) (wt e) (z e - z (S e)) = Ok (k' e)) ->
  (forall i, (i < 3 * n + 3)%nat -> U i == 0) -> (i < 3 * n + 3)%nat -> ~ F i == 0 -> (forall j, (j < 3 * n + 3)%nat -> j <> i -> F j == 0) ->
  beam solve n k F U r = Some (d, Q, q) -> beam solve n k' F U r = Some (d', Q', q') -> Qabs (d' i) <= Qabs (d i).
Proof.
  intros solve n ty c E E' nu I A dd wt z k k' F U r d Q q d' Q' q' i SO HE LE HN HK UZ Hi NZ Z B B'.
  apply (C118_under_the_load solve solve n k k' F U r r d Q q d' Q' q' i); auto.
  - intros e He. destruct (HK e He) as (HI & HA & HD & HZ & H & _). 
    destruct (elem_mech_sound ty c E nu (I e) (A e) (dd e) (wt e) (z e - z (S e)) (k e)) as (X & Y & _); auto; lra.
  - intros e u He. destruct (HK e He) as (HI & HA & HD & HZ & H & H').
    destruct (C118_elements c c E nu (I e) (A e) (dd e) (wt e) (z e - z (S e)) (k e)) as (_ & M & _); auto; [lra|]. exact (M ty E' (k' e) LE H H' u).
  - intros j Hj R. exact R.
Qed.
Print Assumptions C118_pile.

(** C118 does not say that every displacement becomes smaller: the end moments of this pile leave its head straight until the tip is
    clamped. *)
Definition pinned (i : nat) : bool := match i with 0%nat | 1%nat | 4%nat => true | _ => false end.
Definition pinned_clamped (i : nat) : bool := match i with 0%nat | 1%nat | 4%nat | 5%nat => true | _ => false end.
Definition end_moments : vec := of_list [0; 0; 1000; 0; 0; 2000].

Theorem C118_everywhere_refuted : exists n k F U r r' d Q q d' Q' q', (forall e, (e < n)%nat -> elem_deforms 1 (k e)) /\ more_supports n r r' /\ (forall i, U i == 0) /\
  beam gauss_solver n k F U r = Some (d, Q, q) /\ beam gauss_solver n k F U r' = Some (d', Q', q') /\ d 2%nat == 0 /\ d' 2%nat == 1#4.
Proof.
  assert (X : match beam gauss_solver 1 (fun _ => mech0) end_moments (fun _ => 0) pinned with Some (d, _, _) => Qeq_bool (d 2%nat) 0 | None => false end = true) by (vm_compute; reflexivity).
  assert (Y : match beam gauss_solver 1 (fun _ => mech0) end_moments (fun _ => 0) pinned_clamped with Some (d, _, _) => Qeq_bool (d 2%nat) (1#4) | None => false end = true) by (vm_compute; reflexivity).
  exists 1%nat, (fun _ => mech0), end_moments, (fun _ => 0), pinned, pinned_clamped.
  destruct (beam gauss_solver 1 (fun _ => mech0) end_moments (fun _ => 0) pinned) as [[[d Q] q]|]; [|discriminate].
  destruct (beam gauss_solver 1 (fun _ => mech0) end_moments (fun _ => 0) pinned_clamped) as [[[d' Q'] q']|]; [|discriminate].
  exists d, Q, q, d', Q', q'. split; [intros; apply mech0_deforms|]. split; [intros i Hi; do 6 (destruct i as [|i]; [cbn; auto|]); cbn; auto|]. split; [reflexivity|].
  split; [reflexivity|]. split; [reflexivity|]. split; apply Qeq_bool_iff; assumption.
Qed.
Print Assumptions C118_everywhere_refuted.

(** two elements clamped at the tip, pushed at the head, and the same with half the modulus *)
Definition soft0 : mat := match elem_mech EulerBernoulli true 500 0 1 1 1 1 1 with Ok k => k | Err _ => fun _ _ => 0 end.
Definition tip_clamped (i : nat) : bool := (6 <=? i)%nat.
Definition head_load : vec := of_list [0; 30; 0; 0; 0; 0; 0; 0; 0].
Example C118_example : (forall e, (e < 2)%nat -> symmetric 6 (soft0) /\ psd 6 soft0) /\ stiffer 2 (fun _ => soft0) (fun _ => mech0) /\
  exists d Q q d' Q' q', beam gauss_solver 2 (fun _ => soft0) head_load (fun _ => 0) tip_clamped = Some (d, Q, q) /\
    beam gauss_solver 2 (fun _ => mech0) head_load (fun _ => 0) tip_clamped = Some (d', Q', q') /\ Qabs (d' 1%nat) < Qabs (d 1%nat).
Proof.
  assert (HS : elem_mech EulerBernoulli true 500 0 1 1 1 1 1 = Ok soft0) by reflexivity. assert (HM : elem_mech EulerBernoulli true 1000 0 1 1 1 1 1 = Ok mech0) by reflexivity.
  split. { intros e He. destruct (elem_mech_sound EulerBernoulli true 500 0 1 1 1 1 1 soft0) as (X & Y & _); try lra; auto. }
  split. { intros e u He. destruct (C118_elements true true 500 0 1 1 1 1 1 soft0) as (_ & M & _); try lra. apply (M EulerBernoulli 1000 mech0); auto. lra. }
  assert (X : match beam gauss_solver 2 (fun _ => soft0) head_load (fun _ => 0) tip_clamped, beam gauss_solver 2 (fun _ => mech0) head_load (fun _ => 0) tip_clamped with
    | Some (d, _, _), Some (d', _, _) => Qltb (Qabs (d' 1%nat)) (Qabs (d 1%nat)) | _, _ => false end = true) by (vm_compute; reflexivity).
  destruct (beam gauss_solver 2 (fun _ => soft0) head_load (fun _ => 0) tip_clamped) as [[[d Q] q]|]; [|discriminate].
  destruct (beam gauss_solver 2 (fun _ => mech0) head_load (fun _ => 0) tip_clamped) as [[[d' Q'] q']|]; [|discriminate].
  exists d, Q, q, d', Q', q'. split; [reflexivity|]. split; [reflexivity|]. apply Qltb_true. exact X.
Qed.
