(** Concrete models for the unit of force and the mirror image. *)
From Coq Require Import List Bool Arith ZArith QArith Qabs Qminmax Lia Lqa.
From Verif Require Import Base LinAlg PileModel BeamModel BeamProofs SolveModel SolveSpec SolveProofs SpringModel SpringSpec SpringProofs SoilProofs SpringProper SpringWitness WinklerModel WinklerSpec WinklerProofs WinklerWitness WinklerProps TwinProofs UnitSpec UnitProofs.
Import ListNotations.
Local Open Scope Q_scope.

Lemma outcomes_alike : forall n a b beta p p', req (outcomes n a b beta) p p' -> alike n a b p p'.
Proof.
  intros n a b beta [o|e] [o'|e'] H; cbn [req alike] in *; auto; try (exfalso; exact H).
  destruct H as (H1 & H2 & H3 & _ & _ & H6). split; [symmetry; exact H3|]. split; [|split; [|exact H6]].
  - destruct (o_d o); destruct (o_d o'); exact H1.
  - destruct (o_Q o); destruct (o_Q o'); exact H2.
Qed.

Definition tz_m : curve := [(1#100, 10); (0, 0); (-(1#100), -(10))].
(** one element with lateral, axial and moment springs *)
Definition soil_m : wmodel := {| w_n := 1; w_mech := fun _ => mech0; w_L := fun _ => 1;
  w_py := Some (fun _ _ => py0); w_tz := Some (fun _ _ => tz_m); w_mt := Some (fun _ _ => mt0);
  w_mtc := fun _ => mt_coefs EulerBernoulli 0 1 1 1; w_hb := None; w_mb := None; w_qz := None |}.
Definition pull : vec := of_list [0; -(40#3); 25#3; 0; -(10#3); -(55#6)].
Definition push : vec := of_list [0; 40#3; -(25#3); 0; 10#3; 55#6].


Definition pulled_u : list Q := [0; -1#200; 1#100; 0; 0; 0].
Lemma pulled_pass : first_pass soil_m pull zero free = Some (pulled_u, [0; 0; 0; 0; 0; 0]).
Proof. vm_compute. reflexivity. Qed.

Lemma pulled : exists K U1 R1 Ks Kt, build soil_m zero Initial = Ok K /\
  solve_equations gauss_solver (size soil_m) K pull zero (supports_of free zero) = Some (U1, R1) /\
  build soil_m U1 Secant = Ok Ks /\ same (size soil_m) Ks K /\ build soil_m U1 Tangent = Ok Kt /\ same (size soil_m) Kt K /\
  (exists i, (i < size soil_m)%nat /\ ~ pull i == 2 * R1 i) /\ veq 6 (of_list pulled_u) U1.
Proof.
  destruct (linear_case soil_m pull zero free _ _ 1 pulled_pass) as (K & U1 & R1 & Ks & Kt & A & B & C & D & E & G & I & J & _).
  - vm_compute. reflexivity.
  - vm_compute. reflexivity.
  - unfold size. cbn. lia.
  - vm_compute. reflexivity.
  - exists K, U1, R1, Ks, Kt. do 7 (split; [assumption|]). exact J.
Qed.

(** what is out of balance at the mirror image *)
Definition unbalance (M : wmodel) (F V : vec) : option Q :=
  match build M V Secant with
  | Ok K => Some (Qred (force2 (size M) (fun i => Qred (F i - mulv (size M) (fun i j => Qred (K i j)) V i))))
  | Err _ => None
  end.
Definition flipped (l : list Q) : list Q := map (fun i => Qred (mirror i * nth i l 0)) (seq 0 6).

Lemma flipped_unbalanced : match unbalance soil_m push (of_list (flipped pulled_u)) with
  | Some e => (1#100000000) * force2 6 push < e | _ => False end.
Proof. vm_compute. reflexivity. Qed.

Lemma one_sided : exists M F F' v, w_n M = 1%nat /\ (forall e, (e < w_n M)%nat -> uncoupled (w_mech M e)) /\ (forall i, (i < size M)%nat -> F' i == mirror i * F i) /\
  (forall solve max_iter, solver_ok solve -> (1 <= max_iter)%nat -> exists o w, winkler_model solve M F zero free max_iter = Ok o /\ o_d o = Some w /\ veq (size M) w v) /\
  (forall solve max_iter o' v', solver_ok solve -> (99 <= max_iter)%nat -> winkler_model solve M F' zero free max_iter = Ok o' -> o_d o' = Some v' ->
     exists i, (i < size M)%nat /\ ~ v' i == mirror i * v i).
Proof.
  pose proof flipped_unbalanced as FU. destruct pulled as (K & U1 & R1 & Ks & Kt & A & B & C & D & E & G & I & J).
  exists soil_m, pull, push, U1. split; [reflexivity|]. split.
  { intros e He i j Hi Hj DD. cbn [w_mech soil_m]. do 6 (destruct i as [|i]; [do 6 (destruct j as [|j]; [first [elim DD; reflexivity|vm_compute; reflexivity]|]); lia|]). lia. }
  split. { intros i Hi. change (size soil_m) with 6%nat in Hi. do 6 (destruct i as [|i]; [vm_compute; reflexivity|]). lia. }
  split.
  - intros solve mi SO Hm. destruct (model_linear gauss_solver soil_m pull zero free K U1 R1 Ks Kt gauss_solver_ok A B C D E G I mi Hm) as (o & v & R & W & _ & DV & EV & _).
    pose proof (solver_winkler gauss_solver solve soil_m pull zero free mi gauss_solver_ok SO) as T.
    rewrite W in T. destruct (winkler_model solve soil_m pull zero free mi) as [o'|]; [|contradiction]. cbn [req] in T. destruct T as (T & _).
    rewrite DV in T. destruct (o_d o') as [w|] eqn:W'; [|contradiction]. cbn [opt_rel] in T. exists o', w. split; [reflexivity|]. split; [exact W'|].
    intros i Hi. rewrite (T i Hi), (EV i Hi). ring.
  - intros solve mi o' v' SO Hm W DV.
    destruct (Forall_Exists_dec (fun i => v' i == mirror i * U1 i) (fun i => Qeq_dec (v' i) (mirror i * U1 i)) (seq 0 6)) as [ALL|EX].
    2: { apply Exists_exists in EX. destruct EX as (i & Hi & NE). apply in_seq in Hi. exists i. split; [change (size soil_m) with 6%nat; lia|exact NE]. }
    exfalso. rewrite Forall_forall in ALL.
    assert (V : veq (size soil_m) (of_list (flipped pulled_u)) v').
    { intros i Hi. rewrite (ALL i) by (apply in_seq; change (size soil_m) with 6%nat in Hi; lia). rewrite <- (J i Hi).
      apply (reduced 6 (fun i => mirror i * nth i pulled_u 0) i Hi). }
    destruct (C35_unsupported_equilibrium_partial solve soil_m push zero free mi o' v' SO Hm (fun i _ => eq_refl) W DV) as (K2 & B2 & LT).
    unfold unbalance in FU. pose proof (build_comp soil_m _ v' Secant V) as BC. rewrite B2 in BC.
    destruct (build soil_m (of_list (flipped pulled_u)) Secant) as [K3|]; [|contradiction]. cbn [req] in BC.
    change (size soil_m) with 6%nat in *.
    assert (X : Qred (force2 6 (fun i => Qred (push i - mulv 6 (fun i j => Qred (K3 i j)) (of_list (flipped pulled_u)) i))) == force2 6 (fun i => push i - mulv 6 K2 v' i)).
    { rewrite Qred_correct. unfold force2. apply sum_ext. intros i Hi. rewrite Qred_correct.
      assert (Y : mulv 6 (fun i j => Qred (K3 i j)) (of_list (flipped pulled_u)) i == mulv 6 K2 v' i).
      { unfold mulv. apply sum_ext. intros j Hj. rewrite Qred_correct, (BC i j), (V j Hj). reflexivity. }
      rewrite Y. reflexivity. }
    revert FU LT X. generalize (Qred (force2 6 (fun i => Qred (push i - mulv 6 (fun i j => Qred (K3 i j)) (of_list (flipped pulled_u)) i)))).
    generalize (force2 6 (fun i => push i - mulv 6 K2 v' i)). generalize ((1 # 100000000) * force2 6 push). clear. intros x y z A B C. lra.
Qed.

(** ** A model in another unit *)
Definition in_units_of (l : Q) (c : list (Q * Q)) : list (Q * Q) := map (fun p => (fst p, l * snd p)) c.
Definition times (l : Q) (M : wmodel) : wmodel := {| w_n := w_n M; w_mech := fun e i j => l * w_mech M e i j; w_L := w_L M;
  w_py := option_map (fun a e j => in_units_of l (a e j)) (w_py M); w_tz := option_map (fun a e j => in_units_of l (a e j)) (w_tz M);
  w_mt := option_map (fun a e j => map (in_units_of l) (a e j)) (w_mt M); w_mtc := w_mtc M;
  w_hb := option_map (in_units_of l) (w_hb M); w_mb := option_map (in_units_of l) (w_mb M); w_qz := option_map (in_units_of l) (w_qz M) |}.

Lemma in_units_times : forall l c, curve_times l c (in_units_of l c).
Proof. intros l c. induction c as [|p t IH]; constructor; auto. split; reflexivity. Qed.
Lemma times_in_unit : forall l M, in_unit l M (times l M).
Proof.
  intros l M. constructor; try reflexivity; cbn [times w_py w_tz w_mt w_hb w_mb w_qz].
  - destruct (w_py M); cbn; auto. intros; apply in_units_times.
  - destruct (w_tz M); cbn; auto. intros; apply in_units_times.
  - destruct (w_mt M); cbn; auto. intros e j. induction (l0 e j); constructor; auto. apply in_units_times.
  - destruct (w_hb M); cbn; auto. apply in_units_times.
  - destruct (w_mb M); cbn; auto. apply in_units_times.
  - destruct (w_qz M); cbn; auto. apply in_units_times.
Qed.
