(** The analysis applied to the pile-soil model, and concrete runs. *)
From Coq Require Import List Bool Arith ZArith QArith Qabs Lia Lqa.
From Verif Require Import Base LinAlg PileModel BeamModel BeamProofs SolveModel SolveSpec SolveProofs SpringModel SpringSpec SpringProofs SoilProofs SpringProper SpringWitness WinklerModel WinklerSpec WinklerProofs.
Import ListNotations.
Local Open Scope Q_scope.

Lemma build_zero_ok : forall M K r, build M zero Initial = Ok K -> stable (size M) K r ->
  forall d k, veq (size M) d zero -> exists K', build M d k = Ok K' /\ stable (size M) K' r.
Proof.
  intros M K r B ST d k H. pose proof (build_comp M d zero k H) as C.
  change zero with rest in C. rewrite (build_rest M k Initial) in C. change rest with zero in C. rewrite B in C.
  destruct (build M d k) as [K'|]; [|contradiction]. exists K'. split; [reflexivity|].
  apply (same_stable (size M) K K'); auto. intros i j _ _. symmetry. apply C.
Qed.

Lemma model_unloaded : forall solve M F U0 r K, solver_ok solve -> veq (size M) F zero -> veq (size M) U0 zero ->
  build M zero Initial = Ok K -> stable (size M) K (supports_of r U0) -> forall max_iter,
  exists o, winkler_model solve M F U0 r max_iter = Ok o /\
    ((99 <= max_iter)%nat -> o_d o = None /\ o_Q o = None /\ o_iter o = 100%nat) /\
    ((max_iter < 99)%nat -> o_iter o = S max_iter /\ exists v, o_d o = Some v /\ veq (size M) v zero).
Proof.
  intros solve M F U0 r K SO HF HU B ST m. apply unloaded; auto.
  - apply (build_zero_ok M K); auto.
  - intros i Hi _. apply HU; auto.
Qed.

Lemma model_linear : forall solve M F U0 r K U1 R1 Ks Kt, solver_ok solve -> build M zero Initial = Ok K ->
  solve_equations solve (size M) K F U0 (supports_of r U0) = Some (U1, R1) ->
  build M U1 Secant = Ok Ks -> same (size M) Ks K -> build M U1 Tangent = Ok Kt -> same (size M) Kt K ->
  (exists i, (i < size M)%nat /\ ~ F i == 2 * R1 i) -> forall max_iter, (1 <= max_iter)%nat ->
  exists o v R, winkler_model solve M F U0 r max_iter = Ok o /\ o_iter o = 2%nat /\ o_d o = Some v /\ veq (size M) v U1 /\ o_Q o = Some R /\ veq (size M) R R1 /\
    exists t, o_tol o = Some t /\ t == (1 # 100000000) * force2 (size M) (fun i => F i - 2 * R1 i).
Proof.
  intros solve M F U0 r K U1 R1 Ks Kt SO B S1 BS SS BT TT NZ m Hm. apply (linear_range solve (size M) (build M) F U0 (supports_of r U0) SO K U1 R1); auto.
  intros d k HD Hk. pose proof (build_comp M d U1 k HD) as C. destruct Hk as [-> | ->]; [rewrite BS in C|rewrite BT in C];
    destruct (build M d _) as [K'|]; try contradiction; exists K'; (split; [reflexivity|]); intros i j Hi Hj; rewrite (C i j); [apply SS|apply TT]; auto.
Qed.

(** Pile with lateral and axial springs only *)
Definition soil1 : wmodel := {| w_n := 2; w_mech := fun _ => mech0; w_L := fun _ => 1;
  w_py := Some (fun _ _ => py0); w_tz := Some (fun _ _ => tz0); w_mt := None;
  w_mtc := fun _ => mt_coefs EulerBernoulli 0 1 1 1; w_hb := Some py0; w_mb := None; w_qz := Some tz0 |}.

Definition small_load : vec := of_list [-(10); 1; 0; 0; 0; 0; 0; 0; 0].
Definition large_load : vec := of_list [0; 1000; 0; 0; 0; 0; 0; 0; 0].
Definition free : nat -> bool := fun _ => false.

Definition same_list (n : nat) (a b : res mat) : bool :=
  match a, b with Ok K, Ok K' => forallb (fun i => forallb (fun j => Qeq_bool (K i j) (K' i j)) (seq 0 n)) (seq 0 n) | _, _ => false end.

Lemma same_list_ok : forall n a b, same_list n a b = true -> exists K K', a = Ok K /\ b = Ok K' /\ same n K K'.
Proof.
  intros n [K|] [K'|] H; try discriminate. exists K, K'. split; [reflexivity|]. split; [reflexivity|]. intros i j Hi Hj. cbn in H.
  rewrite forallb_forall in H. specialize (H i ltac:(apply in_seq; lia)). cbv beta in H. rewrite forallb_forall in H. apply Qeq_bool_iff, H, in_seq. lia.
Qed.

(** first linear solution and reactions, as reduced fractions *)
Definition first_pass (M : wmodel) (F U0 : vec) (r : nat -> bool) : option (list Q * list Q) :=
  match build M zero Initial with
  | Ok K => match solve_equations gauss_solver (size M) K F U0 (supports_of r U0) with
            | Some (U, R) => Some (map (fun i => Qred (U i)) (seq 0 (size M)), map (fun i => Qred (R i)) (seq 0 (size M)))
            | None => None end
  | Err _ => None end.

Lemma reduced : forall n (v : vec), veq n (of_list (map (fun i => Qred (v i)) (seq 0 n))) v.
Proof.
  intros n v i Hi. unfold of_list. rewrite (nth_indep _ 0 (Qred (v 0%nat))) by (rewrite map_length, seq_length; auto).
  rewrite (map_nth (fun i => Qred (v i)) (seq 0 n) 0%nat i). rewrite seq_nth by auto. apply Qred_correct.
Qed.

Lemma linear_case : forall M F U0 r U R i, first_pass M F U0 r = Some (U, R) ->
  same_list (size M) (build M (of_list U) Secant) (build M zero Initial) = true ->
  same_list (size M) (build M (of_list U) Tangent) (build M zero Initial) = true ->
  (i < size M)%nat -> Qeq_bool (F i) (2 * nth i R 0) = false ->
  exists K U1 R1 Ks Kt, build M zero Initial = Ok K /\
  solve_equations gauss_solver (size M) K F U0 (supports_of r U0) = Some (U1, R1) /\
  build M U1 Secant = Ok Ks /\ same (size M) Ks K /\ build M U1 Tangent = Ok Kt /\ same (size M) Kt K /\
  (exists i, (i < size M)%nat /\ ~ F i == 2 * R1 i) /\ veq (size M) (of_list U) U1 /\ veq (size M) (of_list R) R1.
Proof.
  intros M F U0 r U R i FP HS HT Hi NE. unfold first_pass in FP.
  destruct (build M zero Initial) as [K|] eqn:B; [|discriminate].
  destruct (solve_equations gauss_solver (size M) K F U0 (supports_of r U0)) as [[U1 R1]|] eqn:SE; [|discriminate].
  injection FP as <- <-. pose proof (reduced (size M) U1) as EU. pose proof (reduced (size M) R1) as ER.
  destruct (same_list_ok _ _ _ HS) as (Ks & K' & BS & E & SS). injection E as <-.
  destruct (same_list_ok _ _ _ HT) as (Kt & K' & BT & E & TT). injection E as <-.
  pose proof (build_comp M _ U1 Secant EU) as CS. rewrite BS in CS. destruct (build M U1 Secant) as [Ks1|] eqn:B1; [|contradiction].
  pose proof (build_comp M _ U1 Tangent EU) as CT. rewrite BT in CT. destruct (build M U1 Tangent) as [Kt1|] eqn:B2; [|contradiction].
  exists K, U1, R1, Ks1, Kt1. split; [reflexivity|]. split; [exact SE|]. split; [exact B1|].
  split; [intros a b Ha Hb; rewrite <- (CS a b); apply SS; auto|]. split; [exact B2|].
  split; [intros a b Ha Hb; rewrite <- (CT a b); apply TT; auto|]. split; [|exact (conj EU ER)].
  exists i. split; [exact Hi|]. rewrite <- (ER i Hi). apply Qeq_bool_neq. exact NE.
Qed.

Lemma soil1_linear : exists K U1 R1 Ks Kt, build soil1 zero Initial = Ok K /\
  solve_equations gauss_solver (size soil1) K small_load zero (supports_of free zero) = Some (U1, R1) /\
  build soil1 U1 Secant = Ok Ks /\ same (size soil1) Ks K /\ build soil1 U1 Tangent = Ok Kt /\ same (size soil1) Kt K /\
  (exists i, (i < size soil1)%nat /\ ~ small_load i == 2 * R1 i).
Proof.
  destruct (first_pass soil1 small_load zero free) as [[U R]|] eqn:FP; [|vm_compute in FP; discriminate].
  pose proof FP as FQ. vm_compute in FQ. injection FQ as EU ER.
  destruct (linear_case soil1 small_load zero free U R 1 FP) as (K & U1 & R1 & Ks & Kt & A & B & C & D & E & G & I & _).
  - rewrite <- EU. vm_compute. reflexivity.
  - rewrite <- EU. vm_compute. reflexivity.
  - unfold size. cbn. lia.
  - rewrite <- ER. vm_compute. reflexivity.
  - exists K, U1, R1, Ks, Kt. exact (conj A (conj B (conj C (conj D (conj E (conj G I)))))).
Qed.

(** The pile head is moved by one millimetre: all forces are reactions. *)
Definition head_moved : vec := of_list [0; 1#1000].

Lemma soil1_moved : exists K U1 R1 Ks Kt, build soil1 zero Initial = Ok K /\
  solve_equations gauss_solver (size soil1) K zero head_moved (supports_of free head_moved) = Some (U1, R1) /\
  build soil1 U1 Secant = Ok Ks /\ same (size soil1) Ks K /\ build soil1 U1 Tangent = Ok Kt /\ same (size soil1) Kt K /\
  (exists i, (i < size soil1)%nat /\ ~ zero i == 2 * R1 i) /\ 0 < R1 1%nat.
Proof.
  destruct (first_pass soil1 zero head_moved free) as [[U R]|] eqn:FP; [|vm_compute in FP; discriminate].
  pose proof FP as FQ. vm_compute in FQ. injection FQ as EU ER.
  destruct (linear_case soil1 zero head_moved free U R 1 FP) as (K & U1 & R1 & Ks & Kt & A & B & C & D & E & G & I & _ & J).
  - rewrite <- EU. vm_compute. reflexivity.
  - rewrite <- EU. vm_compute. reflexivity.
  - unfold size. cbn. lia.
  - rewrite <- ER. vm_compute. reflexivity.
  - exists K, U1, R1, Ks, Kt. refine (conj A (conj B (conj C (conj D (conj E (conj G (conj I _))))))).
    rewrite <- (J 1%nat) by (unfold size; cbn; lia). rewrite <- ER. reflexivity.
Qed.

(** One pass with a load far beyond the linear range *)
Definition head_only (i : nat) : bool := negb (Nat.eqb i 1).
Definition pull : vec := of_list [0; 100000].

Lemma one_pass : exists o e t v, winkler_model gauss_solver soil1 pull zero head_only 0 = Ok o /\ o_d o = Some v /\ o_err o = Some e /\ o_tol o = Some t /\ 1000000 * t < e /\ ~ v 1%nat == 0.
Proof.
  assert (A : match winkler_model gauss_solver soil1 pull zero head_only 0 with
              | Ok o => match o_d o, o_err o, o_tol o with Some v, Some e, Some t => Qltb (1000000 * t) e && negb (Qeq_bool (v 1%nat) 0) | _, _, _ => false end | Err _ => false end = true) by (vm_compute; reflexivity).
  destruct (winkler_model gauss_solver soil1 pull zero head_only 0) as [o|]; [|discriminate].
  destruct (o_d o) as [v|] eqn:E1; [|discriminate]. destruct (o_err o) as [e|] eqn:E2; [|discriminate]. destruct (o_tol o) as [t|] eqn:E3; [|discriminate].
  apply andb_true_iff in A as [A B]. apply Qltb_true in A. exists o, e, t, v. refine (conj eq_refl (conj E1 (conj E2 (conj E3 (conj A _))))). intros E. apply Qeq_bool_iff in E. rewrite E in B. discriminate.
Qed.
Lemma one_pass_unbalanced : exists o e t v, winkler_model gauss_solver soil1 pull zero head_only 0 = Ok o /\ o_d o = Some v /\ o_err o = Some e /\ o_tol o = Some t /\ 1000000 * t < e.
Proof. destruct one_pass as (o & e & t & v & A & B & C & D & E & _). exists o, e, t, v. auto. Qed.

Lemma soil1_stable : exists K, build soil1 zero Initial = Ok K /\ stable (size soil1) K (supports_of free zero).
Proof.
  destruct soil1_linear as (K & U1 & R1 & Ks & Kt & B & SE & _). exists K. split; [exact B|].
  apply (solve_equations_succeeds gauss_solver (size soil1) K small_load zero _ gauss_solver_ok). eauto.
Qed.

Lemma sum_member : forall n f i, (forall j, (j < n)%nat -> 0 <= f j) -> (i < n)%nat -> f i <= sum n f.
Proof.
  induction n as [|n IH]; intros f i P Hi; [lia|]. cbn [sum]. pose proof (P n ltac:(lia)).
  assert (0 <= sum n f) by (apply sum_nonneg; intros; apply P; lia).
  destruct (Nat.eq_dec i n) as [->|]; [lra|]. pose proof (IH f i (fun j Hj => P j ltac:(lia)) ltac:(lia)). lra.
Qed.
