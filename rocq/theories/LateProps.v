(** Property C136: the passes made after the hundredth, and what details() shows of the loop. *)
From Coq Require Import List Bool Arith ZArith QArith Qabs Qreals Reals Lia Lqa.
From Verif Require Import Base LinAlg PileModel BeamModel BeamProofs SolveModel SolveSpec SolveProofs SpringModel SpringProper SpringWitness WinklerModel WinklerSpec WinklerProofs WinklerWitness WinklerProps ResultModel LateModel LateSpec LateProofs.
Import ListNotations.
Local Open Scope Q_scope.

(** C136: full statement: an analysis ends for every max_iter with what the first hundred passes give, and details()
    shows the number of passes (at most max_iter), the error and the tolerance of the last pass, so that error < tolerance
    can be read off every result with numbers.
    Nothing is assumed about what solve_equations makes of a matrix with NaN ([ask]).  Every exception and every number
    is that of the model that stops at pass 100. *)
Theorem C136_numbers : forall solve ask M F U0 r m v,
  (exists o, winkler_model solve M F U0 r m = Ok o /\ o_d o = Some v) <->
  (exists p, run_model solve ask M F U0 r (Z.of_nat m) = Ok p /\ p_d p = Some v).
Proof.
  intros solve ask M F U0 r m v. pose proof (run_winkler solve (size M) (build M) F U0 (supports_of r U0) ask m) as H.
  unfold winkler_model, run_model. split; intros (x & E & D); rewrite E in H.
  - destruct (run _ _ _ _ _ _ _ _) as [p|]; [|contradiction]. exists p. split; [reflexivity|]. destruct H as [(A & _)|(_ & A & _)]; congruence.
  - destruct (winkler _ _ _ _ _ _ _) as [o|]; [|contradiction]. exists o. split; [reflexivity|]. destruct H as [(A & _)|(_ & _ & _ & A & _)]; congruence.
Qed.
Print Assumptions C136_numbers.

Theorem C136_exceptions : forall solve ask M F U0 r m e,
  winkler_model solve M F U0 r m = Err e <-> run_model solve ask M F U0 r (Z.of_nat m) = Err e.
Proof.
  intros solve ask M F U0 r m e. pose proof (run_winkler solve (size M) (build M) F U0 (supports_of r U0) ask m) as H.
  unfold winkler_model, run_model. split; intros E; rewrite E in H.
  - destruct (run _ _ _ _ _ _ _ _) as [p|]; [contradiction|congruence].
  - destruct (winkler _ _ _ _ _ _ _) as [p|]; [contradiction|congruence].
Qed.
Print Assumptions C136_exceptions.

(** A result with numbers: reactions, number of passes, error and tolerance are those of the first model too. *)
Theorem C136_result : forall solve ask M F U0 r m o p z, winkler_model solve M F U0 r m = Ok o -> run_model solve ask M F U0 r (Z.of_nat m) = Ok p ->
  o_d o <> None -> p_iter p = o_iter o /\ p_err p = o_err o /\ p_tol p = o_tol o /\
  late_reactions z (p_Q p) = map (fun w => let '(a, (x, y, t)) := w in (a, (Some x, Some y, Some t))) (reac_table z (o_Q o)).
Proof.
  intros solve ask M F U0 r m o p z E1 E2 NN. pose proof (run_winkler solve (size M) (build M) F U0 (supports_of r U0) ask m) as H.
  unfold winkler_model, run_model in *. rewrite E1, E2 in H. destruct H as [(A & B & C & D & E & _)|(_ & A & _)]; [|congruence].
  refine (conj B (conj C (conj D _))). unfold same_reactions in E. unfold reac_table. destruct (o_Q o) as [V|]; [apply number_rows; exact E|apply no_rows; exact E].
Qed.
Print Assumptions C136_result.

(** A result of NaN.  Either the system became singular before pass 100 and the loop stopped; or there were 100 passes
    without convergence, the reported number lies between 100 and max_iter + 1, and it is max_iter + 1 when numba raises
    nothing.  Reactions of NaN leave the reaction table empty in both cases. *)
Theorem C136_nan : forall solve ask M F U0 r m o p, winkler_model solve M F U0 r m = Ok o -> run_model solve ask M F U0 r (Z.of_nat m) = Ok p ->
  o_d o = None ->
  p_d p = None /\ o_Q o = None /\
  ((forall i R, ask i = Some R -> forall k, R k = None) -> forall z, late_reactions z (p_Q p) = []) /\
  ((o_iter o < 100)%nat -> p_iter p = o_iter o /\ p_tol p = None) /\
  ((100 <= o_iter o)%nat -> (100 <= p_iter p <= S m)%nat /\
     ((forall i, (100 <= i)%nat -> ask i <> None) -> p_iter p = S m) /\
     ((p_iter p < S m)%nat -> ask (p_iter p) = None /\ p_tol p = None)).
Proof.
  intros solve ask M F U0 r m o p E1 E2 N. pose proof (run_winkler solve (size M) (build M) F U0 (supports_of r U0) ask m) as H.
  unfold winkler_model, run_model in *. rewrite E1, E2 in H. destruct H as [(A & B & C & D & E & G)|(A & _ & C & D & L & G & H)].
  - destruct (G N) as (Q0 & I0 & T0). split; [congruence|]. split; [exact Q0|]. split; [|split; [intros _; split; congruence|intros X; lia]].
    intros _ z. apply no_rows. rewrite Q0 in E. exact E.
  - split; [exact D|]. split; [exact C|]. split; [|split; [intros X; lia|intros _]].
    + intros AN z. apply no_rows. destruct H as [(_ & _ & X & _)|(_ & [(_ & X & _)|(_ & X & _)])]; [exact X|exact X|exact (AN _ _ X)].
    + destruct H as [(X & Y & _ & Z)|(X & Y)].
      * split; [lia|]. split; [|intros _; split; assumption]. intros AA. exfalso. apply (AA (p_iter p)); [lia|exact Y].
      * split; [lia|]. split; [intros _; exact X|intros W; lia].
Qed.
Print Assumptions C136_nan.

(** The tolerance after more than 100 passes: NaN as soon as one of the reactions is, else a ten-thousandth of loads and
    reactions; the error is NaN beside it. *)
Lemma all_numbers_iff : forall m R, all_numbers m R = true <-> forall k, (k < m)%nat -> R k <> None.
Proof.
  induction m as [|m IH]; intros R; cbn [all_numbers]; [split; [intros _ k Hk; lia|reflexivity]|]. destruct (R m) as [x|] eqn:E.
  - rewrite IH. split; intros H k Hk; [destruct (Nat.eq_dec k m) as [->|]; [congruence|apply H; lia]|apply H; lia].
  - split; [discriminate|]. intros H. exfalso. exact (H m ltac:(lia) E).
Qed.
Theorem C136_nan_tolerance : forall solve ask M F U0 r m o p, winkler_model solve M F U0 r m = Ok o -> run_model solve ask M F U0 r (Z.of_nat m) = Ok p ->
  o_d o = None -> (100 <= o_iter o)%nat -> (100 < p_iter p)%nat ->
  (forall k, (k < size M)%nat -> p_Q p k = None -> p_tol p = None) /\
  (forall t, p_tol p = Some t -> p_err p = None /\ exists R, (forall k, (k < size M)%nat -> p_Q p k = Some (R k)) /\ t == (1 # 100000000) * force2 (size M) (fun i => F i - R i)).
Proof.
  intros solve ask M F U0 r m o p E1 E2 N L LP. pose proof (run_winkler solve (size M) (build M) F U0 (supports_of r U0) ask m) as H.
  unfold winkler_model, run_model in *. rewrite E1, E2 in H. destruct H as [(A & B & C & D & E & G)|(A & _ & C & D & L' & G & H)]; [destruct (G N) as (_ & I0 & _); lia|].
  destruct H as [(_ & _ & _ & X)|(X & [(Y & _)|(_ & _ & ER & TL)])]; [split; [intros; exact X|intros t HT; congruence]|lia|]. rewrite TL. unfold late_tol.
  destruct (all_numbers (size M) (p_Q p)) eqn:AN.
  - pose proof (proj1 (all_numbers_iff _ _) AN) as NN. split; [intros k Hk HN; exfalso; exact (NN k Hk HN)|]. intros t HT. split; [exact ER|]. exists (fun k => number (p_Q p k)). split.
    + intros k Hk. specialize (NN k Hk). destruct (p_Q p k); [reflexivity|congruence].
    + injection HT as <-. reflexivity.
  - split; [reflexivity|discriminate].
Qed.
Print Assumptions C136_nan_tolerance.

(** A negative max_iter makes no pass, and the missing reactions raise. *)
Theorem C136_negative : forall solve ask M F U0 r K max_iter, (max_iter < 0)%Z -> build M zero Initial = Ok K ->
  run_model solve ask M F U0 r max_iter = Err UnboundLocalError.
Proof.
  intros solve ask M F U0 r K m L B. unfold run_model, run. rewrite B. cbn [bind]. destruct (Z.ltb_spec m 0); [reflexivity|lia].
Qed.
Print Assumptions C136_negative.

(** The two norms shown are within half a thousandth of the norms. *)
Theorem C136_shown : forall q, 0 <= q -> to_three_decimals q (shown q).
Proof. exact shown_spec. Qed.
Print Assumptions C136_shown.

(** A result with numbers from at least 99 allowed passes shows an error that is not above the tolerance: the forces out of
    balance and one ten-thousandth of loads and reactions, to three decimals. *)
Theorem C136_converged : forall solve ask M F U0 r m p v, solver_ok solve -> (99 <= m)%nat ->
  run_model solve ask M F U0 r (Z.of_nat m) = Ok p -> p_d p = Some v ->
  exists Ks R e t es ts, build M v Secant = Ok Ks /\
    e == out_of_balance (size M) (supports_of r U0) F Ks v /\ t == (1 # 100000000) * force2 (size M) (fun i => F i - R i) /\ e < t /\
    loop_details_of p = {| ld_iter := p_iter p; ld_error := Some es; ld_tolerance := Some ts |} /\
    to_three_decimals e es /\ to_three_decimals t ts /\ es <= ts /\ (2 <= p_iter p <= 100)%nat.
Proof.
  intros solve ask M F U0 r m p v SO L E D. destruct (proj2 (C136_numbers solve ask M F U0 r m v) (ex_intro _ p (conj E D))) as (o & EO & DO).
  destruct (C35_equilibrium_partial solve M F U0 r m o v SO L EO DO) as (Ks & R & e & t & B & EE & ET & _ & E1 & E2 & LT).
  destruct (C35_reactions_partial solve M F U0 r m o v SO L EO DO) as (_ & IT).
  destruct (C136_result solve ask M F U0 r m o p [] EO E ltac:(congruence)) as (I1 & I2 & I3 & _).
  assert (P : 0 <= e).
  { rewrite E1. unfold out_of_balance. apply sum_nonneg. intros i _. destruct (supports_of r U0 i); [apply Qle_refl|apply square_nonneg]. }
  exists Ks, R, e, t, (shown e), (shown t). split; [exact B|]. split; [exact E1|]. split; [exact E2|]. split; [exact LT|].
  split; [unfold loop_details_of; rewrite I2, I3, EE, ET; reflexivity|].
  split; [apply shown_spec; exact P|]. split; [apply shown_spec; lra|]. split; [apply shown_mono; lra|]. rewrite I1. exact IT.
Qed.
Print Assumptions C136_converged.

Definition light_load : vec := of_list [0; 1; 0; 0; 0; 0; 0; 0; 0].
Lemma light_linear : exists K U1 R1 Ks Kt, build soil1 zero Initial = Ok K /\
  solve_equations gauss_solver (size soil1) K light_load zero (supports_of free zero) = Some (U1, R1) /\
  build soil1 U1 Secant = Ok Ks /\ same (size soil1) Ks K /\ build soil1 U1 Tangent = Ok Kt /\ same (size soil1) Kt K /\
  (exists i, (i < size soil1)%nat /\ ~ light_load i == 2 * R1 i).
Proof.
  destruct (first_pass soil1 light_load zero free) as [[U R]|] eqn:FP; [|vm_compute in FP; discriminate].
  pose proof FP as FQ. vm_compute in FQ. injection FQ as EU ER.
  destruct (linear_case soil1 light_load zero free U R 1 FP) as (K & U1 & R1 & Ks & Kt & A & B & C & D & E & G & I & _).
  - rewrite <- EU. vm_compute. reflexivity.
  - rewrite <- EU. vm_compute. reflexivity.
  - unfold size. cbn. lia.
  - rewrite <- ER. vm_compute. reflexivity.
  - exists K, U1, R1, Ks, Kt. exact (conj A (conj B (conj C (conj D (conj E (conj G I)))))).
Qed.

(** That the error is below the tolerance cannot always be read off: whenever loads and reactions come to less than 5 kN
    both are shown as zero. *)
Theorem C136_light_loads : forall solve ask M F U0 r m p v t, solver_ok solve -> (99 <= m)%nat ->
  run_model solve ask M F U0 r (Z.of_nat m) = Ok p -> p_d p = Some v -> p_tol p = Some t -> t < 25 # 100000000 ->
  exists es ts, ld_error (loop_details_of p) = Some es /\ ld_tolerance (loop_details_of p) = Some ts /\ es == 0 /\ ts == 0.
Proof.
  intros solve ask M F U0 r m p v t SO L E D T LT. destruct (proj2 (C136_numbers solve ask M F U0 r m v) (ex_intro _ p (conj E D))) as (o & EO & DO).
  destruct (C35_equilibrium_partial solve M F U0 r m o v SO L EO DO) as (Ks & R & e & t' & B & EE & ET & _ & E1 & _ & LE).
  destruct (C136_result solve ask M F U0 r m o p [] EO E ltac:(congruence)) as (_ & I2 & I3 & _). assert (X : t' = t) by congruence. subst t'.
  assert (P : 0 <= e).
  { rewrite E1. unfold out_of_balance. apply sum_nonneg. intros i _. destruct (supports_of r U0 i); [apply Qle_refl|apply square_nonneg]. }
  exists (shown e), (shown t). unfold loop_details_of. cbn [ld_error ld_tolerance]. rewrite I2, T, EE. repeat split; apply shown_zero; lra.
Qed.
Print Assumptions C136_light_loads.

Theorem C136_light_loads_refuted : forall ask, exists M F U0 r p v es ts, run_model gauss_solver ask M F U0 r 100 = Ok p /\ p_d p = Some v /\ ~ F 1%nat == 0 /\
  ld_error (loop_details_of p) = Some es /\ ld_tolerance (loop_details_of p) = Some ts /\ es == ts.
Proof.
  intros ask. destruct light_linear as (K & U1 & R1 & Ks & Kt & A & B & C & D & E & G & I).
  destruct (C63_linear_tolerance_partial gauss_solver soil1 light_load zero free K U1 R1 Ks Kt gauss_solver_ok A B C D E G I 100 ltac:(lia)) as (o & R & t & O1 & O2 & O3 & O4 & O5).
  destruct (C35_linear_range gauss_solver soil1 light_load zero free K U1 R1 Ks Kt gauss_solver_ok A B C D E G I 100 ltac:(lia)) as (o' & v & R' & X & _ & Y & _).
  assert (o' = o) by congruence. subst o'.
  destruct (proj1 (C136_numbers gauss_solver ask soil1 light_load zero free 100 v) (ex_intro _ o (conj X Y))) as (p & P1 & P2).
  destruct (C136_result gauss_solver ask soil1 light_load zero free 100 o p [] X P1 ltac:(congruence)) as (_ & _ & I3 & _).
  assert (RZ : forall i, (i < size soil1)%nat -> R1 i == 0).
  { intros i Hi. exact (proj1 (proj2 (solve_equations_sound gauss_solver (size soil1) K light_load zero _ U1 R1 gauss_solver_ok B)) i Hi eq_refl). }
  assert (T1 : t < 25 # 100000000).
  { rewrite O5. assert (E1 : force2 (size soil1) (fun i => light_load i - 2 * R1 i) == force2 (size soil1) light_load).
    { unfold force2. apply sum_ext. intros i Hi. rewrite (RZ i Hi). ring. }
    rewrite E1. reflexivity. }
  destruct (C136_light_loads gauss_solver ask soil1 light_load zero free 100 p v t gauss_solver_ok ltac:(lia) P1 P2 ltac:(congruence) T1) as (es & ts & L1 & L2 & L3 & L4).
  exists soil1, light_load, zero, free, p, v, es, ts. refine (conj P1 (conj P2 (conj _ (conj L1 (conj L2 _))))); [intros Z0; discriminate|rewrite L3, L4; reflexivity].
Qed.
Print Assumptions C136_light_loads_refuted.

(** The number under "converged @ iter no." is not bounded by max_iter: every unloaded model that makes a hundred passes
    reports max_iter + 1 passes (when numba does not refuse NaN), with NaN everywhere. *)
Theorem C136_passes_refuted : forall solve ask M F U0 r K m, solver_ok solve ->
  veq (size M) F zero -> veq (size M) U0 zero -> build M zero Initial = Ok K -> stable (size M) K (supports_of r U0) -> (99 <= m)%nat ->
  (forall i, (100 <= i)%nat -> ask i <> None) ->
  exists p, run_model solve ask M F U0 r (Z.of_nat m) = Ok p /\ p_d p = None /\ ld_iter (loop_details_of p) = S m.
Proof.
  intros solve ask M F U0 r K m SO HF HU B ST L AA. destruct (model_unloaded solve M F U0 r K SO HF HU B ST m) as (o & A & C & _). destruct (C L) as (D & E & I).
  pose proof (run_winkler solve (size M) (build M) F U0 (supports_of r U0) ask m) as H. unfold winkler_model in A. rewrite A in H.
  destruct (run _ _ _ _ _ _ _ _) as [p|] eqn:R; [|contradiction]. exists p.
  destruct (C136_nan solve ask M F U0 r m o p A R D) as (N & _ & _ & _ & W). split; [exact R|]. split; [exact N|].
  destruct (W ltac:(lia)) as (_ & W2 & _). exact (W2 AA).
Qed.
Print Assumptions C136_passes_refuted.

Example C136_example : exists K, build soil1 zero Initial = Ok K /\ stable (size soil1) K (supports_of free zero) /\
  exists p, run_model gauss_solver (fun _ => Some not_numbers) soil1 zero zero free 100 = Ok p /\ p_d p = None /\ ld_iter (loop_details_of p) = 101%nat.
Proof.
  destruct soil1_stable as (K & B & ST). exists K. split; [exact B|]. split; [exact ST|].
  assert (V0 : veq (size soil1) zero zero) by (intros i _; reflexivity).
  exact (C136_passes_refuted gauss_solver (fun _ => Some not_numbers) soil1 zero zero free K 100 gauss_solver_ok V0 V0 B ST ltac:(lia) ltac:(intros; discriminate)).
Qed.

Example C136_numbers_example : forall ask, exists p v, run_model gauss_solver ask soil1 small_load zero free 100 = Ok p /\ p_d p = Some v.
Proof.
  intros ask. destruct C35_example as (o & v & A & B & _).
  destruct (proj1 (C136_numbers gauss_solver ask soil1 small_load zero free 100 v) (ex_intro _ o (conj A B))) as (p & P1 & P2). exists p, v. auto.
Qed.

Example C136_shown_example : shown (101 # 100000000) == 1 # 1000 /\ shown (25 # 100000000) == 0 /\ shown (225 # 100000000) == 2 # 1000 /\ shown 2 == 1414 # 1000.
Proof. repeat split; reflexivity. Qed.
