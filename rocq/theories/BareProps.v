(** Property C114: beam analyses of models that have soil. *)
From Coq Require Import List Bool Arith ZArith QArith Qabs Lia Lqa.
From Verif Require Import Base BCModel LinAlg PileModel BeamModel BeamSpec SolveModel SolveSpec SolveProofs ForceProofs SpringModel SpringWitness SoilProofs WinklerModel BalanceSpec BalanceProofs ResultModel WholeModel SessionModel SessionSpec SessionProofs.
From Verif Require Import BareModel BareSpec BareProofs.
Import ListNotations.
Local Open Scope Q_scope.

(** C114: without base springs the soil makes no difference: same answer as for the pile alone. *)
Theorem C114_without_base_springs : forall solve M z F U r, w_hb M = None -> w_mb M = None -> w_qz M = None ->
  beam_in_soil_result solve M z F U r = beam_result solve M z F U r.
Proof.
  intros solve M z F U r H1 H2 H3. unfold beam_in_soil_result, beam_in_soil, beam_result, beam, beam_matrix. rewrite H1, H2, H3. cbn [add_base opt_res bind].
  unfold size. destruct (solve_equations _ _ _ _ _ _) as [[d R]|]; reflexivity.
Qed.
Print Assumptions C114_without_base_springs.

(** C114: after any program a beam analysis answers what it would have answered had only the setters
    been called: reading spring tables (C38, C92) does not change it.  It is the analysis with base springs of the
    model as built if the model has soil, and that of the pile alone if it has none. *)
Theorem C114_any_program : forall solve fr l st, let bcs := run (setters l) (st_bcs st) in
  beam_state solve fr (snd (session solve fr l st)) = beam_state solve fr {| st_bcs := bcs; st_springs := st_springs st |} /\
  forall tf td tr, global_forces (fr_nodes fr) bcs = Ok tf -> global_disp (fr_nodes fr) bcs = Ok td -> global_restrained (fr_nodes fr) bcs = Ok tr ->
  let M := as_model fr (st_springs st) in
  (fr_soil fr = true -> beam_state solve fr (snd (session solve fr l st)) = beam_in_soil_result solve M (fr_nodes fr) (dof_vector tf) (dof_vector td) (dof_flags tr)) /\
  (fr_soil fr = false -> beam_state solve fr (snd (session solve fr l st)) = beam_result solve M (fr_nodes fr) (dof_vector tf) (dof_vector td) (dof_flags tr)).
Proof.
  intros solve fr l st bcs.
  assert (E : beam_state solve fr (snd (session solve fr l st)) = beam_state solve fr {| st_bcs := bcs; st_springs := st_springs st |}).
  { apply beam_state_bcs. cbn [st_bcs]. destruct (fr_soil fr) eqn:E.
    - rewrite (session_state solve fr l st E). reflexivity.
    - rewrite (session_state_no_soil solve fr l st E). reflexivity. }
  split; [exact E|]. intros tf td tr F D R M. rewrite E. unfold beam_state. cbn [st_bcs st_springs]. rewrite F, D, R. cbn [bind]. split; intros ->; reflexivity.
Qed.
Print Assumptions C114_any_program.

(** C114: the answer is the equilibrium of the elastic pile with springs at its base, which have the
    slope their curves start with. *)
Theorem C114_base_springs_added : forall solve M F U r d R f j, solver_ok solve -> beam_in_soil solve M F U r = Ok (d, R, f) ->
  (forall c, w_qz M = Some c -> length c = S (2 * (2 * j + 1))) ->
  exists q h m,
    match w_qz M with None => q = 0 | Some c => leaves_middle_with (2 * j + 1) c q end /\
    match w_hb M with None => h = 0 | Some c => starts_with c h end /\
    match w_mb M with None => m = 0 | Some c => starts_with c m end /\
    (forall i, (i < 3 * w_n M + 3)%nat ->
       mulv (3 * w_n M + 3) (jit_build (w_n M) (w_mech M)) d i + spring_force (w_n M) q h m d i == F i + R i /\
       (r i = false -> U i == 0 -> R i == 0) /\ (r i = true \/ ~ U i == 0 -> d i = U i)) /\
    f = pile_internal_forces (S (w_n M)) (w_mech M) d.
Proof.
  intros solve M F U r d R f j SO H L. destruct (beam_in_soil_inv _ _ _ _ _ _ _ _ H) as (K & HK & HS & ->).
  destruct (beam_matrix_parts M K HK) as (q & h & m & BV & _ & _ & _ & MV). exists q, h, m.
  destruct (base_values_slopes _ _ _ _ j BV L) as (B1 & B2 & B3). split; [exact B1|]. split; [exact B2|]. split; [exact B3|]. split; [|reflexivity].
  destruct (solve_equations_sound _ _ _ _ _ _ _ _ SO HS) as (S1 & S2 & S3). intros i Hi. split; [|split].
  - rewrite <- MV. apply S1. exact Hi.
  - intros Ri Ui. apply S2; [exact Hi|]. unfold supports_of. rewrite Ri. apply Qeq_bool_iff in Ui. rewrite Ui. reflexivity.
  - intros C. apply S3; [exact Hi|]. unfold supports_of. destruct C as [->|NZ]; [reflexivity|]. destruct (Qeq_bool (U i) 0) eqn:E; [apply Qeq_bool_iff in E; contradiction|apply orb_true_r].
Qed.
Print Assumptions C114_base_springs_added.

(** C114: what loads and reactions lack in balance is carried by the base springs, which are not reported. *)
Theorem C114_balance : forall solve M z F U r d R f j, solver_ok solve -> sound_pile M z -> beam_in_soil solve M F U r = Ok (d, R, f) ->
  (forall c, w_qz M = Some c -> length c = S (2 * (2 * j + 1))) ->
  exists q h m,
    match w_qz M with None => q = 0 | Some c => leaves_middle_with (2 * j + 1) c q end /\
    match w_hb M with None => h = 0 | Some c => starts_with c h end /\
    match w_mb M with None => m = 0 | Some c => starts_with c m end /\
    let n := w_n M in let G := fun i => F i + R i in
    total_axial n G == q * d (3 * n)%nat /\ total_lateral n G == h * d (3 * n + 1)%nat /\
    total_moment n z G == (z O - z n) * (h * d (3 * n + 1)%nat) + m * d (3 * n + 2)%nat.
Proof.
  intros solve M z F U r d R f j SO SP H L. destruct (beam_in_soil_inv _ _ _ _ _ _ _ _ H) as (K & HK & HS & ->).
  destruct (beam_matrix_parts M K HK) as (q & h & m & BV & _). exists q, h, m.
  destruct (base_values_slopes _ _ _ _ j BV L) as (B1 & B2 & B3). split; [exact B1|]. split; [exact B2|]. split; [exact B3|].
  destruct (solve_equations_sound _ _ _ _ _ _ _ _ SO HS) as (S1 & _). exact (soil_balance M z K q h m SP HK BV d _ S1).
Qed.
Print Assumptions C114_balance.

(** C114 refuted: reported reactions do not balance the loads when the tip moves sideways against a
    base spring that resists. *)
Theorem C114_ignores_soil_refuted : forall solve M z F U r d R f c, solver_ok solve -> sound_pile M z -> w_hb M = Some c ->
  ~ total (map snd c) == 0 -> ~ snd (nth 0 c (0, 0)) == snd (nth 1 c (0, 0)) ->
  beam_in_soil solve M F U r = Ok (d, R, f) -> ~ d (3 * w_n M + 1)%nat == 0 ->
  ~ total_lateral (w_n M) (fun i => F i + R i) == 0.
Proof.
  intros solve M z F U r d R f c SO SP EC T P H D E. destruct (beam_in_soil_inv _ _ _ _ _ _ _ _ H) as (K & HK & HS & ->).
  destruct (beam_matrix_parts M K HK) as (q & h & m & BV & _).
  destruct (solve_equations_sound _ _ _ _ _ _ _ _ SO HS) as (S1 & _).
  destruct (soil_balance M z K q h m SP HK BV d _ S1) as (_ & B & _). cbv beta in B. rewrite E in B. symmetry in B.
  apply Qmult_integral in B. destruct B as [B|B]; [|contradiction].
  destruct BV as (_ & BH & _). rewrite EC in BH. destruct (base_spring_slope _ _ BH) as [[X _]|[_ [X S]]]; [contradiction|].
  rewrite B in S. symmetry in S. assert (A : (snd (nth 1 c (0, 0)) - snd (nth 0 c (0, 0))) / (fst (nth 1 c (0, 0)) - fst (nth 0 c (0, 0))) == 0).
  { revert S. apply Qabs_case; intros; lra. }
  unfold Qdiv in A. apply Qmult_integral in A. destruct A as [A|A]; [apply P; lra|].
  apply X. destruct (Qeq_dec (fst (nth 1 c (0, 0)) - fst (nth 0 c (0, 0))) 0) as [Z|NZ]; [lra|].
  exfalso. pose proof (Qmult_inv_r _ NZ) as Y. rewrite A in Y. lra.
Qed.
Print Assumptions C114_ignores_soil_refuted.

(** C114: when it succeeds: exactly if supports and base springs together prevent rigid motion.  [q], [h],
    [m] are the slopes of the base springs' curves. *)
Theorem C114_solved_iff_held : forall solve M z F U r q h m, solver_ok solve -> sound_pile M z -> base_values M q h m ->
  ((exists x, beam_in_soil solve M F U r = Ok x) <-> held (w_n M) (also_held (w_n M) q h m (supports_of r U))) /\
  (forall e, beam_in_soil solve M F U r = Err e -> e = LinAlgError).
Proof.
  intros solve M z F U r q h m SO SP BV. destruct (base_values_matrix _ _ _ _ BV) as (K & HK).
  rewrite <- (soil_stable_iff M z K q h m (supports_of r U) SP HK BV).
  rewrite <- (solve_equations_succeeds solve (size M) K F U (supports_of r U) SO). unfold beam_in_soil. rewrite HK. cbn [bind].
  destruct (solve_equations _ _ _ _ _ _) as [[d R]|]; split; try (intros; congruence); split; intros [x H]; try discriminate; eauto.
Qed.
Print Assumptions C114_solved_iff_held.

(** C114: these are slopes of the curves. *)
Theorem C114_slopes : forall M q h m j, base_values M q h m -> (forall c, w_qz M = Some c -> length c = S (2 * (2 * j + 1))) ->
  match w_qz M with None => q = 0 | Some c => leaves_middle_with (2 * j + 1) c q end /\
  match w_hb M with None => h = 0 | Some c => starts_with c h end /\
  match w_mb M with None => m = 0 | Some c => starts_with c m end.
Proof. exact base_values_slopes. Qed.
Print Assumptions C114_slopes.

(** C114 refuted: a pile without any support, which beam refuses without soil, is solved when its three
    base springs resist. *)
Theorem C114_unsupported_refuted : forall solve M z zs F q h m, solver_ok solve -> sound_pile M z -> base_values M q h m -> ~ q == 0 -> ~ h == 0 -> ~ m == 0 ->
  let none := (fun _ => false) : nat -> bool in
  (exists t, beam_in_soil_result solve M zs F zero none = Ok (Some t)) /\ beam_result solve M zs F zero none = Err LinAlgError.
Proof.
  intros solve M z zs F q h m SO SP BV Q0 H0 M0 none.
  assert (B : forall s, ~ s == 0 -> negb (Qeq_bool s 0) = true).
  { intros s NZ. apply negb_true_iff. destruct (Qeq_bool s 0) eqn:E; auto. apply Qeq_bool_iff in E. contradiction. }
  split.
  - destruct (C114_solved_iff_held solve M z F zero none q h m SO SP BV) as [I _].
    assert (HL : held (w_n M) (also_held (w_n M) q h m (supports_of none zero))).
    { unfold held, also_held. rewrite (B q Q0), (B h H0), (B m M0). split.
      - exists (w_n M). split; [lia|]. rewrite Nat.eqb_refl. rewrite !orb_true_r. reflexivity.
      - exists (w_n M). split; [lia|]. split; [rewrite Nat.eqb_refl; cbn [andb]; rewrite orb_true_r; reflexivity|].
        left. exists (w_n M). split; [lia|]. rewrite !Nat.eqb_refl. cbn [andb]. rewrite !orb_true_r. reflexivity. }
    apply I in HL. destruct HL as ([[d R] f] & HB). unfold beam_in_soil_result. rewrite HB. cbn [bind]. eauto.
  - unfold beam_result. destruct (beam solve (w_n M) (w_mech M) F zero none) as [[[d R] f]|] eqn:E; [|reflexivity]. exfalso.
    assert (X : held (w_n M) (supports_of none zero)).
    { apply (beam_succeeds solve (w_n M) (w_mech M) z F zero none SO).
      - intros e He. rewrite <- (proj1 (sp_len M z SP e He)). apply (sp_mech M z SP e He).
      - intros e He. destruct (sp_len M z SP e He) as [E1 P]. rewrite E1 in P. lra.
      - eauto. }
    destruct X as [(a & _ & X) _]. discriminate X.
Qed.
Print Assumptions C114_unsupported_refuted.

(** A pile of two elements with all three base springs, without supports: the hypotheses of
    C114_unsupported_refuted are met. *)
Example C114_example : sound_pile soil0 z0 /\ (exists q h m, base_values soil0 q h m /\ q == 10000 /\ h == 10000 /\ m == 10000) /\
  (forall c, w_qz soil0 = Some c -> length c = S (2 * (2 * 3 + 1))).
Proof.
  split; [exact (sound_model_pile _ _ soil0_sound)|]. split.
  - eexists _, _, _. split; [split; [vm_compute; reflexivity|split; vm_compute; reflexivity]|]. repeat split; vm_compute; reflexivity.
  - intros c H. injection H as <-. reflexivity.
Qed.

(** The same pile under a lateral load: its tip moves and the reactions, all zero, do not balance it. *)
Example C114_unbalanced : exists d R f, beam_in_soil gauss_solver soil0 (fun i => if Nat.eqb i 1 then 100 else 0) zero (fun _ => false) = Ok (d, R, f) /\
  ~ d (3 * w_n soil0 + 1)%nat == 0.
Proof.
  destruct C114_example as (SP & (q & h & m & BV & Q0 & H0 & M0) & L).
  destruct (C114_solved_iff_held gauss_solver soil0 z0 (fun i => if Nat.eqb i 1 then 100 else 0) zero (fun _ => false) q h m gauss_solver_ok SP BV) as [I _].
  destruct (proj2 I) as ([[d R] f] & HB).
  { assert (B : forall s, s == 10000 -> negb (Qeq_bool s 0) = true).
    { intros s E. apply negb_true_iff. destruct (Qeq_bool s 0) eqn:E'; auto. apply Qeq_bool_iff in E'. rewrite E in E'. discriminate. }
    unfold held, also_held. rewrite (B q Q0), (B h H0), (B m M0). split; [exists 2%nat; split; [cbn; lia|reflexivity]|].
    exists 2%nat. split; [cbn; lia|]. split; [reflexivity|]. left. exists 2%nat. split; [cbn; lia|reflexivity]. }
  exists d, R, f. split; [exact HB|]. intros D.
  destruct (beam_in_soil_inv _ _ _ _ _ _ _ _ HB) as (K & HK & HS & _).
  destruct (solve_equations_sound _ _ _ _ _ _ _ _ gauss_solver_ok HS) as (S1 & S2 & _).
  destruct (soil_balance soil0 z0 K q h m SP HK BV d _ S1) as (_ & B & _). rewrite D in B.
  assert (R0 : forall i, (i < 9)%nat -> R i == 0) by (intros i Hi; apply S2; auto).
  unfold total_lateral in B. cbn [w_n soil0 sum] in B. rewrite !R0 in B by (cbn; lia). cbn in B. lra.
Qed.
