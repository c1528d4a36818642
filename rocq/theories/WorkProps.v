(** Property C134: the work of the loads on a pile in soil lies between that of the first pass, with the initial
    stiffness of the springs, and that of the pile without soil. *)
From Coq Require Import List Bool Arith ZArith QArith Qabs Lia Lqa Setoid.
From Verif Require Import Base LinAlg PileModel BeamModel BeamSpec BeamProofs SolveModel SolveSpec SolveProofs ForceProofs SpringModel SpringSpec SpringProofs SoilProofs SpringProper SpringWitness SpringProps WinklerModel WinklerSpec WinklerProofs WinklerProps EquilProofs ElasticSpec ElasticProofs StiffSpec StiffProofs WorkSpec WorkProofs WorkWitness.
Import ListNotations.
Local Open Scope Q_scope.

(** C134: the soil helps.  At rest the loads have done no negative work, and no more than on the same pile with the same supports
    and no soil; what they do less is at least the energy of the difference of the two deformations. *)
Theorem C134_soil_helps : forall solve M z F U r V d Q q, solver_ok solve -> sound_model M z -> (forall i, (i < size M)%nat -> U i == 0) ->
  balanced M F U r V -> beam solve (w_n M) (w_mech M) F U r = Some (d, Q, q) ->
  0 <= dot (size M) F V /\
  dot (size M) F V + energy (size M) (jit_build (w_n M) (w_mech M)) (fun i => V i - d i) <= dot (size M) F d /\
  0 <= energy (size M) (jit_build (w_n M) (w_mech M)) (fun i => V i - d i).
Proof.
  intros solve M z F U r V d Q q SO SM UZ (K & HB & VU & VF) BD. destruct (beam_sound _ _ _ _ _ _ _ _ _ SO BD) as (H1 & H2 & H3). fold (size M) in *.
  destruct (mech_symmetric M z SM) as [SY PS].
  assert (V0 : forall i, (i < size M)%nat -> r i = true -> V i == 0) by (intros i Hi R; rewrite (VU i Hi R); apply UZ, Hi).
  assert (D0 : forall i, (i < size M)%nat -> r i = true -> d i == 0) by (intros i Hi R; rewrite (H3 i Hi (or_introl R)); apply UZ, Hi).
  assert (DF : forall i, (i < size M)%nat -> r i = false -> mulv (size M) (jit_build (w_n M) (w_mech M)) d i == F i) by (intros i Hi R; rewrite (H1 i Hi), (H2 i Hi R (UZ i Hi)); ring).
  pose proof (work_gap (size M) _ K F d V r SY D0 DF V0 VF) as G. pose proof (soil_adds M z V Secant K V SM HB) as A.
  assert (W : energy (size M) K V == dot (size M) F V) by (apply (balanced_work (size M) K F V r V); assumption).
  pose proof (PS V) as P1. pose proof (PS (fun i => V i - d i)) as P2. split; [lra|]. split; [lra|exact P2].
Qed.
Print Assumptions C134_soil_helps.

(** C134: the first pass of an analysis, which uses the initial stiffness, underestimates the work of the loads when no
    spring exceeds its initial stiffness. *)
Theorem C134_first_pass_partial : forall solve M z F U r V K0 d R, solver_ok solve -> sound_model M z -> softening_soil zero_index M ->
  (forall i, (i < size M)%nat -> U i == 0) -> balanced M F U r V ->
  build M zero Initial = Ok K0 -> solve_equations solve (size M) K0 F U r = Some (d, R) ->
  0 <= dot (size M) F d /\ dot (size M) F d <= dot (size M) F V /\
  exists K, build M V Secant = Ok K /\ dot (size M) F d + energy (size M) K (fun i => d i - V i) <= dot (size M) F V.
Proof.
  intros solve M z F U r V K0 d R SO SM SF UZ (K & HB & VU & VF) HB0 SE. destruct (solve_equations_sound _ _ _ _ _ _ _ _ SO SE) as (H1 & H2 & H3).
  assert (V0 : forall i, (i < size M)%nat -> r i = true -> V i == 0) by (intros i Hi Ri; rewrite (VU i Hi Ri); apply UZ, Hi).
  assert (D0 : forall i, (i < size M)%nat -> r i = true -> d i == 0) by (intros i Hi Ri; rewrite (H3 i Hi Ri); apply UZ, Hi).
  assert (DF : forall i, (i < size M)%nat -> r i = false -> mulv (size M) K0 d i == F i) by (intros i Hi Ri; rewrite (H1 i Hi), (H2 i Hi Ri); ring).
  pose proof (system_symmetric M z V Secant K SM HB) as SY. pose proof (system_psd M z V Secant K SM HB) as PS.
  pose proof (system_psd M z zero Initial K0 SM HB0 d) as P0.
  pose proof (work_gap (size M) K K0 F V d r SY V0 VF D0 DF) as G. pose proof (first_stiffest M z V zero K K0 d SM SF HB HB0) as A.
  assert (W : energy (size M) K0 d == dot (size M) F d) by (apply (balanced_work (size M) K0 F d r d); assumption).
  pose proof (PS (fun i => d i - V i)) as P1. split; [lra|]. split; [lra|]. exists K. split; [exact HB|lra].
Qed.
Print Assumptions C134_first_pass_partial.

(** C134: the displacements after the first pass of an analysis are those with the initial stiffness. *)
Lemma loop_history : forall solve n build F U0 s fuel iter d U K Rg last o, loop solve n build F U0 s fuel iter d U K Rg last = Ok o -> exists t, o_hist o = t ++ o_hist last.
Proof.
  induction fuel as [|f IH]; intros iter d U K Rg lst o H; cbn [loop] in H.
  - exists []. cbn. congruence.
  - destruct (solve_equations solve n K Rg U s) as [[u R]|]; [|match type of H with Ok ?x = _ => assert (E : o = x) by congruence end; subst o; exists []; reflexivity].
    cbv zeta in H. destruct (build (fun i => d i + u i) Secant) as [Ks|] eqn:BS; cbn [bind] in H; [|discriminate].
    destruct (_ && _)%bool.
    + destruct (solve_equations solve n Ks F U0 s) as [[V Rf]|]; [|discriminate]. match type of H with Ok ?x = _ => assert (E : o = x) by congruence end; subst o. eexists [_]. reflexivity.
    + destruct (Nat.eqb (S iter) 100).
      * match type of H with Ok ?x = _ => assert (E : o = x) by congruence end; subst o. eexists [_]. reflexivity.
      * destruct (build _ Tangent) as [Kt|]; cbn [bind] in H; [|discriminate]. apply IH in H. destruct H as [t E]. rewrite E. cbn [o_hist]. eexists (t ++ [_]). rewrite <- app_assoc. reflexivity.
Qed.

Theorem C134_passes : forall solve M F U0 r max_iter o, winkler_model solve M F U0 r max_iter = Ok o ->
  exists K0, build M zero Initial = Ok K0 /\
  match solve_equations solve (size M) K0 F U0 (supports_of r U0) with
  | Some (d, _) => exists t d1, o_hist o = t ++ [d1] /\ veq (size M) d1 d
  | None => o_hist o = [] /\ o_d o = None
  end.
Proof.
  intros solve M F U0 r mi o H. unfold winkler_model, winkler in H. destruct (build M zero Initial) as [K0|] eqn:B0; cbn [bind] in H; [|discriminate].
  exists K0. split; [reflexivity|]. cbn [loop] in H.
  destruct (solve_equations solve (size M) K0 F U0 (supports_of r U0)) as [[d R]|].
  2: { match type of H with Ok ?x = _ => assert (E : o = x) by congruence end; subst o. split; reflexivity. }
  cbv zeta in H. destruct (build M (fun i => zero i + d i) Secant) as [Ks|] eqn:BS; cbn [bind] in H; [|discriminate].
  rewrite andb_false_r in H. cbn [Nat.eqb] in H.
  destruct (build M _ Tangent) as [Kt|]; cbn [bind] in H; [|discriminate]. apply loop_history in H. destruct H as [t E]. cbn [o_hist] in E.
  exists t, (fun i => zero i + d i). split; [exact E|]. intros i Hi. unfold zero. ring.
Qed.
Print Assumptions C134_passes.

(** C134: a single load moves the point where it acts at least as far as in the first pass, in its own direction, and at most as far as
    without soil. *)
Theorem C134_under_the_load_partial : forall solve M z F U r V i, solver_ok solve -> sound_model M z -> (forall i, (i < size M)%nat -> U i == 0) -> single (size M) i F ->
  balanced M F U r V ->
  (forall d Q q, beam solve (w_n M) (w_mech M) F U r = Some (d, Q, q) -> Qabs (V i) <= Qabs (d i)) /\
  (forall K0 d R, softening_soil zero_index M -> build M zero Initial = Ok K0 -> solve_equations solve (size M) K0 F U r = Some (d, R) -> Qabs (d i) <= Qabs (V i)) /\
  0 <= F i * V i.
Proof.
  intros solve M z F U r V i SO SM UZ (Hi & NZ & SG) B.
  assert (P : 0 <= F i * V i).
  { pose proof B as (K & HB & VU & VF). rewrite <- (dot_single (size M) F V i Hi SG).
    assert (V0 : forall i, (i < size M)%nat -> r i = true -> V i == 0) by (intros j Hj R; rewrite (VU j Hj R); apply UZ, Hj).
    rewrite <- (balanced_work (size M) K F V r V V0 VF). exact (system_psd M z V Secant K SM HB V). }
  split; [|split; [|exact P]].
  - intros d Q q BD. destruct (C134_soil_helps solve M z F U r V d Q q SO SM UZ B BD) as (A & C & D). rewrite !(dot_single (size M) F _ i Hi SG) in *.
    apply (abs_le_from (F i)); auto. lra.
  - intros K0 d R SF HB0 SE. destruct (C134_first_pass_partial solve M z F U r V K0 d R SO SM SF UZ B HB0 SE) as (A & C & _). rewrite !(dot_single (size M) F _ i Hi SG) in *.
    apply (abs_le_from (F i)); auto.
Qed.
Print Assumptions C134_under_the_load_partial.

(** C134: displacements reported by an analysis are a state of rest under loads that differ from those given by less than
    the tolerance, so the two bounds hold of them. *)
Theorem C134_analysis : forall solve M z F U r max_iter o v, solver_ok solve -> sound_model M z -> (forall i, (i < size M)%nat -> U i == 0) -> (99 <= max_iter)%nat ->
  winkler_model solve M F U r max_iter = Ok o -> o_d o = Some v ->
  exists F' R, balanced M F' U r v /\
    force2 (size M) (fun i => F i - F' i) < (1 # 100000000) * force2 (size M) (fun i => F i - R i) /\ (forall i, (i < size M)%nat -> r i = false -> R i == 0) /\
    0 <= dot (size M) F' v /\
    (forall d Q q, beam solve (w_n M) (w_mech M) F' U r = Some (d, Q, q) -> dot (size M) F' v <= dot (size M) F' d) /\
    (forall K0 d R, softening_soil zero_index M -> build M zero Initial = Ok K0 -> solve_equations solve (size M) K0 F' U r = Some (d, R) -> dot (size M) F' d <= dot (size M) F' v).
Proof.
  intros solve M z F U r mi o v SO SM UZ L H D. destruct (C35_equilibrium_partial solve M F U r mi o v SO L H D) as (Ks & R & e & t & B & _ & _ & RZ & EE & ET & LT).
  pose proof (C36_prescribed_result solve M F U r mi o v SO H D) as PR. pose proof (unprescribed (size M) r U UZ) as UP.
  set (F' := fun i => if r i then F i else mulv (size M) Ks v i). exists F', R.
  assert (BL : balanced M F' U r v).
  { exists Ks. split; [exact B|]. split; [intros i Hi Ri; apply PR; [exact Hi|rewrite (UP i Hi); exact Ri]|]. intros i Hi Ri. unfold F'. rewrite Ri. reflexivity. }
  split; [exact BL|]. split.
  { assert (E : force2 (size M) (fun i => F i - F' i) == e).
    { rewrite EE. unfold force2, out_of_balance. apply sum_ext. intros i Hi. unfold F'. rewrite (UP i Hi). destruct (r i); ring. }
    rewrite E, <- ET. exact LT. }
  split; [intros i Hi Ri; apply RZ; [exact Hi|rewrite (UP i Hi); exact Ri]|].
  split; [|split].
  - pose proof BL as (K & HB & VU & VF).
    assert (V0 : forall i, (i < size M)%nat -> r i = true -> v i == 0) by (intros j Hj Rj; rewrite (VU j Hj Rj); apply UZ, Hj).
    rewrite <- (balanced_work (size M) K F' v r v V0 VF). exact (system_psd M z v Secant K SM HB v).
  - intros d Q q BD. destruct (C134_soil_helps solve M z F' U r v d Q q SO SM UZ BL BD) as (A & C & E). lra.
  - intros K0 d R' SF HB0 SE. exact (proj1 (proj2 (C134_first_pass_partial solve M z F' U r v K0 d R' SO SM SF UZ BL HB0 SE))).
Qed.
Print Assumptions C134_analysis.

(** C134 does not hold of moment springs that grow with the lateral resistance: at zero displacement they have no stiffness, so the
    first pass may overestimate the work of the loads, although every lateral curve softens. *)
Theorem C134_moments_refuted : exists M z F r V K0 d R, sound_model M z /\ (forall py, w_py M = Some py -> forall e j, softening (py e j)) /\
  (forall c, w_hb M = Some c -> softening c) /\ w_tz M = None /\ w_qz M = None /\ w_mb M = None /\
  balanced M F zero r V /\ build M zero Initial = Ok K0 /\ solve_equations gauss_solver (size M) K0 F zero r = Some (d, R) /\ dot (size M) F V < dot (size M) F d.
Proof.
  assert (SM : sound_model with_moments z0) by (apply one_sound; right; reflexivity).
  assert (X : match build with_moments zero Initial with
    | Ok K => Qltb (Qred (sum 6 (fun i => if Qeq_bool (turned i) 0 then 0 else turned i * Qred (sum 6 (fun j => if Qeq_bool (turned j) 0 then 0 else Qred (K i j) * turned j))))) (Qred (dot 6 turning turned))
    | Err _ => false end = true) by (vm_compute; reflexivity).
  destruct (build with_moments zero Initial) as [K0|] eqn:B; [|discriminate]. apply Qltb_true in X. rewrite !Qred_correct in X.
  assert (E0 : energy 6 K0 turned < dot 6 turning turned).
  { eapply Qle_lt_trans; [|exact X]. apply Qle_lteq. right. unfold energy, dot. apply sum_ext. intros i Hi. destruct (Qeq_bool (turned i) 0) eqn:E; [apply Qeq_bool_iff in E; rewrite E; ring|].
    apply Qmult_comp; [reflexivity|]. rewrite Qred_correct. unfold mulv. apply sum_ext. intros j Hj. destruct (Qeq_bool (turned j) 0) eqn:E1; [apply Qeq_bool_iff in E1; rewrite E1; ring|rewrite Qred_correct; reflexivity]. }
  destruct (C62_solvable gauss_solver with_moments z0 zero Initial K0 gauss_solver_ok SM B column turning zero) as [[d R] SE].
  { eexists (fun _ _ => py0), 0%nat, 0%nat, _. split; [reflexivity|]. split; [cbn; lia|]. split; [lia|]. split; [vm_compute; reflexivity|reflexivity]. }
  { left. exists 0%nat. split; [cbn; lia|reflexivity]. }
  exists with_moments, z0, turning, column, turned, K0, d, R. split; [exact SM|].
  split; [intros py E e j; cbn in E; injection E as <-; exact py0_softening|]. split; [intros c E; cbn in E; injection E as <-; exact py0_softening|].
  do 3 (split; [reflexivity|]). split; [exact turned_rests|]. split; [exact B|]. split; [exact SE|]. change (size with_moments) with 6%nat in *.
  destruct turned_rests as (K & HB & VU & VF). destruct (solve_equations_sound _ _ _ _ _ _ _ _ gauss_solver_ok SE) as (H1 & H2 & H3).
  assert (DF : forall i, (i < 6)%nat -> column i = false -> mulv 6 K0 d i == turning i) by (intros i Hi Ri; rewrite (H1 i Hi), (H2 i Hi Ri); ring).
  pose proof (work_gap 6 K0 K turning d turned column (system_symmetric _ _ _ _ _ SM B) (fun i Hi Ri => eq_ind_r (fun x => x == 0) (Qeq_refl 0) (H3 i Hi Ri)) DF VU VF) as G.
  pose proof (system_psd _ _ _ _ _ SM B (fun i => turned i - d i)) as P. change (size with_moments) with 6%nat in P.
  assert (W : energy 6 K turned == dot 6 turning turned) by exact (balanced_work 6 K turning turned column turned VU VF). lra.
Qed.
Print Assumptions C134_moments_refuted.

(** The hypotheses are met: a pile held by lateral and base springs beyond their first points, and one with its head fixed. *)
Example C134_example : sound_model (one_element None) z0 /\ softening_soil zero_index (one_element None) /\
  balanced (one_element None) tilting zero column tilted /\
  balanced (one_element None) bending zero head_fixed bent /\
  (exists K0 d R, build (one_element None) zero Initial = Ok K0 /\ solve_equations gauss_solver 6 K0 tilting zero column = Some (d, R) /\ ~ veq 6 d tilted) /\
  (exists d Q q, beam gauss_solver 1 (fun _ => mech0) bending zero head_fixed = Some (d, Q, q) /\ dot 6 bending bent < dot 6 bending d).
Proof.
  assert (SM : sound_model (one_element None) z0) by (apply one_sound; left; reflexivity).
  split; [exact SM|]. split; [apply one_softening|]. split; [exact tilted_rests|]. split; [exact bent_rests|]. split.
  - assert (X : match build (one_element None) zero Initial with
      | Ok K => negb (Qeq_bool (Qred (sum 6 (fun j => if Qeq_bool (tilted j) 0 then 0 else Qred (K 1%nat j) * tilted j))) (tilting 1%nat))
      | Err _ => false end = true) by (vm_compute; reflexivity).
    destruct (build (one_element None) zero Initial) as [K0|] eqn:B; [|discriminate].
    destruct (C62_solvable gauss_solver (one_element None) z0 zero Initial K0 gauss_solver_ok SM B column tilting zero) as [[d R] SE].
    { eexists (fun _ _ => py0), 0%nat, 0%nat, _. split; [reflexivity|]. split; [cbn; lia|]. split; [lia|]. split; [vm_compute; reflexivity|reflexivity]. }
    { left. exists 0%nat. split; [cbn; lia|reflexivity]. }
    exists K0, d, R. split; [reflexivity|]. split; [exact SE|]. intros D. apply negb_true_iff in X. apply Qeq_bool_neq in X. apply X.
    destruct (solve_equations_sound _ _ _ _ _ _ _ _ gauss_solver_ok SE) as (H1 & H2 & _). change (size (one_element None)) with 6%nat in *.
    assert (E : mulv 6 K0 d 1%nat == tilting 1%nat) by (rewrite (H1 1%nat) by lia; rewrite (H2 1%nat ltac:(lia) ltac:(reflexivity)); ring).
    rewrite <- E, Qred_correct. unfold mulv. apply sum_ext. intros j Hj. rewrite (D j Hj). destruct (Qeq_bool (tilted j) 0) eqn:E1; [apply Qeq_bool_iff in E1; rewrite E1; ring|rewrite Qred_correct; reflexivity].
  - assert (X : match beam gauss_solver 1 (fun _ => mech0) bending zero head_fixed with
      | Some (d, _, _) => Qltb (dot 6 bending bent) (dot 6 bending d) | None => false end = true) by (vm_compute; reflexivity).
    destruct (beam gauss_solver 1 (fun _ => mech0) bending zero head_fixed) as [[[d Q] q]|] eqn:BE; [|discriminate]. apply Qltb_true in X.
    exists d, Q, q. split; [reflexivity|exact X].
Qed.
