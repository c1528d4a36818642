(** C143: the stiffness of the elements of a whole analysis is that of the section they lie in. *)
From Coq Require Import Reals List Bool Arith ZArith QArith Qabs Lia Lqa.
From Verif Require Import Base LinAlg BCModel PileModel MeshModel StressModel StressSpec StressProps BeamModel BeamSpec BeamProofs BeamProps SolveModel SolveSpec SolveProofs ForceProofs SpringModel SpringProofs SoilProofs WinklerModel WinklerSpec WinklerProps WholeModel WholeSpec WholeProofs WholeProps AnalysisProofs CreateProps FullModel FullSpec FullProps ApartProps.
Import ListNotations.
Local Open Scope Q_scope.

(** ** What the stiffness matrix of a beam element of length L is, said with deflected shapes *)
(** The forces at one end when the other is clamped, both ends in balance, no force for a movement without strain.
    [ks] is the shear compliance 1/(kappa A G); C59 says how the code computes it. *)
Record beam_stiffness (EI EA ks L : Q) (k : mat) : Prop := {
  bs_symmetric : symmetric 6 k;
  bs_rigid : forall a v t i, (i < 6)%nat -> mulv 6 k (of_list [a; v; t; a; v + L * t; t]) i == 0;
  bs_tip : forall P M N, let u := of_list [0; 0; 0; N * L / EA; tip_deflection EI L ks P M; tip_rotation EI L P M] in
    mulv 6 k u 3%nat == N /\ mulv 6 k u 4%nat == P /\ mulv 6 k u 5%nat == M }.
(** Virtual work of a slender element: bending of the cubic through its ends, and stretching *)
Definition slender_work (EI EA L : Q) (k : mat) : Prop := forall u du, dot 6 du (mulv 6 k u) ==
  EI / (L * L * L) * pint (pmul (pderiv (pderiv (deflection L u))) (pderiv (pderiv (deflection L du)))) + EA / L * pint (pmul (pderiv (axial u)) (pderiv (axial du))).
(** Virtual work of rotational springs along an element *)
Definition rotation_work (kt kb L : Q) (k : mat) : Prop := forall u du, dot 6 du (mulv 6 k u) == (kt + kb) / 2 / L * pint (pmul (pderiv (deflection L u)) (pderiv (deflection L du))).

(** shear compliance of the section [q] as the code computes it *)
Definition shear_compliance (ty : elem_type) (E nu : Q) (q : section) : Q :=
  match ty with EulerBernoulli => 0 | Timoshenko => tube_kappa nu (s_width q) ((s_width q - s_inner q / mpi) / 2) / (s_area q * (E / (2 * (1 + nu)))) end.

Lemma length_of : forall m e y, nth_error (elements_of m) e = Some y -> snd y < fst y -> elem_length (elements_of m) e == fst y - snd y.
Proof.
  intros m e y N L. unfold elem_length. rewrite (nth_error_nth _ _ (0, 0) N). rewrite Qabs_pos by lra. reflexivity.
Qed.

(** ** Bending and stretching *)
Theorem C143_elements : forall sections s x c p t b m ty circ E nu ks, meshed sections s x c p t b m -> 0 < E -> -(3#4) <= nu -> elem_matrices ty circ E nu p (elements_of m) = Ok (Some ks) ->
  length ks = length (elements_of m) /\ forall e y, nth_error (elements_of m) e = Some y -> exists q k, In q sections /\ in_section q y /\ nth_error ks e = Some k /\
    let L := elem_length (elements_of m) e in L == fst y - snd y /\ beam_stiffness (E * s_inertia q) (E * s_area q) (shear_compliance ty E nu q) L k /\
    (ty = EulerBernoulli -> slender_work (E * s_inertia q) (E * s_area q) L k).
Proof.
  intros sections s x c p t b m ty circ E nu ks MS PE PN H. unfold elem_matrices in H. destruct (collect _ _) as [l|] eqn:C; cbn [bind] in H; [|discriminate H].
  assert (R : all_some l = Some ks) by congruence. clear H. destruct (collect_ok _ _ l None C) as [LL LN]. destruct (all_some_ok _ l ks no_mat R) as [RL RN].
  split; [congruence|]. intros e y N. assert (He : (e < length (elements_of m))%nat) by (apply nth_error_Some; congruence).
  destruct (meshed_sections _ _ _ _ _ _ _ _ MS e y N) as [LT (q & QI & QS & PJ & PA & PW & V)]. set (L := elem_length (elements_of m) e) in *. assert (EL : L == fst y - snd y) by (apply length_of; assumption).
  assert (PL : 0 < L) by lra. exists q, (nth e ks no_mat). split; [exact QI|]. split; [exact QS|]. split.
  { destruct (nth_error ks e) as [k0|] eqn:NK; [rewrite (nth_error_nth _ _ no_mat NK); reflexivity|apply nth_error_None in NK; lia]. }
  cbv zeta. split; [exact EL|]. specialize (LN e He). specialize (RN e ltac:(lia)). rewrite RN in LN. clear RN R C. unfold elem_matrix in LN. fold L in LN.
  assert (M : exists d wt, 0 < d /\ elem_mech ty circ E nu (s_inertia q) (s_area q) d wt L = Ok (nth e ks no_mat) /\ (ty = Timoshenko -> d = s_width q /\ wt = thickness q)).
  { destruct ty.
    - rewrite !V in LN. destruct (elem_mech _ _ _ _ _ _ _ _ _) as [k0|] eqn:K in LN; cbn [bind] in LN; [|discriminate LN]. assert (K0 : k0 = nth e ks no_mat) by congruence. rewrite <- K0. exists 1, 0. split; [reflexivity|]. split; [exact K|discriminate].
    - destruct circ; [|discriminate LN]. rewrite !V in LN. destruct (elem_mech _ _ _ _ _ _ _ _ _) as [k0|] eqn:K in LN; cbn [bind] in LN; [|discriminate LN]. assert (K0 : k0 = nth e ks no_mat) by congruence. rewrite <- K0.
      exists (s_width q), (thickness q). split; [exact PW|]. split; [exact K|auto]. }
  destruct M as (d & wt & PD & K & TW). destruct (C23_beam_element_partial ty circ E nu _ _ d wt L _ PE PN PJ PA PD PL K) as (S1 & _ & S2 & _). split.
  - split; [exact S1|exact S2|]. intros P M N0. pose proof (C23_cantilever_partial ty circ E nu _ _ d wt L _ P M N0 PE PN PJ PA PD PL K) as CA. cbv zeta in CA |- *. unfold shear_compliance.
    destruct ty; [exact CA|]. destruct (TW eq_refl) as [-> ->]. exact CA.
  - intros ->. intros u du. assert (PN1 : -(1) < nu) by lra. exact (C24_euler_bernoulli_is_bending_energy circ E nu _ _ d wt L _ u du PL PE PN1 PA K).
Qed.
Print Assumptions C143_elements.

(** ** Rotational springs *)
Lemma moment_entry : forall sections s x c p t b m ty circ E nu cs, meshed sections s x c p t b m -> moment_coefs ty circ E nu p (elements_of m) = Ok (Some cs) ->
  length cs = length (elements_of m) /\ forall e y, nth_error (elements_of m) e = Some y -> exists q, In q sections /\ in_section q y /\ 0 < elem_length (elements_of m) e /\
    forall kt kb, elem_mt ty circ E nu (s_inertia q) (s_area q) (s_width q) (thickness q) (elem_length (elements_of m) e) kt kb = Ok (mt_matrix (nth e cs (0, 0, 0, 0)) kt kb).
Proof.
  intros sections s x c p t b m ty circ E nu cs MS H. unfold moment_coefs in H. destruct (collect _ _) as [l|] eqn:C; cbn [bind] in H; [|discriminate H].
  assert (R : all_some l = Some cs) by congruence. clear H. destruct (collect_ok _ _ l None C) as [LL LN]. destruct (all_some_ok _ l cs (0, 0, 0, 0) R) as [RL RN].
  split; [congruence|]. intros e y N. assert (He : (e < length (elements_of m))%nat) by (apply nth_error_Some; congruence).
  destruct (meshed_sections _ _ _ _ _ _ _ _ MS e y N) as [LT (q & QI & QS & _ & _ & _ & V)]. pose proof (length_of m e y N LT) as EL.
  exists q. split; [exact QI|]. split; [exact QS|]. split; [lra|]. intros kt kb. specialize (LN e He). specialize (RN e ltac:(lia)). rewrite RN in LN. clear RN R C. unfold moment_coef in LN. unfold elem_mt.
  destruct ty.
  - rewrite !V in LN. cbn [shear_kappa bind]. assert (K : mt_coefs EulerBernoulli 0 (s_inertia q) (s_area q) (elem_length (elements_of m) e) = nth e cs (0, 0, 0, 0)) by congruence. rewrite <- K. reflexivity.
  - destruct circ; [|discriminate LN]. rewrite !V in LN. cbn [shear_kappa bind] in LN |- *. cbv zeta in LN |- *. set (w := E * s_inertia q * tube_kappa nu (s_width q) (thickness q) / _) in *.
    assert (K : mt_coefs Timoshenko w (s_inertia q) (s_area q) (elem_length (elements_of m) e) = nth e cs (0, 0, 0, 0)) by congruence. rewrite <- K. reflexivity.
Qed.
(** Euler-Bernoulli: the work of springs spread along the element; Timoshenko: the matrix of C27 for the section's own values (C27 says when it is right) *)
Theorem C143_rotational_springs : forall sections s x c p t b m ty circ E nu cs, meshed sections s x c p t b m -> moment_coefs ty circ E nu p (elements_of m) = Ok (Some cs) ->
  length cs = length (elements_of m) /\ forall e y, nth_error (elements_of m) e = Some y -> exists q a, In q sections /\ in_section q y /\ nth_error cs e = Some a /\
    let L := elem_length (elements_of m) e in L == fst y - snd y /\
    (ty = EulerBernoulli -> forall kt kb, rotation_work kt kb L (mt_matrix a kt kb)) /\
    (forall kt kb, elem_mt ty circ E nu (s_inertia q) (s_area q) (s_width q) ((s_width q - s_inner q / mpi) / 2) L kt kb = Ok (mt_matrix a kt kb)).
Proof.
  intros sections s x c p t b m ty circ E nu cs MS H. destruct (moment_entry _ _ _ _ _ _ _ _ _ _ _ _ _ MS H) as [LC X]. split; [exact LC|]. intros e y N.
  assert (He : (e < length (elements_of m))%nat) by (apply nth_error_Some; congruence). destruct (X e y N) as (q & QI & QS & PL & K). exists q, (nth e cs (0, 0, 0, 0)). split; [exact QI|]. split; [exact QS|]. split.
  { destruct (nth_error cs e) as [a|] eqn:NK; [rewrite (nth_error_nth _ _ (0, 0, 0, 0) NK); reflexivity|apply nth_error_None in NK; lia]. }
  cbv zeta. destruct (meshed_sections _ _ _ _ _ _ _ _ MS e y N) as [LT _]. split; [exact (length_of m e y N LT)|]. split; [|exact K].
  intros -> kt kb u du. destruct (C27_euler_bernoulli_partial _ _ _ _ _ _ _ _ kt kb _ PL (K kt kb)) as [W _]. apply W.
Qed.
Print Assumptions C143_rotational_springs.

(** ** The principle of virtual work for whole analyses (Euler-Bernoulli elements) *)
(** bending and stretching of an element of length L with the section q *)
Definition pile_work (E : Q) (q : section) (L : Q) (u du : vec) : Q :=
  E * s_inertia q / (L * L * L) * pint (pmul (pderiv (pderiv (deflection L u))) (pderiv (pderiv (deflection L du)))) + E * s_area q / L * pint (pmul (pderiv (axial u)) (pderiv (axial du))).
(** springs along an element, their stiffness linear from its top to its bottom (rotational ones: the mean) *)
Definition shaft_work (py tz mt : bool) (L : Q) (kp kz km : Q * Q) (u du : vec) : Q :=
  (if py then L * pint (pmul (linear_k (fst kp) (snd kp)) (pmul (deflection L u) (deflection L du))) else 0) +
  (if tz then L * pint (pmul (linear_k (fst kz) (snd kz)) (pmul (axial u) (axial du))) else 0) +
  (if mt then (fst km + snd km) / 2 / L * pint (pmul (pderiv (deflection L u)) (pderiv (deflection L du))) else 0).

Lemma choose_upto : forall A (P : nat -> A -> Prop) (a : A) n, (forall e, (e < n)%nat -> exists q, P e q) -> exists f, forall e, (e < n)%nat -> P e (f e).
Proof.
  intros A P a n. induction n as [|n IH]; intros H; [exists (fun _ => a); intros; lia|]. destruct IH as [f F]; [intros e He; apply H; lia|]. destruct (H n ltac:(lia)) as [q Hq].
  exists (fun e => if Nat.eqb e n then q else f e). intros e He. destruct (Nat.eqb_spec e n) as [->|NE]; [exact Hq|apply F; lia].
Qed.
Lemma chosen_sections : forall sections s x c p t b m circ E nu ks, meshed sections s x c p t b m -> 0 < E -> -(3#4) <= nu -> elem_matrices EulerBernoulli circ E nu p (elements_of m) = Ok (Some ks) ->
  exists sec, forall e, (e < length (elements_of m))%nat -> (forall y, nth_error (elements_of m) e = Some y -> In (sec e) sections /\ in_section (sec e) y /\ elem_length (elements_of m) e == fst y - snd y) /\
    forall u du, dot 6 du (mulv 6 (nth e ks no_mat) u) == pile_work E (sec e) (elem_length (elements_of m) e) u du.
Proof.
  intros sections s x c p t b m circ E nu ks MS PE PN H. destruct (C143_elements _ _ _ _ _ _ _ _ _ _ _ _ _ MS PE PN H) as [LK X].
  apply (choose_upto section (fun e q => (forall y, nth_error (elements_of m) e = Some y -> In q sections /\ in_section q y /\ elem_length (elements_of m) e == fst y - snd y) /\
    forall u du, dot 6 du (mulv 6 (nth e ks no_mat) u) == pile_work E q (elem_length (elements_of m) e) u du) (mkSection 0 0 0 0 0 0 0 0 0)).
  intros e He. destruct (nth_error (elements_of m) e) as [y|] eqn:N; [|apply nth_error_None in N; lia]. destruct (X e y N) as (q & k & QI & QS & NK & EL & _ & W). exists q. split.
  - intros y' Y. assert (y' = y) by congruence. subst y'. auto.
  - intros u du. rewrite (nth_error_nth _ _ no_mat NK). exact (W eq_refl u du).
Qed.

Theorem C143_virtual_work : forall solve circ E nu sections s x c p t b m l r, solver_ok solve -> 0 < E -> -(3#4) <= nu -> meshed sections s x c p t b m ->
  beam_tables solve EulerBernoulli circ E nu p m l = Ok (Some r) -> let n := length (elements_of m) in
  exists tf sec, global_forces (nodes_of m) l = Ok tf /\ (forall e y, nth_error (elements_of m) e = Some y -> In (sec e) sections /\ in_section (sec e) y) /\
  forall du, sum n (fun e => pile_work E (sec e) (elem_length (elements_of m) e) (elem_disp (t_d r) e) (elem_disp du e)) == dot (3 * n + 3) du (fun i => dof_vector tf i + t_Q r i).
Proof.
  intros solve circ E nu sections s x c p t b m l r SO PE PN MS H n. unfold beam_tables in H. cbv zeta in H.
  destruct (global_forces _ l) as [tf|] eqn:EF; cbn [bind] in H; [|discriminate H]. destruct (global_disp _ l) as [td|] eqn:ED; cbn [bind] in H; [|discriminate H].
  destruct (global_restrained _ l) as [tr|] eqn:ER; cbn [bind] in H; [|discriminate H]. destruct (elem_matrices _ _ _ _ _ _) as [[ks|]|] eqn:EK; cbn [bind] in H; [|discriminate H|discriminate H].
  destruct (beam solve _ _ _ _ _) as [[[d R] q]|] eqn:EB; [|discriminate H]. injection H as <-. cbn [t_d t_Q]. destruct (beam_sound _ _ _ _ _ _ _ _ _ SO EB) as (B1 & _ & _). fold n in B1.
  destruct (chosen_sections _ _ _ _ _ _ _ _ circ E nu ks MS PE PN EK) as (sec & X). exists tf, sec. split; [reflexivity|]. split.
  { intros e y N. assert (He : (e < length (elements_of m))%nat) by (apply nth_error_Some; congruence). destruct (X e He) as [Y _]. destruct (Y y N) as (A & B & _). auto. }
  intros du. rewrite (dot_ext (3 * n + 3) du (fun i => dof_vector tf i + R i) du (mulv (3 * n + 3) (jit_build n (fun e => nth e ks no_mat)) d)); [|intros i Hi; reflexivity|intros i Hi; symmetry; apply B1; exact Hi].
  rewrite build_work. apply sum_ext. intros e He. symmetry. apply (proj2 (X e He)).
Qed.
Print Assumptions C143_virtual_work.

(** In soil: the reported forces [R] are in balance with the springs' secant stiffness at the reported displacements [v] *)
Theorem C143_virtual_work_in_soil : forall rnd ch sort o sections gr wt ys x c p t b m solve circ E nu cs mi r v, storage rnd -> fair_chance ch -> (forall rows, ascending_of (sort rows) rows) ->
  sound_site o sections gr wt ys x c p t b m -> solver_ok solve -> 0 < E -> -(3#4) <= nu -> (99 <= mi)%nat ->
  soil_analysis rnd ch sort solve EulerBernoulli circ E nu o sections gr wt ys x c cs mi = Ok (Some r) -> o_d r = Some v -> let n := length (elements_of m) in
  exists tf td tr sec M R V kp kz km h mo q, global_forces (nodes_of m) (run cs []) = Ok tf /\ global_disp (nodes_of m) (run cs []) = Ok td /\ global_restrained (nodes_of m) (run cs []) = Ok tr /\ o_Q r = Some R /\
    (forall i, (i < 3 * n + 3)%nat -> if supports_of (dof_flags tr) (dof_vector td) i then V i == dof_vector td i else R i == 0) /\ (forall e y, nth_error (elements_of m) e = Some y -> In (sec e) sections /\ in_section (sec e) y) /\
    spring_values M v Secant kp kz km h mo q /\ w_n M = n /\
    forall du, sum n (fun e => let L := elem_length (elements_of m) e in pile_work E (sec e) L (elem_disp V e) (elem_disp du e) + shaft_work (on_py o) (on_tz o) (on_mt o) L (kp e) (kz e) (km e) (elem_disp V e) (elem_disp du e)) +
      h * V (3 * n + 1)%nat * du (3 * n + 1)%nat + mo * V (3 * n + 2)%nat * du (3 * n + 2)%nat + q * V (3 * n)%nat * du (3 * n)%nat ==
    dot (3 * n + 3) du (fun i => dof_vector tf i + R i).
Proof.
  intros rnd ch sort o sections gr wt ys x c p t b m solve circ E nu cs mi r v ST FC SO SS SV PE PN MI AN OD n.
  destruct (C104_constructed rnd ch sort o sections gr wt ys x c p t b m ST FC SO SS) as (st & MD & CB & _). pose proof (si_mesh _ _ _ _ _ _ _ _ _ _ _ SS) as MS.
  unfold soil_analysis in AN. rewrite CB in AN. cbn [bind] in AN. destruct (solve_parts _ _ _ _ _ _ _ _ _ _ AN) as (tf & td & tr & ks & mc & A1 & A2 & A3 & A4 & A5 & A6). cbn [b_mesh b_pile b_made] in *.
  set (M := stiffness_model o p m ks mc (springs_of MD)) in *. destruct (C35_reactions_partial solve M _ _ _ mi r v SV MI A6 OD) as [(R & ER & Ks & V & HB & EQ & RZ & VU) _].
  destruct (build_parts M v Secant Ks HB) as (kp & kz & km & h & mo & q & SPV & W). destruct (chosen_sections _ _ _ _ _ _ _ _ circ E nu ks MS PE PN A4) as (sec & X).
  exists tf, td, tr, sec, M, R, V, kp, kz, km, h, mo, q. split; [exact A1|]. split; [exact A2|]. split; [exact A3|]. split; [exact ER|]. split.
  { intros i Hi. destruct (supports_of (dof_flags tr) (dof_vector td) i) eqn:S0; [rewrite (VU i Hi S0); reflexivity|exact (RZ i Hi S0)]. }
  split.
  { intros e y N. assert (He : (e < length (elements_of m))%nat) by (apply nth_error_Some; congruence). destruct (X e He) as [Y _]. destruct (Y y N) as (A & B & _). auto. }
  split; [exact SPV|]. split; [reflexivity|]. intros du. assert (SZ : SpringModel.size M = (3 * n + 3)%nat) by reflexivity.
  rewrite (dot_ext (3 * n + 3) du (fun i => dof_vector tf i + R i) du (mulv (SpringModel.size M) Ks V)); [|intros i Hi; reflexivity|intros i Hi; symmetry; apply EQ; rewrite SZ; exact Hi].
  rewrite <- SZ, W. change (w_n M) with n. apply Qplus_comp; [|reflexivity]. apply Qplus_comp; [|reflexivity]. apply Qplus_comp; [|reflexivity].
  apply sum_ext. intros e He. cbv zeta. destruct (X e He) as [Y PW]. apply Qplus_comp; [symmetry; apply PW|].
  unfold soil_work, shaft_work. change (w_L M e) with (elem_length (elements_of m) e). set (L := elem_length (elements_of m) e) in *. unfold M, stiffness_model, soil_model. cbn [w_py w_tz w_mt w_mtc]. unfold when_on.
  apply Qplus_comp; [apply Qplus_comp|].
  - destruct (on_py o); [symmetry; apply py_consistent|reflexivity].
  - destruct (on_tz o); [symmetry; apply tz_consistent|reflexivity].
  - destruct (on_mt o) eqn:OM; [|reflexivity]. destruct (nth_error (elements_of m) e) as [y|] eqn:N; [|apply nth_error_None in N; unfold n in He; lia].
    destruct (C143_rotational_springs _ _ _ _ _ _ _ _ _ _ _ _ mc MS A5) as [_ Z]. destruct (Z e y N) as (q0 & a & _ & _ & NA & _ & RW & _). rewrite (nth_error_nth _ _ (0, 0, 0, 0) NA). symmetry. apply (RW eq_refl).
Qed.
Print Assumptions C143_virtual_work_in_soil.

(** ** The hypotheses are met: a pile of two sections, clamped and loaded, and the site of C107_example *)
Example C143_example : meshed ex_sections None [] 2 [mkSection 0 (-4) 1 1 1 1 1 1 1; mkSection (-4) (-10) 1 2 3 1 1 1 1] 0 (-10) ex_m /\
  (exists r, analyse gauss_solver EulerBernoulli true 210 (3#10) ex_sections [] 2 ex_calls = Ok (Some r)) /\
  sound_site all_on ex_l 0 (-1) FullProps.soil0 [-1] 2 ex_p 2 (-8) mesh1 /\
  (forall solve nu cs mi, solver_ok solve -> -(3#4) <= nu -> exists r, soil_analysis rnd0 ch0 sort0 solve EulerBernoulli true 210 nu all_on ex_l 0 (-1) FullProps.soil0 [-1] 2 cs mi = Ok (Some r)) /\
  (exists cs, moment_coefs EulerBernoulli true 210 (3#10) ex_p (elements_of mesh1) = Ok (Some cs)) /\ (exists cs, moment_coefs Timoshenko true 210 (3#10) ex_p (elements_of mesh1) = Ok (Some cs)).
Proof.
  split; [exact ex_meshed|]. split; [exact (proj2 C78_example)|]. destruct C107_example as (_ & _ & _ & SS & _ & _ & RUN). split; [exact SS|]. split; [exact RUN|].
  pose proof (si_mesh _ _ _ _ _ _ _ _ _ _ _ SS) as MS.
  split; [destruct (coefs_exist _ _ _ _ _ _ _ _ EulerBernoulli true 210 (3#10) MS ltac:(discriminate)) as (l & H & _)|destruct (coefs_exist _ _ _ _ _ _ _ _ Timoshenko true 210 (3#10) MS ltac:(reflexivity)) as (l & H & _)]; exists l; exact H.
Qed.
