(** C127: analyses of one pile under different loads and settlements: superposition, reciprocity and influence lines, for the
    loads as the user gives them and the tables as the user sees them. *)
From Coq Require Import List Bool Arith ZArith QArith Qround Qabs Lia Lqa.
From Verif Require Import Base LinAlg PileModel PileSpec MeshModel MeshSpec StressSpec BeamModel SolveModel SolveSpec SolveProofs SpringModel SpringWitness BCModel BCSpec BCProofs WholeModel WholeSpec WholeProofs WholeProps RecipSpec RecipProofs.
Import ListNotations.
Local Open Scope Q_scope.

(** C127: loads and prescribed displacements [u] times those of one analysis plus [v] times those of another, on the same
    supports: the analysis succeeds, and displacements, internal forces and reactions are [u] times plus [v] times theirs. *)
Theorem C127_superposition : forall solve ty circ E nu sections s x c p t b m l1 l2 l u v r1 r2, solver_ok solve -> 0 < E -> -(3#4) <= nu -> (ty = Timoshenko -> circ = true) -> meshed sections s x c p t b m ->
  let nodes := nodes_of m in well_placed nodes l1 -> well_placed nodes l2 -> well_placed nodes l -> same_supports nodes l1 l -> same_supports nodes l2 l ->
  (forall k, validate_bc l1 k = Ok tt) -> (forall k, validate_bc l k = Ok tt) ->
  (forall k z a, k <> Fixation -> In z nodes -> given k l z a == u * given k l1 z a + v * given k l2 z a) ->
  beam_tables solve ty circ E nu p m l1 = Ok (Some r1) -> beam_tables solve ty circ E nu p m l2 = Ok (Some r2) ->
  exists r, beam_tables solve ty circ E nu p m l = Ok (Some r) /\
  combined u v (t_disp r1) (t_disp r2) (t_disp r) /\ combined u v (t_forces r1) (t_forces r2) (t_forces r) /\
  combined u v (disp_rows nodes (t_Q r1)) (disp_rows nodes (t_Q r2)) (disp_rows nodes (t_Q r)).
Proof.
  intros solve ty circ E nu sections s x c p t b m l1 l2 l u v r1 r2 SO PE PN HT MS nodes W1 W2 W S1 S2 V1 V GV B1 B2.
  assert (HP : holds_pile nodes l).
  { destruct (C78_solved_iff_held solve ty circ E nu sections s x c p t b m l1 SO PE PN HT MS V1) as [[H _]|[_ H]]; [|congruence].
    destruct H as ((i & A1) & j & A2 & A3). split; [exists i; apply S1; exact A1|]. exists j. split; [apply S1; exact A2|].
    destruct A3 as [(h & A3)|(h & NE & A3)]; [left; exists h; apply S1; exact A3|right; exists h; split; [exact NE|apply S1; exact A3]]. }
  destruct (C78_solved_iff_held solve ty circ E nu sections s x c p t b m l SO PE PN HT MS V) as [[_ (r & B)]|[H _]]; [|contradiction].
  exists r. split; [exact B|]. exact (superposed solve ty circ E nu sections s x c p t b m SO PE PN HT MS l1 l2 l u v r1 r2 r W1 W2 W S1 S2 GV B1 B2 B).
Qed.
Print Assumptions C127_superposition.

(** C127: the loads and reactions of one analysis do the same work on the displacements of another as the other's on its own. *)
Theorem C127_betti : forall solve ty circ E nu sections s x c p t b m l l' r r', solver_ok solve -> 0 < E -> -(3#4) <= nu -> (ty = Timoshenko -> circ = true) -> meshed sections s x c p t b m ->
  let nodes := nodes_of m in well_placed nodes l -> well_placed nodes l' -> beam_tables solve ty circ E nu p m l = Ok (Some r) -> beam_tables solve ty circ E nu p m l' = Ok (Some r') ->
  work_of_loads l (t_disp r') + work_of_reactions (disp_rows nodes (t_Q r)) (t_disp r') == work_of_loads l' (t_disp r) + work_of_reactions (disp_rows nodes (t_Q r')) (t_disp r).
Proof. intros solve ty circ E nu sections s x c p t b m l l' r r' SO PE PN HT MS nodes W W' B B'. exact (betti solve ty circ E nu sections s x c p t b m SO PE PN HT MS l l' r r' W W' B B'). Qed.
Print Assumptions C127_betti.

(** C127: with the same supports and nothing prescribed but zeros, a load at one place moves another as a load there moves the first. *)
Theorem C127_reciprocity : forall solve ty circ E nu sections s x c p t b m l l' r r', solver_ok solve -> 0 < E -> -(3#4) <= nu -> (ty = Timoshenko -> circ = true) -> meshed sections s x c p t b m ->
  let nodes := nodes_of m in well_placed nodes l -> well_placed nodes l' -> same_supports nodes l l' ->
  (forall z a, In z nodes -> given Displacement l z a == 0) -> (forall z a, In z nodes -> given Displacement l' z a == 0) ->
  beam_tables solve ty circ E nu p m l = Ok (Some r) -> beam_tables solve ty circ E nu p m l' = Ok (Some r') ->
  work_of_loads l (t_disp r') == work_of_loads l' (t_disp r) /\
  forall q q' a a', loads l = [q] -> loads l' = [q'] -> (forall d, d <> a -> component_of d q == 0) -> (forall d, d <> a' -> component_of d q' == 0) ->
    component_of a q * part a (row_at (t_disp r') (bc_elev q)) == component_of a' q' * part a' (row_at (t_disp r) (bc_elev q')).
Proof.
  intros solve ty circ E nu sections s x c p t b m l l' r r' SO PE PN HT MS nodes W W' SS Z Z' B B'.
  assert (X : work_of_loads l (t_disp r') == work_of_loads l' (t_disp r)).
  { pose proof (betti solve ty circ E nu sections s x c p t b m SO PE PN HT MS l l' r r' W W' B B') as X.
    rewrite (idle solve ty circ E nu sections s x c p t b m SO PE PN HT MS l l' r r' B B' SS W' Z') in X.
    rewrite (idle solve ty circ E nu sections s x c p t b m SO PE PN HT MS l' l r' r B' B) in X; auto; [lra|]. intros i a. symmetry. apply SS. }
  split; [exact X|]. intros q q' a a' L L' C C'. unfold work_of_loads in X. rewrite L, L' in X. cbn [map] in X. unfold Qsum in X. cbn [fold_right] in X.
  destruct a, a'; repeat match type of X with context [component_of ?d q] => rewrite (C d) in X by discriminate end; repeat match type of X with context [component_of ?d q'] => rewrite (C' d) in X by discriminate end; lra.
Qed.
Print Assumptions C127_reciprocity.

(** C127: the reaction of a support is read from the displacements of the unloaded pile when that support is moved: it is minus
    the work the loads would do on them, for a support moved by one. *)
Theorem C127_influence_line : forall solve ty circ E nu sections s x c p t b m l l' r r' j a z u, solver_ok solve -> 0 < E -> -(3#4) <= nu -> (ty = Timoshenko -> circ = true) -> meshed sections s x c p t b m ->
  let nodes := nodes_of m in well_placed nodes l -> well_placed nodes l' -> same_supports nodes l l' -> supported nodes l j a -> nth_error nodes j = Some z ->
  (forall z a, In z nodes -> given Displacement l z a == 0) -> loads l' = [] ->
  given Displacement l' z a == u -> (forall i a' z', nth_error nodes i = Some z' -> (i, a') <> (j, a) -> given Displacement l' z' a' == 0) ->
  beam_tables solve ty circ E nu p m l = Ok (Some r) -> beam_tables solve ty circ E nu p m l' = Ok (Some r') ->
  u * part a (row_at (disp_rows nodes (t_Q r)) z) == - work_of_loads l (t_disp r').
Proof.
  intros solve ty circ E nu sections s x c p t b m l l' r r' j a z u SO PE PN HT MS nodes W W' SS SU NZ Z NL GU GZ B B'.
  pose proof (betti solve ty circ E nu sections s x c p t b m SO PE PN HT MS l l' r r' W W' B B') as X.
  rewrite (idle solve ty circ E nu sections s x c p t b m SO PE PN HT MS l' l r' r B' B) in X; auto; [|intros i d; symmetry; apply SS].
  rewrite (single_settlement solve ty circ E nu sections s x c p t b m SO PE PN HT MS l l' r r' j a z u B B' SS W' NZ GU) in X; auto.
  - assert (L0 : work_of_loads l' (t_disp r) == 0) by (unfold work_of_loads; rewrite NL; reflexivity). rewrite L0 in X. fold nodes in X. lra.
  - intros i a' z' N' NE. apply (GZ i a' z' N'). intros EQ. injection EQ as -> ->. apply NE. reflexivity.
Qed.
Print Assumptions C127_influence_line.

(** ** Examples *)
Lemma supports_alike : forall nodes l l', filter (fun q => negb (is_load q)) l = filter (fun q => negb (is_load q)) l' -> same_supports nodes l l'.
Proof.
  assert (H : forall nodes l l', filter (fun q => negb (is_load q)) l = filter (fun q => negb (is_load q)) l' -> forall i a, supported nodes l i a -> supported nodes l' i a).
  { intros nodes l l' E i a (q & v & I & S). exists q, v. split; [|exact S]. assert (J : In q (filter (fun q => negb (is_load q)) l)).
    { apply filter_In. split; [exact I|]. unfold is_load. destruct S as [(K & _)|(K & _)]; rewrite K; reflexivity. }
    rewrite E in J. apply filter_In in J. apply J. }
  intros nodes l l' E i a. split; apply H; [exact E|symmetry; exact E].
Qed.

(** decidable form of the hypotheses on the conditions, for given lists *)
Definition placed_b (nodes : list Q) (q : bc) : bool :=
  match first_close nodes (bc_elev q) with Some i => Qeq_bool (nth i nodes 1) (bc_elev q) && (i <? length nodes)%nat | None => false end &&
  forallb (fun a => match get_axis a q with Some v => negb (match bc_kind q with Force => true | _ => false end) || Qeq_bool v (inject_Z (Qfloor v)) | None => true end) [AX; AY; AZ].
Lemma placed_b_ok : forall nodes calls, forallb (placed_b nodes) (run calls []) = true -> well_placed nodes (run calls []).
Proof.
  intros nodes calls T. rewrite forallb_forall in T.
  assert (AN : forall q, In q (run calls []) -> at_node nodes q).
  { intros q I. specialize (T q I). unfold placed_b in T. apply andb_true_iff in T. destruct T as [T _]. destruct (first_close _ _) as [i|] eqn:F; [|discriminate].
    apply andb_true_iff in T. destruct T as [T L]. apply Nat.ltb_lt in L. apply Qeq_bool_iff in T. exists i. destruct (nth_error nodes i) as [z|] eqn:Z; [|apply nth_error_None in Z; lia].
    rewrite (nth_error_nth _ _ 1 Z) in T. exists z. split; [apply first_close_iff; exact F|]. split; [reflexivity|exact T]. }
  split; [exact (C79_calls_are_separate _ _ AN)|]. intros q I _. split; [exact (AN q I)|]. intros K a v V. specialize (T q I). unfold placed_b in T. apply andb_true_iff in T. destruct T as [_ T].
  rewrite forallb_forall in T. specialize (T a ltac:(destruct a; cbn; tauto)). rewrite V, K in T. cbn in T. apply Qeq_bool_iff in T. eexists. exact T.
Qed.
Definition given_b (nodes : list Q) (u v : Q) (l1 l2 l : list bc) : bool :=
  forallb (fun k => forallb (fun z => forallb (fun a => Qeq_bool (given k l z a) (u * given k l1 z a + v * given k l2 z a)) [AX; AY; AZ]) nodes) [Force; Displacement].
Lemma given_b_ok : forall nodes u v l1 l2 l, given_b nodes u v l1 l2 l = true -> forall k z a, k <> Fixation -> In z nodes -> given k l z a == u * given k l1 z a + v * given k l2 z a.
Proof.
  intros nodes u v l1 l2 l T k z a NK I. unfold given_b in T. rewrite forallb_forall in T. specialize (T k ltac:(destruct k; cbn; tauto || congruence)). rewrite forallb_forall in T. specialize (T z I).
  rewrite forallb_forall in T. specialize (T a ltac:(destruct a; cbn; tauto)). apply Qeq_bool_iff in T. exact T.
Qed.

Definition head : call := SetSupport 0 (Some 1) (Some 1) (Some 1).
Definition case1 : list call := [head; SetPointload (-10) (Some 100) None None].
Definition case2 : list call := [head; SetPointload (-4) None None (Some 30)].
Definition case3 : list call := [head; SetPointload (-10) (Some 200) None None; SetPointload (-4) None None (Some (-90))].
Definition ex_pile2 : list section := [mkSection 0 (-4) 1 1 1 1 1 1 1; mkSection (-4) (-10) 1 2 3 1 1 1 1].
Lemma head_holds : forall l, In (mkBC Fixation 0 (Some 1) (Some 1) (Some 1)) l -> holds_pile (nodes_of ex_m) l.
Proof.
  intros l I. assert (SN : forall a, supported (nodes_of ex_m) l 0 a).
  { intros a. exists (mkBC Fixation 0 (Some 1) (Some 1) (Some 1)), 1. split; [exact I|]. left. split; [reflexivity|]. split; [apply first_close_iff; vm_compute; reflexivity|]. split; [destruct a; reflexivity|discriminate]. }
  split; [exists 0%nat; apply SN|]. exists 0%nat. split; [apply SN|]. left. exists 0%nat. apply SN.
Qed.
Lemma case_solved : forall calls, In (mkBC Fixation 0 (Some 1) (Some 1) (Some 1)) (run calls []) -> exists r, beam_tables gauss_solver EulerBernoulli true 210 (3#10) ex_pile2 ex_m (run calls []) = Ok (Some r).
Proof.
  intros calls I. destruct (C78_solved_iff_held gauss_solver EulerBernoulli true 210 (3#10) ex_sections None [] 2 ex_pile2 0 (-10) ex_m (run calls []) gauss_solver_ok ltac:(reflexivity) ltac:(discriminate) ltac:(discriminate) ex_meshed (run_never_conflicts calls)) as [[_ H]|[H _]]; [exact H|].
  exfalso. apply H. apply head_holds. exact I.
Qed.

(** C127 refuted for loads that are not whole numbers of kN and kNm: they are cut to whole numbers (C06), so that twice half a
    kilonewton does what one does not. *)
Definition half_kN : list call := [head; SetPointload (-10) (Some (1#2)) None None].
Definition one_kN : list call := [head; SetPointload (-10) (Some 1) None None].
Theorem C127_fractions_refuted : forall solve, solver_ok solve -> exists r r', let nodes := nodes_of ex_m in
  beam_tables solve EulerBernoulli true 210 (3#10) ex_pile2 ex_m (run half_kN []) = Ok (Some r) /\ beam_tables solve EulerBernoulli true 210 (3#10) ex_pile2 ex_m (run one_kN []) = Ok (Some r') /\
  same_supports nodes (run half_kN []) (run one_kN []) /\
  (forall k z a, k <> Fixation -> In z nodes -> given k (run one_kN []) z a == 2 * given k (run half_kN []) z a + 0 * given k (run half_kN []) z a) /\
  ~ combined 2 0 (t_disp r) (t_disp r) (t_disp r').
Proof.
  intros solve SO. assert (SV : forall calls, In (mkBC Fixation 0 (Some 1) (Some 1) (Some 1)) (run calls []) -> exists r, beam_tables solve EulerBernoulli true 210 (3#10) ex_pile2 ex_m (run calls []) = Ok (Some r)).
  { intros calls I. destruct (C78_solved_iff_held solve EulerBernoulli true 210 (3#10) ex_sections None [] 2 ex_pile2 0 (-10) ex_m (run calls []) SO ltac:(reflexivity) ltac:(discriminate) ltac:(discriminate) ex_meshed (run_never_conflicts calls)) as [[_ H]|[H _]]; [exact H|].
    exfalso. apply H. apply head_holds. exact I. }
  destruct (SV half_kN ltac:(left; reflexivity)) as (r & B). destruct (SV one_kN ltac:(left; reflexivity)) as (r' & B'). exists r, r'. intros nodes.
  split; [exact B|]. split; [exact B'|]. split; [apply supports_alike; reflexivity|]. split; [apply given_b_ok; vm_compute; reflexivity|]. intros C.
  destruct (system solve EulerBernoulli true 210 (3#10) ex_sections None [] 2 ex_pile2 0 (-10) ex_m SO ltac:(reflexivity) ltac:(discriminate) ltac:(discriminate) ex_meshed _ r B) as (tf & td & tr & F & D & R & EF & ED & S1 & T1 & _).
  destruct (system solve EulerBernoulli true 210 (3#10) ex_sections None [] 2 ex_pile2 0 (-10) ex_m SO ltac:(reflexivity) ltac:(discriminate) ltac:(discriminate) ex_meshed _ r' B') as (tf' & td' & tr' & F' & D' & R' & EF' & ED' & S2 & T2 & _).
  destruct (solve_equations_sound _ _ _ _ _ _ _ _ SO S1) as (A1 & Q1 & U1). destruct (solve_equations_sound _ _ _ _ _ _ _ _ SO S2) as (A2 & Q2 & _).
  assert (NN : (3 * length (elements_of ex_m) + 3 = 18)%nat) by (vm_compute; reflexivity).
  assert (ST := proj1 (solve_equations_succeeds solve _ _ _ _ _ SO) (ex_intro _ _ S1)).
  set (Kp := jit_build (length (elements_of ex_m)) (pile_k EulerBernoulli true 210 (3#10) ex_pile2 ex_m)) in *. clearbody Kp. rewrite NN in *.
  assert (Z : forall i, (i < 18)%nat -> dof_vector tf i == 0 /\ dof_vector td i == 0).
  { rewrite EF, ED. intros i Hi. assert (T : forallb (fun i => Qeq_bool (dof_vector (apply_bc int_cast (nodes_of ex_m) Force (run half_kN []) (zeros (nodes_of ex_m))) i) 0 && Qeq_bool (dof_vector (apply_bc (fun q => q) (nodes_of ex_m) Displacement (run half_kN []) (zeros (nodes_of ex_m))) i) 0) (seq 0 18) = true) by (vm_compute; reflexivity).
    rewrite forallb_forall in T. specialize (T i ltac:(apply in_seq; lia)). apply andb_true_iff in T. destruct T as [TA TB]. apply Qeq_bool_iff in TA. apply Qeq_bool_iff in TB. auto. }
  assert (D0 : forall i, (i < 18)%nat -> t_d r i == 0).
  { apply ST; [intros i Hi H; rewrite (U1 i Hi H); apply Z; exact Hi|]. intros i Hi H. rewrite (A1 i Hi), (Q1 i Hi H). destruct (Z i Hi) as [-> _]. ring. }
  assert (D2 : forall i, (i < 18)%nat -> t_d r' i == 0).
  { rewrite T1, T2 in C. destruct C as (_ & _ & C). rewrite <- NN.
    apply (each_dof ex_sections None [] 2 ex_pile2 0 (-10) ex_m ex_meshed (fun i => t_d r' i == 0)). intros j a z NZ.
    destruct (C j _ _ _ (disp_rows_nth _ _ _ _ NZ) (disp_rows_nth _ _ _ _ NZ) (disp_rows_nth _ _ _ _ NZ)) as (_ & _ & X). specialize (X a). cbn [snd] in X. rewrite !part_dof in X. rewrite X.
    assert (L : (j < length (nodes_of ex_m))%nat) by (apply nth_error_Some; congruence). assert (LN : length (nodes_of ex_m) = 6%nat) by (vm_compute; reflexivity).
    assert (BJ : (dof j a < 18)%nat) by (destruct a; unfold dof; lia). rewrite (D0 _ BJ). ring. }
  assert (X : mulv 18 Kp (t_d r') 16%nat == 0) by (unfold mulv; apply sum_zero; intros i Hi; rewrite (D2 i Hi); ring).
  assert (NS : supports_of (dof_flags tr') (dof_vector td') 16%nat = false).
  { unfold global_restrained in R'. rewrite run_never_conflicts in R'. cbn [bind] in R'. injection R' as <-. rewrite ED'. vm_compute. reflexivity. }
  rewrite (A2 16%nat ltac:(lia)), (Q2 16%nat ltac:(lia) NS), EF' in X.
  assert (FY : dof_vector (apply_bc int_cast (nodes_of ex_m) Force (run one_kN []) (zeros (nodes_of ex_m))) 16%nat == 1) by (vm_compute; reflexivity). rewrite FY in X. lra.
Qed.
Print Assumptions C127_fractions_refuted.

(** A fixed-head pile: twice one load less three times another *)
Example C127_example : exists r1 r2 r, beam_tables gauss_solver EulerBernoulli true 210 (3#10) ex_pile2 ex_m (run case1 []) = Ok (Some r1) /\ beam_tables gauss_solver EulerBernoulli true 210 (3#10) ex_pile2 ex_m (run case2 []) = Ok (Some r2) /\
  beam_tables gauss_solver EulerBernoulli true 210 (3#10) ex_pile2 ex_m (run case3 []) = Ok (Some r) /\ combined 2 (-3) (t_disp r1) (t_disp r2) (t_disp r) /\
  100 * part AY (row_at (t_disp r2) (-10)) == 30 * part AX (row_at (t_disp r1) (-4)).
Proof.
  destruct (case_solved case1 ltac:(left; reflexivity)) as (r1 & B1). destruct (case_solved case2 ltac:(left; reflexivity)) as (r2 & B2).
  assert (W1 : well_placed (nodes_of ex_m) (run case1 [])) by (apply placed_b_ok; vm_compute; reflexivity). assert (W2 : well_placed (nodes_of ex_m) (run case2 [])) by (apply placed_b_ok; vm_compute; reflexivity).
  assert (W : well_placed (nodes_of ex_m) (run case3 [])) by (apply placed_b_ok; vm_compute; reflexivity).
  assert (S1 : same_supports (nodes_of ex_m) (run case1 []) (run case3 [])) by (apply supports_alike; reflexivity). assert (S2 : same_supports (nodes_of ex_m) (run case2 []) (run case3 [])) by (apply supports_alike; reflexivity).
  assert (S12 : same_supports (nodes_of ex_m) (run case1 []) (run case2 [])) by (apply supports_alike; reflexivity).
  destruct (C127_superposition gauss_solver EulerBernoulli true 210 (3#10) ex_sections None [] 2 ex_pile2 0 (-10) ex_m _ _ _ 2 (-3) r1 r2 gauss_solver_ok ltac:(reflexivity) ltac:(discriminate) ltac:(discriminate) ex_meshed W1 W2 W S1 S2
    (run_never_conflicts _) (run_never_conflicts _) ltac:(apply given_b_ok; vm_compute; reflexivity) B1 B2) as (r & B & C & _).
  exists r1, r2, r. split; [exact B1|]. split; [exact B2|]. split; [exact B|]. split; [exact C|].
  destruct (C127_reciprocity gauss_solver EulerBernoulli true 210 (3#10) ex_sections None [] 2 ex_pile2 0 (-10) ex_m (run case1 []) (run case2 []) r1 r2 gauss_solver_ok ltac:(reflexivity) ltac:(discriminate) ltac:(discriminate) ex_meshed W1 W2 S12) as [_ R]; auto;
    try (intros; reflexivity).
  apply (R (mkBC Force (-10) None (Some 100) None) (mkBC Force (-4) (Some 30) None None) AY AX); try reflexivity; intros d ND; destruct d; try reflexivity; congruence.
Qed.

(** The head, whose support is moved by a millimetre, of the same pile *)
Definition moved : list call := [head; SetPointdisplacement 0 (Some (1#1000)) None None].
Example C127_influence_example : exists r r', beam_tables gauss_solver EulerBernoulli true 210 (3#10) ex_pile2 ex_m (run case1 []) = Ok (Some r) /\ beam_tables gauss_solver EulerBernoulli true 210 (3#10) ex_pile2 ex_m (run moved []) = Ok (Some r') /\
  (1#1000) * part AY (row_at (disp_rows (nodes_of ex_m) (t_Q r)) 0) == - work_of_loads (run case1 []) (t_disp r').
Proof.
  destruct (case_solved case1 ltac:(left; reflexivity)) as (r & B). destruct (case_solved moved ltac:(left; reflexivity)) as (r' & B').
  assert (W : well_placed (nodes_of ex_m) (run case1 [])) by (apply placed_b_ok; vm_compute; reflexivity). assert (W' : well_placed (nodes_of ex_m) (run moved [])) by (apply placed_b_ok; vm_compute; reflexivity).
  exists r, r'. split; [exact B|]. split; [exact B'|].
  assert (H0 : forall a l, In (mkBC Fixation 0 (Some 1) (Some 1) (Some 1)) l -> supported (nodes_of ex_m) l 0 a).
  { intros a l I. exists (mkBC Fixation 0 (Some 1) (Some 1) (Some 1)), 1. split; [exact I|]. left. split; [reflexivity|]. split; [apply first_close_iff; vm_compute; reflexivity|]. split; [destruct a; reflexivity|discriminate]. }
  assert (M0 : forall i, maps_to (nodes_of ex_m) 0 i -> i = 0%nat) by (intros i M; apply first_close_iff in M; vm_compute in M; congruence).
  assert (SS : same_supports (nodes_of ex_m) (run case1 []) (run moved [])).
  { intros i a. split; intros (q & v & I & S).
    - destruct I as [<-|[<-|[]]]; [|destruct S as [(K & _)|(K & _)]; discriminate K]. exists (mkBC Fixation 0 (Some 1) (Some 1) (Some 1)), v. split; [left; reflexivity|exact S].
    - assert (i = 0%nat). { destruct I as [<-|[<-|[]]]; destruct S as [(_ & M & _)|(_ & M & _)]; apply M0; exact M. } subst i. apply H0. left. reflexivity. }
  set (z0 := nth 0 (nodes_of ex_m) 1). assert (Z0 : 0 == z0) by (vm_compute; reflexivity). rewrite (row_at_comp _ 0 z0 Z0).
  apply (C127_influence_line gauss_solver EulerBernoulli true 210 (3#10) ex_sections None [] 2 ex_pile2 0 (-10) ex_m (run case1 []) (run moved []) r r' 0 AY z0 (1#1000) gauss_solver_ok ltac:(reflexivity) ltac:(discriminate) ltac:(discriminate) ex_meshed W W' SS); auto.
  - apply H0. left. reflexivity.
  - intros; reflexivity.
  - intros i a' z' NZ NE. destruct i as [|i].
    + destruct a'; [vm_compute in NZ; injection NZ as <-; reflexivity|congruence|vm_compute in NZ; injection NZ as <-; reflexivity].
    + assert (X : ~ 0 == z'). { assert (T : forallb (fun z => negb (Qeq_bool 0 z)) (tl (nodes_of ex_m)) = true) by (vm_compute; reflexivity). rewrite forallb_forall in T. assert (I : In z' (tl (nodes_of ex_m))) by (eapply nth_error_In; exact NZ). specialize (T z' I). apply negb_true_iff, Qeq_bool_neq in T. exact T. }
      unfold given. cbn [run fold_left]. match goal with |- context [filter ?f ?l] => assert (FE : filter f l = []) end.
      { cbn. destruct (Qeq_bool 0 z') eqn:Z; [apply Qeq_bool_iff in Z; contradiction|reflexivity]. }
      rewrite FE. reflexivity.
Qed.
