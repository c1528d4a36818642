(** Superposition, reciprocity and influence lines of a user's model. *)
From Coq Require Import List Bool Arith ZArith QArith Qabs Lia Lqa Permutation.
From Verif Require Import Base LinAlg PileModel PileSpec PileProofs MeshModel MeshSpec MeshProofs StressModel StressSpec StressProofs WeightProofs
  BeamModel BeamSpec BeamProofs SolveModel SolveSpec SolveProofs ForceProofs SpringModel BalanceProofs BCModel BCSpec BCProofs CreateModel WholeModel WholeSpec WholeProofs StiffProofs RecipSpec.
Import ListNotations.
Local Open Scope Q_scope.

(** ** Tables *)
Definition apart_nodes (nodes : list Q) : Prop := forall i j x y, (i < j)%nat -> nth_error nodes i = Some x -> nth_error nodes j = Some y -> y < x.

Lemma row_at_comp : forall T x y, x == y -> row_at T x = row_at T y.
Proof.
  intros T x y E. unfold row_at. induction T as [|r T IH]; [reflexivity|]. cbn [find].
  assert (B : Qeq_bool (fst r) x = Qeq_bool (fst r) y) by (apply eq_true_iff_eq; rewrite !Qeq_bool_iff, E; tauto). rewrite B. destruct (Qeq_bool _ y); [reflexivity|exact IH].
Qed.
Lemma row_at_nth : forall T i z t, (forall j z' t', nth_error T j = Some (z', t') -> z' == z -> j = i) -> nth_error T i = Some (z, t) -> row_at T z = t.
Proof.
  intros T. induction T as [|r T IH]; intros i z t H E; [destruct i; discriminate|]. unfold row_at. cbn [find]. destruct (Qeq_bool (fst r) z) eqn:B.
  - apply Qeq_bool_iff in B. destruct r as [z' t']. pose proof (H 0%nat z' t' eq_refl B) as X. subst i. cbn in E. injection E as <- <-. reflexivity.
  - destruct i as [|i]; [cbn in E; injection E as ->; cbn [fst] in B; apply Qeq_bool_neq in B; exfalso; apply B; reflexivity|].
    apply (IH i); [|exact E]. intros j z' t' N X. specialize (H (S j) z' t' N X). lia.
Qed.
Lemma row_at_disp : forall nodes u i z, apart_nodes nodes -> nth_error nodes i = Some z -> row_at (disp_rows nodes u) z = (u (3 * i)%nat, u (3 * i + 1)%nat, u (3 * i + 2)%nat).
Proof.
  intros nodes u i z A N. apply (row_at_nth _ i); [|apply disp_rows_nth; exact N]. intros j z' t' E X.
  assert (L : (j < length nodes)%nat).
  { assert (L : nth_error (disp_rows nodes u) j <> None) by congruence. apply nth_error_Some in L. unfold disp_rows, node_rows in L. rewrite combine_length, map_length, seq_length in L. lia. }
  destruct (nth_error nodes j) as [y|] eqn:Y; [|apply nth_error_None in Y; lia]. rewrite (disp_rows_nth nodes u j y Y) in E. injection E as <- _.
  destruct (Nat.lt_trichotomy j i) as [C|[C|C]]; [|exact C|]; exfalso; [pose proof (A j i y z C Y N)|pose proof (A i j z y C N Y)]; lra.
Qed.
Lemma part_dof : forall u i a, part a (u (3 * i)%nat, u (3 * i + 1)%nat, u (3 * i + 2)%nat) = u (dof i a).
Proof. intros u i []; reflexivity. Qed.

Lemma some_inj : forall (A : Type) (u v : A), Some u = Some v -> u = v. Proof. congruence. Qed.
Lemma combined_disp : forall x y nodes u1 u2 u, (forall i, (i < 3 * length nodes)%nat -> u i == x * u1 i + y * u2 i) -> combined x y (disp_rows nodes u1) (disp_rows nodes u2) (disp_rows nodes u).
Proof.
  intros x y nodes u1 u2 u H. assert (L : forall v, length (disp_rows nodes v) = length nodes) by (intros v; unfold disp_rows, node_rows; rewrite combine_length, map_length, seq_length; lia).
  split; [rewrite !L; reflexivity|]. split; [rewrite !L; reflexivity|]. intros i r r1 r2 E E1 E2.
  assert (B : (i < length nodes)%nat) by (rewrite <- (L u); apply nth_error_Some; congruence).
  destruct (nth_error nodes i) as [z|] eqn:N; [|apply nth_error_None in N; lia]. rewrite (disp_rows_nth _ u _ _ N) in E. rewrite (disp_rows_nth _ u1 _ _ N) in E1. rewrite (disp_rows_nth _ u2 _ _ N) in E2. apply some_inj in E. apply some_inj in E1. apply some_inj in E2. subst r r1 r2.
  cbn [fst snd]. split; [reflexivity|]. split; [reflexivity|]. intros a. rewrite !part_dof. apply H. destruct a; cbn; lia.
Qed.

(** internal forces *)
Lemma combined_rows : forall x y zs ls (q1 q2 q : list vec), length q = length q1 -> length q = length q2 ->
  (forall e i, (e < length q)%nat -> nth e q (fun _ => 0) i == x * nth e q1 (fun _ => 0) i + y * nth e q2 (fun _ => 0) i) ->
  combined x y (structural_forces zs q1 ls) (structural_forces zs q2 ls) (structural_forces zs q ls).
Proof.
  intros x y zs ls q1 q2 q L1 L2 H. unfold structural_forces. generalize (repeat_inner zs). intros zz.
  revert zz ls q1 q2 L1 L2 H. induction q as [|v q IH]; intros zz ls q1 q2 L1 L2 H; destruct q1 as [|v1 q1], q2 as [|v2 q2]; try discriminate.
  - cbn [combine flat_map]. destruct zz; cbn; repeat split; try reflexivity; destruct i; discriminate.
  - destruct ls as [|le ls]; [cbn [combine flat_map]; destruct zz; cbn; repeat split; try reflexivity; destruct i; discriminate|].
    cbn [combine flat_map fst snd]. unfold force_rows at 1 3 5. cbn [app].
    assert (HV : forall i, v i == x * v1 i + y * v2 i) by (intros i; apply (H 0%nat i); cbn; lia).
    assert (HQ : forall zz, combined x y (combine zz (flat_map (fun ql => force_rows (fst ql) (snd ql)) (combine q1 ls))) (combine zz (flat_map (fun ql => force_rows (fst ql) (snd ql)) (combine q2 ls))) (combine zz (flat_map (fun ql => force_rows (fst ql) (snd ql)) (combine q ls)))).
    { intros z0. apply IH; [cbn in L1; lia|cbn in L2; lia|]. intros e i He. apply (H (S e) i). cbn. lia. }
    assert (CC : forall z t t1 t2 T1 T2 T, (forall a, part a t == x * part a t1 + y * part a t2) -> combined x y T1 T2 T -> combined x y ((z, t1) :: T1) ((z, t2) :: T2) ((z, t) :: T)).
    { intros z t t1 t2 T1 T2 T A (B1 & B2 & B3). split; [cbn; lia|]. split; [cbn; lia|]. intros [|i] r r1 r2 E E1 E2; cbn in E, E1, E2; [|apply (B3 i); auto].
      injection E as <-. injection E1 as <-. injection E2 as <-. cbn. auto. }
    destruct zz as [|z1 zz]; [cbn; repeat split; try reflexivity; destruct i; discriminate|]. cbn [combine]. apply CC.
    { intros []; cbn [part fst snd]; rewrite HV; ring. }
    destruct zz as [|z2 zz]; [cbn; repeat split; try reflexivity; destruct i; discriminate|]. cbn [combine]. apply CC.
    { intros []; cbn [part fst snd]; rewrite !HV; ring. }
    apply HQ.
Qed.

(** ** Columns *)
Lemma filter_given : forall k z l, filter (fun b => kind_eqb (bc_kind b) k && Qeq_bool (bc_elev b) z)%bool l = filter (fun b => Qeq_bool (bc_elev b) z) (filter (fun b => kind_eqb (bc_kind b) k) l).
Proof. intros k z l. induction l as [|b l IH]; [reflexivity|]. cbn [filter]. destruct (kind_eqb (bc_kind b) k) eqn:K; cbn [andb filter]; rewrite IH; reflexivity. Qed.

Lemma contribution : forall cast nodes k a b w g, at_node nodes b -> bc_kind b = k -> (forall q, get_axis a b = Some q -> cast q == q) ->
  (forall i z, nth_error nodes i = Some z -> w i == g z) -> (forall x y, x == y -> g x == g y) -> bc_contribution cast nodes k a w b == g (bc_elev b) * component_of a b.
Proof.
  intros cast nodes k a b w g (i & z & M & N & E) K C HW HG. unfold bc_contribution, component_of. rewrite K. assert (KK : kind_eqb k k = true) by (destruct k; reflexivity). rewrite KK.
  apply first_close_iff in M. rewrite M. destruct (get_axis a b) as [q|] eqn:A; cbn [truthy]; [|ring].
  destruct (Qeq_bool q 0) eqn:Z; [apply Qeqb_true in Z; rewrite Z; ring|]. rewrite (C q eq_refl), (HW i z N), (HG z _ E). reflexivity.
Qed.

Lemma column_of : forall cast nodes k a l w g, separate nodes l -> (forall b, In b l -> bc_kind b = k -> at_node nodes b /\ forall q, get_axis a b = Some q -> cast q == q) ->
  (forall i z, nth_error nodes i = Some z -> w i == g z) -> (forall x y, x == y -> g x == g y) ->
  wsum w (col a (apply_bc cast nodes k l (zeros nodes))) == Qsum (map (fun b => g (bc_elev b) * component_of a b) (filter (fun b => kind_eqb (bc_kind b) k) l)).
Proof.
  intros cast nodes k a l w g S H HW HG. rewrite column_total by exact S. clear S. induction l as [|b l IH]; [reflexivity|].
  cbn [map filter]. rewrite Qsum_cons, IH by (intros; apply H; [right|]; auto). destruct (kind_eqb (bc_kind b) k) eqn:K.
  - cbn [map]. rewrite Qsum_cons. apply kind_eqb_eq in K. destruct (H b (or_introl eq_refl) K) as [A C]. rewrite (contribution cast nodes k a b w g A K C HW HG). reflexivity.
  - unfold bc_contribution at 1. rewrite K. ring.
Qed.

Lemma given_column : forall cast nodes k a l i z, apart_nodes nodes -> separate nodes l -> (forall b, In b l -> bc_kind b = k -> at_node nodes b /\ forall q, get_axis a b = Some q -> cast q == q) ->
  nth_error nodes i = Some z -> nth i (col a (apply_bc cast nodes k l (zeros nodes))) 0 == given k l z a.
Proof.
  intros cast nodes k a l i z AP S H N.
  set (w := fun j => if Nat.eqb j i then 1 else 0). set (g := fun y => if Qeq_bool y z then 1 else 0).
  assert (LN : length (col a (apply_bc cast nodes k l (zeros nodes))) = length nodes) by (rewrite apply_bc_col_length, zeros_col, map_length; reflexivity).
  assert (BI : (i < length nodes)%nat) by (apply nth_error_Some; congruence).
  assert (W : wsum w (col a (apply_bc cast nodes k l (zeros nodes))) == nth i (col a (apply_bc cast nodes k l (zeros nodes))) 0).
  { unfold wsum. rewrite LN. rewrite <- (sum_delta (length nodes) i (fun j => nth j (col a (apply_bc cast nodes k l (zeros nodes))) 0) BI). apply sum_ext. intros j Hj. unfold w. destruct (Nat.eqb j i); ring. }
  rewrite <- W. rewrite (column_of cast nodes k a l w g S H).
  - unfold given. rewrite filter_given. generalize (filter (fun b => kind_eqb (bc_kind b) k) l). intros L. induction L as [|b L IH]; [reflexivity|].
    cbn [map filter]. rewrite Qsum_cons, IH. unfold g. destruct (Qeq_bool (bc_elev b) z); cbn [map]; [rewrite Qsum_cons|]; ring.
  - intros j y Y. unfold w, g. destruct (Nat.eqb j i) eqn:E.
    + apply Nat.eqb_eq in E. subst j. assert (y = z) by congruence. subst y. assert (B : Qeq_bool z z = true) by (apply Qeq_bool_iff; reflexivity). rewrite B. reflexivity.
    + destruct (Qeq_bool y z) eqn:B; [|reflexivity]. apply Qeq_bool_iff in B. apply Nat.eqb_neq in E. exfalso. destruct (Nat.lt_trichotomy j i) as [C|[C|C]]; [|contradiction|]; [pose proof (AP j i y z C Y N)|pose proof (AP i j z y C N Y)]; lra.
  - intros u v E. unfold g. assert (B : Qeq_bool u z = Qeq_bool v z) by (apply eq_true_iff_eq; rewrite !Qeq_bool_iff, E; tauto). rewrite B. reflexivity.
Qed.

(** ** Analyses of one pile *)
Section Pile.
Variables (solve : solver) (ty : elem_type) (circ : bool) (E nu : Q) (sections : list section) (s : option (list layer)) (x : list Q) (c : Q) (p : list section) (t b : Q) (m : list Q).
Hypothesis SO : solver_ok solve.
Hypothesis PE : 0 < E.
Hypothesis PN : -(3#4) <= nu.
Hypothesis HT : ty = Timoshenko -> circ = true.
Hypothesis MS : meshed sections s x c p t b m.
Let elems := elements_of m.
Let nodes := nodes_of m.
Let n := length elems.
Let N := (3 * n + 3)%nat.

Lemma sections_of : forall e y, nth_error elems e = Some y -> snd y < fst y /\
  exists q, 0 < s_inertia q /\ 0 < s_area q /\ 0 < s_width q /\ forall f, elem_value f p elems e = Some (f q).
Proof using MS. intros e y H. destruct (meshed_sections _ _ _ _ _ _ _ _ MS e y H) as [A (q & _ & _ & B)]. split; [exact A|]. exists q. exact B. Qed.

Lemma nodes_count : length nodes = S n.
Proof using MS. apply nodes_elems_count. exact (proj1 (meshed_nonempty _ _ _ _ _ _ _ _ MS)). Qed.
Lemma dofs_count : (3 * length nodes = N)%nat. Proof using MS. rewrite nodes_count. unfold N. lia. Qed.

Lemma nodes_apart : apart_nodes nodes.
Proof using MS.
  assert (ST : forall e, (e < n)%nat -> nth (S e) nodes 0 < nth e nodes 0).
  { intros e He. destruct (elem_z p m sections_of e He) as (_ & _ & A). unfold nodes. lra. }
  assert (D : forall k i, (S i + k < length nodes)%nat -> nth (S i + k) nodes 0 < nth i nodes 0).
  { induction k as [|k IH]; intros i Hi.
    - rewrite Nat.add_0_r in *. apply ST. rewrite nodes_count in Hi. lia.
    - assert (A : nth (S (S i + k)) nodes 0 < nth (S i + k) nodes 0) by (apply ST; rewrite nodes_count in Hi; lia). pose proof (IH i ltac:(lia)). replace (S i + S k)%nat with (S (S i + k)) by lia. lra. }
  intros i j u v L X Y. assert (B : (j < length nodes)%nat) by (apply nth_error_Some; congruence). pose proof (D (j - S i)%nat i ltac:(lia)) as Z. replace (S i + (j - S i))%nat with j in Z by lia.
  rewrite (nth_error_nth _ _ 0 X), (nth_error_nth _ _ 0 Y) in Z. exact Z.
Qed.

Definition pile_ks : list mat := match elem_matrices ty circ E nu p elems with Ok (Some ks) => ks | _ => [] end.
Definition pile_k : nat -> mat := fun e => nth e pile_ks no_mat.
Notation K := (jit_build n pile_k).

Lemma pile_symmetric : symmetric N K.
Proof using MS HT PE PN.
  destruct (matrices_exist ty circ E nu p m sections_of HT) as [ks H]. apply build_symmetric. intros e He.
  destruct (matrices_ok ty circ E nu p m sections_of HT ks H) as (J & A & d & wt & X). destruct (X e He) as (X1 & X2 & X3 & X4 & X5).
  unfold pile_k, pile_ks. fold elems in H. rewrite H. apply Qlt_minus_iff in X4.
  destruct (proj1 (mech_element_ok _ _ _ _ _ _ _ _ _ _ PE PN X1 X2 X3 X4 X5)) as (SY & _). exact SY.
Qed.

Lemma system : forall l r, beam_tables solve ty circ E nu p m l = Ok (Some r) -> exists tf td tr,
  global_forces nodes l = Ok tf /\ global_disp nodes l = Ok td /\ global_restrained nodes l = Ok tr /\
  tf = apply_bc int_cast nodes Force l (zeros nodes) /\ td = apply_bc (fun q => q) nodes Displacement l (zeros nodes) /\
  solve_equations solve N K (dof_vector tf) (dof_vector td) (supports_of (dof_flags tr) (dof_vector td)) = Some (t_d r, t_Q r) /\
  t_disp r = disp_rows nodes (t_d r) /\ t_forces r = structural_forces nodes (pile_internal_forces (S n) pile_k (t_d r)) (map (elem_length elems) (seq 0 n)).
Proof using All.
  intros l r H. unfold beam_tables in H. fold nodes elems in H. destruct (global_forces nodes l) as [tf|] eqn:F; cbn [bind] in H; [|discriminate]. destruct (global_disp nodes l) as [td|] eqn:D; cbn [bind] in H; [|discriminate].
  destruct (global_restrained nodes l) as [tr|] eqn:R; cbn [bind] in H; [|discriminate].
  destruct (elem_matrices ty circ E nu p elems) as [[ks|]|] eqn:M; cbn [bind] in H; try discriminate.
  assert (KS : pile_ks = ks) by (unfold pile_ks; rewrite M; reflexivity).
  exists tf, td, tr. split; [reflexivity|]. split; [reflexivity|]. split; [reflexivity|].
  split; [unfold global_forces in F; destruct (validate_bc l Force); cbn [bind] in F; [injection F as <-; reflexivity|discriminate]|].
  split; [unfold global_disp in D; destruct (validate_bc l Displacement); cbn [bind] in D; [injection D as <-; reflexivity|discriminate]|].
  change (fun e => nth e ks no_mat) with (fun e => nth e ks no_mat) in H. unfold pile_k. rewrite KS. unfold beam in H. fold n N in H.
  destruct (solve_equations _ _ _ _ _ _) as [[d Q]|]; cbn [option_map] in H; [|discriminate]. injection H as <-. cbn. auto.
Qed.

Lemma each_dof : forall (P : nat -> Prop), (forall j a z, nth_error nodes j = Some z -> P (dof j a)) -> forall i, (i < N)%nat -> P i.
Proof using MS.
  intros P H i Hi. pose proof (Nat.div_mod i 3 ltac:(lia)) as DM. pose proof (Nat.mod_upper_bound i 3 ltac:(lia)) as UB. rewrite <- dofs_count in Hi.
  assert (LT : (i / 3 < length nodes)%nat) by (apply Nat.div_lt_upper_bound; lia). destruct (nth_error nodes (i / 3)) as [z|] eqn:Z; [|apply nth_error_None in Z; lia].
  destruct (i mod 3) as [|[|[|r]]] eqn:M; [| | |lia]; [pose proof (H _ AZ z Z) as X|pose proof (H _ AY z Z) as X|pose proof (H _ AX z Z) as X]; unfold dof in X; match type of X with P ?k => replace i with k by lia; exact X end.
Qed.

Lemma flags_of : forall l l' td tr td' tr', global_disp nodes l = Ok td -> global_restrained nodes l = Ok tr -> global_disp nodes l' = Ok td' -> global_restrained nodes l' = Ok tr' ->
  same_supports nodes l l' -> forall i, (i < N)%nat -> supports_of (dof_flags tr) (dof_vector td) i = supports_of (dof_flags tr') (dof_vector td') i.
Proof using MS.
  intros l l' td tr td' tr' D R D' R' SS. apply each_dof. intros j a z Z. assert (Hj : (j < length nodes)%nat) by (apply nth_error_Some; congruence).
  apply eq_true_iff_eq. rewrite (support_flags nodes l td tr j a Hj D R), (support_flags nodes l' td' tr' j a Hj D' R'). apply SS.
Qed.

Lemma forces_given : forall l i a z, well_placed nodes l -> nth_error nodes i = Some z -> nth i (col a (apply_bc int_cast nodes Force l (zeros nodes))) 0 == given Force l z a.
Proof using MS.
  intros l i a z [S W] NZ. apply given_column; auto; [exact nodes_apart|]. intros q I Q. destruct (W q I) as [A B]; [congruence|]. split; [exact A|].
  intros v V. destruct (B Q a v V) as [k Hk]. exact (int_cast_whole v k Hk).
Qed.
Lemma displacements_given : forall l i a z, well_placed nodes l -> nth_error nodes i = Some z -> nth i (col a (apply_bc (fun q => q) nodes Displacement l (zeros nodes))) 0 == given Displacement l z a.
Proof using MS.
  intros l i a z [S W] NZ. apply given_column; auto; [exact nodes_apart|]. intros q I Q. destruct (W q I) as [A B]; [congruence|]. split; [exact A|]. intros; reflexivity.
Qed.

(** *** Superposition *)
Lemma superposed : forall l1 l2 l u v r1 r2 r, well_placed nodes l1 -> well_placed nodes l2 -> well_placed nodes l -> same_supports nodes l1 l -> same_supports nodes l2 l ->
  (forall k z a, k <> Fixation -> In z nodes -> given k l z a == u * given k l1 z a + v * given k l2 z a) ->
  beam_tables solve ty circ E nu p m l1 = Ok (Some r1) -> beam_tables solve ty circ E nu p m l2 = Ok (Some r2) -> beam_tables solve ty circ E nu p m l = Ok (Some r) ->
  combined u v (t_disp r1) (t_disp r2) (t_disp r) /\ combined u v (t_forces r1) (t_forces r2) (t_forces r) /\ combined u v (disp_rows nodes (t_Q r1)) (disp_rows nodes (t_Q r2)) (disp_rows nodes (t_Q r)).
Proof using All.
  intros l1 l2 l u v r1 r2 r W1 W2 W S1 S2 GV B1 B2 B.
  destruct (system l1 r1 B1) as (tf1 & td1 & tr1 & F1 & D1 & R1 & EF1 & ED1 & Q1 & T1 & I1).
  destruct (system l2 r2 B2) as (tf2 & td2 & tr2 & F2 & D2 & R2 & EF2 & ED2 & Q2 & T2 & I2).
  destruct (system l r B) as (tf & td & tr & F & D & R & EF & ED & Q0 & T & I0).
  pose proof (flags_of l1 l td1 tr1 td tr D1 R1 D R S1) as G1. pose proof (flags_of l2 l td2 tr2 td tr D2 R2 D R S2) as G2.
  assert (ST : stable N K (supports_of (dof_flags tr) (dof_vector td))) by (apply (solve_equations_succeeds solve N K (dof_vector tf) (dof_vector td) _ SO); eauto).
  destruct (solve_equations_sound _ _ _ _ _ _ _ _ SO Q1) as (A1 & C1 & E1). destruct (solve_equations_sound _ _ _ _ _ _ _ _ SO Q2) as (A2 & C2 & E2). destruct (solve_equations_sound _ _ _ _ _ _ _ _ SO Q0) as (A0 & C0 & E0).
  assert (FF : forall i, (i < N)%nat -> dof_vector tf i == u * dof_vector tf1 i + v * dof_vector tf2 i).
  { apply each_dof. intros j a z Z. rewrite !dof_col, EF, EF1, EF2. rewrite !(forces_given _ j a z) by auto. apply GV; [discriminate|eapply nth_error_In; eauto]. }
  assert (DD : forall i, (i < N)%nat -> dof_vector td i == u * dof_vector td1 i + v * dof_vector td2 i).
  { apply each_dof. intros j a z Z. rewrite !dof_col, ED, ED1, ED2. rewrite !(displacements_given _ j a z) by auto. apply GV; [discriminate|eapply nth_error_In; eauto]. }
  destruct (solution_unique N K (dof_vector tf) (supports_of (dof_flags tr) (dof_vector td)) (t_d r) (t_Q r) (fun i => u * t_d r1 i + v * t_d r2 i) (fun i => u * t_Q r1 i + v * t_Q r2 i) ST) as [UD UQ].
  - exact A0.
  - intros i Hi. rewrite (FF i Hi). transitivity (u * mulv N K (t_d r1) i + v * mulv N K (t_d r2) i); [|rewrite (A1 i Hi), (A2 i Hi); ring].
    unfold mulv. rewrite <- !sum_scale, <- sum_plus. apply sum_ext. intros; ring.
  - exact C0.
  - intros i Hi X. rewrite (C1 i Hi), (C2 i Hi) by (rewrite ?G1, ?G2; auto). ring.
  - intros i Hi X. rewrite (E0 i Hi X), (E1 i Hi), (E2 i Hi) by (rewrite ?G1, ?G2; auto). apply DD. exact Hi.
  - rewrite T, T1, T2, I0, I1, I2. assert (N1 : (1 <= n)%nat) by exact (proj2 (meshed_nonempty _ _ _ _ _ _ _ _ MS)). split; [|split].
    + apply combined_disp. intros i Hi. apply UD. rewrite <- dofs_count. exact Hi.
    + assert (LQ : forall w, length (pile_internal_forces (S n) pile_k w) = n) by (intros w; apply internal_forces_elements; exact N1).
      apply combined_rows; [rewrite !LQ; reflexivity|rewrite !LQ; reflexivity|]. intros e i He. rewrite LQ in He. apply forces_linear; auto.
    + apply combined_disp. intros i Hi. apply UQ. rewrite <- dofs_count. exact Hi.
Qed.

(** *** Reciprocity *)
Lemma loads_work : forall l d, well_placed nodes l -> dot N (dof_vector (apply_bc int_cast nodes Force l (zeros nodes))) d == work_of_loads l (disp_rows nodes d).
Proof using MS.
  intros l d [S W]. set (tf := apply_bc int_cast nodes Force l (zeros nodes)). unfold dot, N. rewrite sum3. rewrite <- nodes_count.
  assert (TW : forall a, sum (length nodes) (fun i => d (dof i a) * nth i (col a tf) 0) == Qsum (map (fun q => part a (row_at (disp_rows nodes d) (bc_elev q)) * component_of a q) (loads l))).
  { intros a. assert (LC : length (col a tf) = length nodes) by (unfold tf; rewrite apply_bc_col_length, zeros_col, map_length; reflexivity).
    rewrite <- LC. change (sum (length (col a tf)) (fun i => d (dof i a) * nth i (col a tf) 0)) with (wsum (fun i => d (dof i a)) (col a tf)). unfold tf.
    assert (EL : loads l = filter (fun q => kind_eqb (bc_kind q) Force) l). { unfold loads. apply filter_ext. intros q. unfold is_load. destruct (bc_kind q); reflexivity. }
    rewrite EL. apply (column_of int_cast nodes Force a l (fun i => d (dof i a)) (fun z => part a (row_at (disp_rows nodes d) z))); auto.
    - intros q I Q. destruct (W q I) as [A B]; [congruence|]. split; [exact A|]. intros v V. destruct (B Q a v V) as [k Hk]. exact (int_cast_whole v k Hk).
    - intros i z Z. rewrite (row_at_disp nodes d i z nodes_apart Z), part_dof. reflexivity.
    - intros y z Y. rewrite (row_at_comp _ y z Y). reflexivity. }
  unfold work_of_loads. transitivity (sum (length nodes) (fun i => d (dof i AZ) * nth i (col AZ tf) 0) + sum (length nodes) (fun i => d (dof i AY) * nth i (col AY tf) 0) + sum (length nodes) (fun i => d (dof i AX) * nth i (col AX tf) 0)).
  - rewrite <- !sum_plus. apply sum_ext. intros i Hi. rewrite dof0, dof1, dof2. cbn [dof]. ring.
  - rewrite !TW. rewrite <- !Qsum_plus. apply Qsum_ext. intros q I. ring.
Qed.

Lemma reactions_work : forall R d, dot N R d == work_of_reactions (disp_rows nodes R) (disp_rows nodes d).
Proof using MS.
  intros R d. unfold dot, N. rewrite sum3, <- nodes_count. unfold work_of_reactions. rewrite disp_rows_sum. apply sum_ext. intros i Hi. cbn [fst snd part].
  destruct (nth_error nodes i) as [z|] eqn:Z; [|apply nth_error_None in Z; lia]. rewrite (nth_error_nth _ _ 0 Z), (row_at_disp nodes d i z nodes_apart Z). cbn [fst snd]. ring.
Qed.

Lemma betti : forall l l' r r', well_placed nodes l -> well_placed nodes l' -> beam_tables solve ty circ E nu p m l = Ok (Some r) -> beam_tables solve ty circ E nu p m l' = Ok (Some r') ->
  work_of_loads l (t_disp r') + work_of_reactions (disp_rows nodes (t_Q r)) (t_disp r') == work_of_loads l' (t_disp r) + work_of_reactions (disp_rows nodes (t_Q r')) (t_disp r).
Proof using All.
  intros l l' r r' W W' B B'. destruct (system l r B) as (tf & td & tr & F & D & R & EF & ED & Q & T & _). destruct (system l' r' B') as (tf' & td' & tr' & F' & D' & R' & EF' & ED' & Q' & T' & _).
  destruct (solve_equations_sound _ _ _ _ _ _ _ _ SO Q) as (A & _). destruct (solve_equations_sound _ _ _ _ _ _ _ _ SO Q') as (A' & _).
  rewrite T, T'. rewrite <- (loads_work l _ W), <- (loads_work l' _ W'), <- !reactions_work, <- EF, <- EF'. rewrite <- !dot_plus_l.
  transitivity (dot N (t_d r') (mulv N K (t_d r))).
  - unfold dot. apply sum_ext. intros i Hi. rewrite (A i Hi). ring.
  - rewrite (symmetric_work N K _ _ pile_symmetric). unfold dot. apply sum_ext. intros i Hi. rewrite (A' i Hi). ring.
Qed.

(** reactions do no work on displacements that vanish at the supports *)
Lemma idle : forall l l' r r', beam_tables solve ty circ E nu p m l = Ok (Some r) -> beam_tables solve ty circ E nu p m l' = Ok (Some r') -> same_supports nodes l l' -> well_placed nodes l' ->
  (forall z a, In z nodes -> given Displacement l' z a == 0) -> work_of_reactions (disp_rows nodes (t_Q r)) (t_disp r') == 0.
Proof using All.
  intros l l' r r' B B' SS W' Z. destruct (system l r B) as (tf & td & tr & F & D & R & EF & ED & Q & T & _). destruct (system l' r' B') as (tf' & td' & tr' & F' & D' & R' & EF' & ED' & Q' & T' & _).
  destruct (solve_equations_sound _ _ _ _ _ _ _ _ SO Q) as (_ & C & _). destruct (solve_equations_sound _ _ _ _ _ _ _ _ SO Q') as (_ & _ & C').
  rewrite T', <- reactions_work. unfold dot. apply sum_zero. intros i Hi. destruct (supports_of (dof_flags tr) (dof_vector td) i) eqn:X; [|rewrite (C i Hi X); ring].
  rewrite (flags_of l l' td tr td' tr' D R D' R' SS i Hi) in X. rewrite (C' i Hi X).
  assert (V : dof_vector td' i == 0). { revert i Hi X. apply (each_dof (fun i => supports_of (dof_flags tr') (dof_vector td') i = true -> dof_vector td' i == 0)). intros j a z NZ _. rewrite dof_col, ED', (displacements_given l' j a z W' NZ). apply Z. eapply nth_error_In; eauto. }
  rewrite V. ring.
Qed.

Lemma single_settlement : forall l l' r r' j a z u, beam_tables solve ty circ E nu p m l = Ok (Some r) -> beam_tables solve ty circ E nu p m l' = Ok (Some r') -> same_supports nodes l l' -> well_placed nodes l' ->
  nth_error nodes j = Some z -> given Displacement l' z a == u -> (forall i a' z', nth_error nodes i = Some z' -> dof i a' <> dof j a -> given Displacement l' z' a' == 0) -> supported nodes l j a ->
  work_of_reactions (disp_rows nodes (t_Q r)) (t_disp r') == part a (row_at (disp_rows nodes (t_Q r)) z) * u.
Proof using All.
  intros l l' r r' j a z u B B' SS W' NZ GU GZ SU. destruct (system l r B) as (tf & td & tr & F & D & R & EF & ED & Q & T & _). destruct (system l' r' B') as (tf' & td' & tr' & F' & D' & R' & EF' & ED' & Q' & T' & _).
  destruct (solve_equations_sound _ _ _ _ _ _ _ _ SO Q) as (_ & C & _). destruct (solve_equations_sound _ _ _ _ _ _ _ _ SO Q') as (_ & _ & C').
  rewrite T', <- reactions_work. rewrite (row_at_disp nodes (t_Q r) j z nodes_apart NZ), part_dof.
  assert (BJ : (dof j a < N)%nat). { assert (L : (j < length nodes)%nat) by (apply nth_error_Some; congruence). rewrite <- dofs_count. destruct a; cbn; lia. }
  assert (DZ : forall i, (i < N)%nat -> i <> dof j a -> dof_vector td' i == 0).
  { apply (each_dof (fun i => i <> dof j a -> dof_vector td' i == 0)). intros i a' z' Z' NE. rewrite dof_col, ED', (displacements_given l' i a' z' W' Z'). apply GZ with (i := i); auto. }
  unfold dot. rewrite <- (sum_delta N (dof j a) (fun i => t_Q r i * u) BJ). apply sum_ext. intros i Hi. destruct (Nat.eqb i (dof j a)) eqn:X.
  - apply Nat.eqb_eq in X. subst i. assert (L : (j < length nodes)%nat) by (apply nth_error_Some; congruence).
    assert (S1 : supports_of (dof_flags tr') (dof_vector td') (dof j a) = true) by (apply (support_flags nodes l' td' tr' j a L D' R'), SS; exact SU).
    rewrite (C' _ Hi S1), dof_col, ED', (displacements_given l' j a z W' NZ), GU. reflexivity.
  - apply Nat.eqb_neq in X. destruct (supports_of (dof_flags tr) (dof_vector td) i) eqn:Y; [|rewrite (C i Hi Y); ring].
    rewrite (flags_of l l' td tr td' tr' D R D' R' SS i Hi) in Y. rewrite (C' i Hi Y), (DZ i Hi X). ring.
Qed.
End Pile.
