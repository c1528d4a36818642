(** Properties C78-C83: the whole analysis, from sections, mesh and setter calls to the tables. *)
From Coq Require Import List Bool Arith ZArith QArith Qabs Lia Lqa Permutation.
From Verif Require Import Base LinAlg SpringModel PileModel PileSpec PileProofs MeshModel MeshSpec MeshProofs StressModel StressSpec
  BeamModel SolveModel SolveSpec SolveProofs SpringSpec SoilProofs WinklerModel BalanceSpec BalanceProofs BalanceProps BCModel BCSpec BCProofs CreateModel WholeModel WholeSpec WholeProofs.
Import ListNotations.
Local Open Scope Q_scope.

Lemma element_sections : forall sections s x c p t b m, meshed sections s x c p t b m ->
  forall e y, nth_error (elements_of m) e = Some y -> snd y < fst y /\
  exists q, 0 < s_inertia q /\ 0 < s_area q /\ 0 < s_width q /\ forall f, elem_value f p (elements_of m) e = Some (f q).
Proof.
  intros sections s x c p t b m MS e y H. destruct (meshed_sections _ _ _ _ _ _ _ _ MS e y H) as [A (q & _ & _ & B)]. split; [exact A|]. exists q. exact B.
Qed.

(** C78: the analysis gives results exactly when the supports hold the pile; otherwise it raises
    LinAlgError, and nothing else happens. *)
Theorem C78_solved_iff_held : forall solve ty circ E nu sections s x c p t b m l, solver_ok solve -> 0 < E -> -(3#4) <= nu ->
  (ty = Timoshenko -> circ = true) -> meshed sections s x c p t b m -> (forall k, validate_bc l k = Ok tt) ->
  (holds_pile (nodes_of m) l /\ exists r, beam_tables solve ty circ E nu p m l = Ok (Some r)) \/
  (~ holds_pile (nodes_of m) l /\ beam_tables solve ty circ E nu p m l = Err LinAlgError).
Proof.
  intros solve ty circ E nu sections s x c p t b m l SO PE PN HT MS HV.
  destruct (solved_or_not solve ty circ E nu p m l SO PE PN (element_sections _ _ _ _ _ _ _ _ MS) HT (proj1 (meshed_nonempty _ _ _ _ _ _ _ _ MS)) HV)
    as (tf & td & tr & ks & _ & _ & _ & _ & B).
  destruct (beam _ _ _ _ _ _) as [[[d R] q]|]; destruct B as [B1 B2]; [left|right]; split; eauto.
Qed.
Print Assumptions C78_solved_iff_held.

(** for the calls a user makes on a new model *)
Theorem C78_analysis_of_calls : forall solve ty circ E nu sections x c p t b m calls, solver_ok solve -> 0 < E -> -(3#4) <= nu ->
  (ty = Timoshenko -> circ = true) -> meshed sections None x c p t b m -> 5 * c <= t - b ->
  (holds_pile (nodes_of m) (run calls []) /\ exists r, analyse solve ty circ E nu sections x c calls = Ok (Some r)) \/
  (~ holds_pile (nodes_of m) (run calls []) /\ analyse solve ty circ E nu sections x c calls = Err LinAlgError).
Proof.
  intros solve ty circ E nu sections x c p t b m calls SO PE PN HT MS L.
  rewrite (analyse_unfold solve ty circ E nu sections x c p t b m calls MS L).
  exact (C78_solved_iff_held solve ty circ E nu sections None x c p t b m (run calls []) SO PE PN HT MS (run_never_conflicts calls)).
Qed.
Print Assumptions C78_analysis_of_calls.

(** sections of the library have stiffness when the wall is thinner than the diameter *)
Theorem C78_circular_sections : forall top bottom d t s, circular top bottom d t = Ok s -> proper_thickness d t < d ->
  stiff s /\ thickness s == proper_thickness d t.
Proof. exact circular_stiff. Qed.
Print Assumptions C78_circular_sections.

(** C79: the reactions balance the loads given, exactly in the vector and within the threshold of the
    reaction table in the table. *)
Theorem C79_reactions_balance_loads : forall solve ty circ E nu sections s x c p t b m l r, solver_ok solve -> 0 < E -> -(3#4) <= nu ->
  (ty = Timoshenko -> circ = true) -> meshed sections s x c p t b m -> (forall k, validate_bc l k = Ok tt) ->
  beam_tables solve ty circ E nu p m l = Ok (Some r) -> separate (nodes_of m) l ->
  (forall q, In q l -> is_load q = true -> at_node (nodes_of m) q /\ whole_load q) ->
  let rows := disp_rows (nodes_of m) (t_Q r) in
  total_load AZ l + rows_axial rows == 0 /\ total_load AY l + rows_lateral rows == 0 /\
  forall z0, total_load_moment z0 l + rows_moment z0 rows == 0.
Proof.
  intros solve ty circ E nu sections s x c p t b m l r SO PE PN HT MS HV H.
  destruct (meshed_nonempty _ _ _ _ _ _ _ _ MS) as [NE N1].
  exact (load_balance solve ty circ E nu p m l SO PE PN (element_sections _ _ _ _ _ _ _ _ MS) HT NE HV r H N1).
Qed.
Print Assumptions C79_reactions_balance_loads.

Theorem C79_reaction_table_balances_loads : forall solve ty circ E nu sections s x c p t b m l r, solver_ok solve -> 0 < E -> -(3#4) <= nu ->
  (ty = Timoshenko -> circ = true) -> meshed sections s x c p t b m -> (forall k, validate_bc l k = Ok tt) ->
  beam_tables solve ty circ E nu p m l = Ok (Some r) -> separate (nodes_of m) l ->
  (forall q, In q l -> is_load q = true -> at_node (nodes_of m) q /\ whole_load q) ->
  let N := inject_Z (Z.of_nat (length (nodes_of m))) in
  Qabs (total_load AZ l + rows_axial (t_reac r)) <= N * (1#1000) /\ Qabs (total_load AY l + rows_lateral (t_reac r)) <= N * (1#1000) /\
  forall z0 H, (forall y, In y (nodes_of m) -> Qabs (z0 - y) <= H) ->
    Qabs (total_load_moment z0 l + rows_moment z0 (t_reac r)) <= N * ((1 + H) * (1#1000)).
Proof.
  intros solve ty circ E nu sections s x c p t b m l r SO PE PN HT MS HV HR SP W N.
  destruct (C79_reactions_balance_loads solve ty circ E nu sections s x c p t b m l r SO PE PN HT MS HV HR SP W) as (A & B & C).
  destruct (result_facts solve ty circ E nu p m l SO PE PN (element_sections _ _ _ _ _ _ _ _ MS) HT (proj1 (meshed_nonempty _ _ _ _ _ _ _ _ MS)) HV r HR)
    as (_ & _ & _ & _ & _ & _ & _ & _ & _ & _ & TR).
  set (rows := disp_rows (nodes_of m) (t_Q r)) in *. rewrite TR.
  assert (LR : length rows = length (nodes_of m)).
  { unfold rows, disp_rows, node_rows. rewrite combine_length, map_length, seq_length. apply Nat.min_id. }
  assert (IR : forall q, In q rows -> In (fst q) (nodes_of m)) by (intros [y v] Hq; exact (in_combine_l _ _ _ _ Hq)).
  assert (K : forall wa wl wm Cst, (forall q, In q rows -> Qabs (wa (fst q)) + Qabs (wl (fst q)) + Qabs (wm (fst q)) <= Cst) ->
     forall L, L + Qsum (map (row_value wa wl wm) rows) == 0 -> Qabs (L + Qsum (map (row_value wa wl wm) (reaction_rows rows))) <= N * (Cst * (1#1000))).
  { intros wa wl wm Cst HC L HL. pose proof (reaction_table_close wa wl wm Cst rows HC) as R. rewrite LR in R. fold N in R.
    setoid_replace (L + Qsum (map (row_value wa wl wm) (reaction_rows rows)))
      with (Qsum (map (row_value wa wl wm) (reaction_rows rows)) - Qsum (map (row_value wa wl wm) rows)); [exact R|]. lra. }
  assert (EX : forall f wa wl wm L, (forall q, f q == row_value wa wl wm q) -> Qsum (map f L) == Qsum (map (row_value wa wl wm) L)) by (intros; apply WeightProofs.Qsum_ext; auto).
  split; [|split].
  - unfold rows_axial in *. rewrite (EX _ (fun _ => 1) (fun _ => 0) (fun _ => 0)) in A by (intros [y [[u v] w]]; cbn [row_value fst snd]; ring).
    rewrite (EX _ (fun _ => 1) (fun _ => 0) (fun _ => 0)) by (intros [y [[u v] w]]; cbn [row_value fst snd]; ring).
    pose proof (K (fun _ => 1) (fun _ => 0) (fun _ => 0) 1 ltac:(intros; discriminate) _ A). lra.
  - unfold rows_lateral in *. rewrite (EX _ (fun _ => 0) (fun _ => 1) (fun _ => 0)) in B by (intros [y [[u v] w]]; cbn [row_value fst snd]; ring).
    rewrite (EX _ (fun _ => 0) (fun _ => 1) (fun _ => 0)) by (intros [y [[u v] w]]; cbn [row_value fst snd]; ring).
    pose proof (K (fun _ => 0) (fun _ => 1) (fun _ => 0) 1 ltac:(intros; discriminate) _ B). lra.
  - intros z0 H HH. specialize (C z0). unfold rows_moment in *.
    rewrite (EX _ (fun _ => 0) (fun y => z0 - y) (fun _ => 1)) in C by (intros [y [[u v] w]]; cbn [row_value fst snd]; ring).
    rewrite (EX _ (fun _ => 0) (fun y => z0 - y) (fun _ => 1)) by (intros [y [[u v] w]]; cbn [row_value fst snd]; ring).
    apply (K (fun _ => 0) (fun y => z0 - y) (fun _ => 1) (1 + H)); [|exact C].
    intros q Hq. specialize (HH _ (IR q Hq)). change (Qabs 0) with 0. change (Qabs 1) with 1. lra.
Qed.
Print Assumptions C79_reaction_table_balances_loads.

(** conditions given by setter calls at elevations of nodes never share a node *)
Theorem C79_calls_are_separate : forall nodes calls, (forall q, In q (run calls []) -> at_node nodes q) -> separate nodes (run calls []).
Proof. intros nodes calls H. exact (history_separate nodes (run calls []) (run_one_per_place calls) H). Qed.
Print Assumptions C79_calls_are_separate.

(** C80: one row per node; prescribed displacements and zeros at supports; no reaction elsewhere. *)
Theorem C80_displacement_table : forall solve ty circ E nu sections s x c p t b m l r i z, solver_ok solve -> 0 < E -> -(3#4) <= nu ->
  (ty = Timoshenko -> circ = true) -> meshed sections s x c p t b m -> (forall k, validate_bc l k = Ok tt) ->
  beam_tables solve ty circ E nu p m l = Ok (Some r) -> nth_error (nodes_of m) i = Some z ->
  exists uz uy ux qz qy qx, nth_error (t_disp r) i = Some (z, (uz, uy, ux)) /\
    nth_error (disp_rows (nodes_of m) (t_Q r)) i = Some (z, (qz, qy, qx)) /\
    forall a u f, (a, u, f) = (AZ, uz, qz) \/ (a, u, f) = (AY, uy, qy) \/ (a, u, f) = (AX, ux, qx) ->
      (~ supported (nodes_of m) l i a -> f == 0) /\
      (forall d q, In d l -> sends (nodes_of m) Displacement i a d q -> separate (nodes_of m) l -> u = q) /\
      (supported (nodes_of m) l i a -> (forall d q, In d l -> ~ sends (nodes_of m) Displacement i a d q) -> u = 0).
Proof.
  intros solve ty circ E nu sections s x c p t b m l r i z SO PE PN HT MS HV H Hi.
  pose proof (element_sections _ _ _ _ _ _ _ _ MS) as HE. pose proof (proj1 (meshed_nonempty _ _ _ _ _ _ _ _ MS)) as NE.
  destruct (result_facts solve ty circ E nu p m l SO PE PN HE HT NE HV r H) as (_ & _ & _ & _ & _ & _ & _ & _ & _ & TD & _).
  assert (Li : (i < length (nodes_of m))%nat) by (apply nth_error_Some; congruence).
  pose proof (node_results solve ty circ E nu p m l SO PE PN HE HT NE HV r i H Li) as R.
  do 6 eexists. split; [rewrite TD; apply disp_rows_nth; exact Hi|]. split; [apply disp_rows_nth; exact Hi|].
  intros a u f [X|[X|X]]; injection X as -> -> ->; [exact (R AZ)|exact (R AY)|exact (R AX)].
Qed.
Print Assumptions C80_displacement_table.

(** C81: the order in which conditions at different nodes are given does not matter. *)
Theorem C81_order_of_conditions : forall solve ty circ E nu p m l l', Permutation l l' -> separate (nodes_of m) l ->
  beam_tables solve ty circ E nu p m l = beam_tables solve ty circ E nu p m l'.
Proof. exact order_irrelevant. Qed.
Print Assumptions C81_order_of_conditions.

(** A fixed-head pile of two sections with a lateral load: all hypotheses hold. *)
Definition ex_sections : list section := [mkSection (-4) (-10) 1 2 3 1 1 1 1; mkSection 0 (-4) 1 1 1 1 1 1 1].
Definition ex_calls : list call := [SetSupport 0 (Some 1) (Some 1) (Some 1); SetPointload (-10) (Some 100) (Some (-50)) None; SetPointload (-4) (Some 7) None (Some 30)].
Definition ex_m : list Q := match mesh [mkSection 0 (-4) 1 1 1 1 1 1 1; mkSection (-4) (-10) 1 2 3 1 1 1 1] (-10) None [] 2 with Some m => m | None => [] end.

Lemma ex_meshed : meshed ex_sections None [] 2 [mkSection 0 (-4) 1 1 1 1 1 1 1; mkSection (-4) (-10) 1 2 3 1 1 1 1] 0 (-10) ex_m.
Proof.
  constructor; try reflexivity.
  - intros s [<-|[<-|[]]]; repeat split; reflexivity.
  - discriminate.
  - intros y H. assert (X : y == 0 \/ y == -4 \/ y == -10).
    { destruct H as [(s & [<-|[<-|[]]] & V)|[(ls & l & X & _)|(w & [] & _)]]; cbn [s_top s_bottom] in *; [| |discriminate]; destruct V as [V|V]; rewrite V; auto; [left|right; left|right; left|right; right]; reflexivity. }
    destruct X as [X|[X|X]]; [exists 0%Z|exists (-40000)%Z|exists (-100000)%Z]; rewrite X; reflexivity.
  - intros ls y X; discriminate.
  - intros y [].
Qed.

Lemma ex_at_nodes : forall q, In q (run ex_calls []) -> at_node (nodes_of ex_m) q.
Proof.
  assert (T : forallb (fun q => match first_close (nodes_of ex_m) (bc_elev q) with
      | Some i => Qeq_bool (nth i (nodes_of ex_m) 1) (bc_elev q) && (i <? length (nodes_of ex_m))%nat | None => false end) (run ex_calls []) = true) by (vm_compute; reflexivity).
  rewrite forallb_forall in T.
  intros q Hq. specialize (T q Hq). destruct (first_close _ _) as [i|] eqn:F; [|discriminate].
  apply andb_true_iff in T. destruct T as [T L]. apply Nat.ltb_lt in L. apply Qeq_bool_iff in T. exists i.
  destruct (nth_error (nodes_of ex_m) i) as [z|] eqn:Z; [|apply nth_error_None in Z; lia].
  rewrite (nth_error_nth _ _ 1 Z) in T. exists z. split; [apply first_close_iff; exact F|]. split; [reflexivity|exact T].
Qed.

Example C78_example : holds_pile (nodes_of ex_m) (run ex_calls []) /\ exists r, analyse gauss_solver EulerBernoulli true 210 (3#10) ex_sections [] 2 ex_calls = Ok (Some r).
Proof.
  destruct (C78_analysis_of_calls gauss_solver EulerBernoulli true 210 (3#10) ex_sections [] 2 _ 0 (-10) ex_m ex_calls gauss_solver_ok ltac:(reflexivity) ltac:(discriminate)
    ltac:(discriminate) ex_meshed ltac:(discriminate)) as [H|[H _]]; [exact H|]. exfalso. apply H.
  assert (SN : forall a, In a [AX; AY; AZ] -> supported (nodes_of ex_m) (run ex_calls []) 0 a).
  { intros a Ha. exists (mkBC Fixation 0 (Some 1) (Some 1) (Some 1)), 1. split; [left; reflexivity|]. left.
    split; [reflexivity|]. split; [apply first_close_iff; vm_compute; reflexivity|]. split; [|discriminate].
    destruct Ha as [<-|[<-|[<-|[]]]]; reflexivity. }
  split; [exists 0%nat; apply SN; cbn; auto|]. exists 0%nat. split; [apply SN; cbn; auto|]. left. exists 0%nat. apply SN. cbn; auto.
Qed.

Example C79_example : (forall k, validate_bc (run ex_calls []) k = Ok tt) /\ separate (nodes_of ex_m) (run ex_calls []) /\
  (forall q, In q (run ex_calls []) -> is_load q = true -> at_node (nodes_of ex_m) q /\ whole_load q) /\
  total_load AY (run ex_calls []) == 107 /\ total_load_moment 0 (run ex_calls []) == 30 + 4 * 7 + 10 * 100.
Proof.
  split; [exact (run_never_conflicts ex_calls)|]. split; [exact (C79_calls_are_separate _ _ ex_at_nodes)|]. split.
  - intros q Hq _. split; [exact (ex_at_nodes q Hq)|]. intros a v Hv.
    assert (W : forall q, In q (run ex_calls []) -> forall a v, get_axis a q = Some v -> In v [1; 100; -50; 7; 30]).
    { intros q0 H0 a0 v0 E0. vm_compute in H0. destruct H0 as [<-|[<-|[<-|[]]]]; destruct a0; cbn in E0; try discriminate; injection E0 as <-; cbn; tauto. }
    specialize (W q Hq a v Hv). destruct W as [<-|[<-|[<-|[<-|[<-|[]]]]]]; [exists 1%Z|exists 100%Z|exists (-50)%Z|exists 7%Z|exists 30%Z]; reflexivity.
  - split; vm_compute; reflexivity.
Qed.

(** C82 refuted: "a pile that is accepted and held gives results".  With a section boundary given to
    five decimals the element below it lies in no section, its stiffness is NaN and there are no
    numbers, whatever the loads and the solver. *)
Definition off_sections : list section := [mkSection 0 (-3.00004) 1 1 1 1 1 1 1; mkSection (-3.00004) (-10) 1 2 3 1 1 1 1].

Theorem C82_boundary_off_grid_refuted : exists sections p c m, (forall s, In s sections -> stiff s) /\ make_pile sections = Ok p /\
  0.01 <= c /\ mesh p (-10) None [] c = Some m /\
  forall solve ty E nu calls, analyse solve ty true E nu sections [] c calls = Ok None.
Proof.
  exists off_sections, off_sections, 2. eexists. split; [intros s [<-|[<-|[]]]; repeat split; reflexivity|]. split; [reflexivity|]. split; [discriminate|].
  split; [vm_compute; reflexivity|]. intros solve ty E nu calls. unfold analyse.
  change (make_pile off_sections) with (Ok off_sections). cbn [bind]. change (pile_length off_sections) with (Ok (0 - -10)). cbn [bind].
  change (pile_bottom off_sections) with (Ok (-10)). cbn [bind]. change (accept_model (0 - -10) 2 (-10) None) with (Ok tt). cbn [bind].
  destruct (mesh off_sections (-10) None [] 2) as [m|] eqn:M; [|reflexivity].
  unfold beam_tables, global_forces, global_disp, global_restrained. rewrite !run_never_conflicts. cbn [bind].
  assert (X : elem_matrices ty true E nu off_sections (elements_of m) = Ok None); [|rewrite X; reflexivity].
  vm_compute in M. injection M as <-.
  destruct ty; vm_compute; reflexivity.
Qed.
Print Assumptions C82_boundary_off_grid_refuted.

(** nor does a pile with a section that is not circular, once its elements are Timoshenko's: every analysis
    raises, whatever holds the pile *)
Theorem C82_not_circular_refuted : forall solve E nu sections x c p t b m calls, meshed sections None x c p t b m -> 5 * c <= t - b ->
  analyse solve Timoshenko false E nu sections x c calls = Err ValueError.
Proof.
  intros solve E nu sections x c p t b m calls MS L. rewrite (analyse_unfold solve Timoshenko false E nu sections x c p t b m calls MS L).
  unfold beam_tables, global_forces, global_disp, global_restrained. rewrite !run_never_conflicts. cbn [bind]. unfold elem_matrices.
  destruct (meshed_nonempty _ _ _ _ _ _ _ _ MS) as [_ N1]. destruct (length (elements_of m)) as [|n]; [lia|].
  assert (C : collect (S n) (elem_matrix Timoshenko false E nu p (elements_of m)) = Err ValueError). { clear. induction n as [|n IH]; [reflexivity|]. cbn [collect] in *. rewrite IH. reflexivity. } rewrite C. reflexivity.
Qed.
Print Assumptions C82_not_circular_refuted.

(** C83: the pile-soil analysis of a meshed pile.  The balance holds for any springs; the matrix is that of
    a stable system for springs that meet [sound_springs]. *)
Record sound_springs (M : wmodel) : Prop := {
  ss_mtc : forall mt, w_mt M = Some mt -> forall e, (e < w_n M)%nat -> forall kt kb, 0 <= kt -> 0 <= kb -> psd 6 (mt_matrix (w_mtc M e) kt kb);
  ss_mt : forall py mt, w_py M = Some py -> w_mt M = Some mt -> forall e j, (e < w_n M)%nat -> (j < 2)%nat ->
     forall col q, In col (mt e j) -> In q col -> 0 <= fst q;
  ss_pair : w_mt M = None \/ exists py, w_py M = Some py }.

Theorem C83_pile_soil_mechanics : forall sections s x c p t b m ty circ E nu, meshed sections s x c p t b m -> 0 < E -> -(3#4) <= nu ->
  (ty = Timoshenko -> circ = true) -> exists ks, elem_matrices ty circ E nu p (elements_of m) = Ok (Some ks) /\
  forall py tz mt mtc hb mb qz, let M := soil_model p (elements_of m) ks py tz mt mtc hb mb qz in let z := fun a => nth a (nodes_of m) 0 in
    sound_pile M z /\ (sound_springs M -> sound_model M z).
Proof.
  intros sections s x c p t b m ty circ E nu MS PE PN HT.
  destruct (matrices_exist ty circ E nu p m (element_sections _ _ _ _ _ _ _ _ MS) HT) as [ks K]. exists ks. split; [exact K|].
  intros py tz mt mtc hb mb qz M z.
  pose proof (soil_model_mechanics sections s x c p t b m ty circ E nu ks py tz mt mtc hb mb qz MS PE PN HT K) as X. cbv zeta in X.
  split; [|intros [S1 S2 S3]]; constructor; try (intros e He; exact (proj1 (X e He))); try (intros e He; exact (proj2 (X e He))); [exact S1|exact S2|exact S3].
Qed.
Print Assumptions C83_pile_soil_mechanics.

Theorem C83_pile_soil_balance : forall solve ty circ E nu sections s x c p t b m l ks py tz mt mtc hb mb qz tf td tr max_iter o v,
  solver_ok solve -> (99 <= max_iter)%nat -> 0 < E -> -(3#4) <= nu -> (ty = Timoshenko -> circ = true) -> meshed sections s x c p t b m ->
  elem_matrices ty circ E nu p (elements_of m) = Ok (Some ks) ->
  let M := soil_model p (elements_of m) ks py tz mt mtc hb mb qz in
  global_forces (nodes_of m) l = Ok tf -> global_disp (nodes_of m) l = Ok td -> global_restrained (nodes_of m) l = Ok tr ->
  winkler_model solve M (dof_vector tf) (dof_vector td) (dof_flags tr) max_iter = Ok o -> o_d o = Some v ->
  separate (nodes_of m) l -> (forall q, In q l -> is_load q = true -> at_node (nodes_of m) q /\ whole_load q) ->
  let z := fun a => nth a (nodes_of m) 0 in let n := w_n M in
  exists R V kp kz km h mo q, o_Q o = Some R /\ spring_values M v Secant kp kz km h mo q /\
    (forall i, (i < size M)%nat -> supports_of (dof_flags tr) (dof_vector td) i = true -> V i = dof_vector td i /\ v i == dof_vector td i) /\
    let rows := disp_rows (nodes_of m) R in
    total_load AZ l + rows_axial rows ==
      sum n (fun e => when tz (shaft_axial (w_L M e) (kz e) (elem_disp V e))) + q * V (3 * n)%nat /\
    total_load AY l + rows_lateral rows ==
      sum n (fun e => when py (shaft_lateral (w_L M e) (kp e) (elem_disp V e))) + h * V (3 * n + 1)%nat /\
    (no_timoshenko_mt M -> total_load_moment (z O) l + rows_moment (z O) rows ==
      sum n (fun e => when py (shaft_moment (w_L M e) (z O - z e) (kp e) (elem_disp V e)) + when mt (shaft_rotation (w_L M e) (km e) (elem_disp V e)))
      + (z O - z n) * (h * V (3 * n + 1)%nat) + mo * V (3 * n + 2)%nat).
Proof.
  intros solve ty circ E nu sections s x c p t b m l ks py tz mt mtc hb mb qz tf td tr mi o v SO MI PE PN HT MS K M HF HD HR HW HO SP LD z n.
  destruct (C83_pile_soil_mechanics sections s x c p t b m ty circ E nu MS PE PN HT) as (ks' & K' & SM).
  assert (ks' = ks) by congruence. subst ks'. destruct (SM py tz mt mtc hb mb qz) as [SP' _]. clear SM. rename SP' into SM. fold M z in SM.
  destruct (C77_result_balance solve M z _ _ _ mi o v SO MI SM HW HO) as (R & V & kp & kz & km & h & mo & q & ER & SV & SU & _ & A & L & MO).
  exists R, V, kp, kz, km, h, mo, q. split; [exact ER|]. split; [exact SV|]. split; [exact SU|].
  destruct (resultants m l tf R (proj1 (meshed_nonempty _ _ _ _ _ _ _ _ MS)) HF SP LD) as (RA & RL & RM).
  cbv zeta. split; [|split].
  - rewrite <- RA. exact A.
  - rewrite <- RL. exact L.
  - intros T. rewrite <- RM. exact (MO T).
Qed.
Print Assumptions C83_pile_soil_balance.

Example C83_example : exists ks, elem_matrices EulerBernoulli true 210 (3#10) [mkSection 0 (-4) 1 1 1 1 1 1 1; mkSection (-4) (-10) 1 2 3 1 1 1 1] (elements_of ex_m) = Ok (Some ks) /\
  sound_springs (soil_model [mkSection 0 (-4) 1 1 1 1 1 1 1; mkSection (-4) (-10) 1 2 3 1 1 1 1] (elements_of ex_m) ks
    (Some (fun _ _ => [(0, 0); (50, 1#100); (80, 1#10)])) None None (fun _ => (0, 0, 0, 0)) None None None).
Proof.
  destruct (C83_pile_soil_mechanics _ _ _ _ _ _ _ _ EulerBernoulli true 210 (3#10) ex_meshed ltac:(reflexivity) ltac:(discriminate) ltac:(discriminate)) as (ks & K & _).
  exists ks. split; [exact K|]. constructor; cbn; [discriminate|intros; discriminate|left; reflexivity].
Qed.
