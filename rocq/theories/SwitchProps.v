(** C147: whatever is assigned to the spring options of a constructed model, its analysis is that of a model constructed with the
    springs that were on at the construction and are on now. *)
From Coq Require Import List Bool Arith ZArith QArith Qabs Reals Lia Lqa Lra.
From Verif Require Import Base LinAlg BCModel PileModel MeshModel StressModel StressProps BeamModel SolveModel SpringModel SpringProofs WinklerModel CreateModel CreateProps WholeModel AxialModel CapacityModel
  StressSpec FullModel FullSpec FullProps SiteProofs AnalysisProofs SolveSpec EditModel EditSpec EditProofs EditProps OffProps SwitchSpec SwitchProofs.
Import ListNotations.
Local Open Scope Q_scope.

(** Switching on springs that are not there *)
Lemma self_cut : forall rnd ch sort o sections s x c B, construct rnd ch sort o sections (so_ground s) (so_water s) (so_layers s) x c = Ok (Some B) -> cut o (b_made B) (b_made B).
Proof.
  intros rnd ch sort o sections s x c B H. destruct (construct_fewer rnd ch sort o o sections s x c B) as (B' & H' & _ & _ & C); [repeat split; auto|exact H|]. assert (B' = B) by congruence. subst B'. exact C.
Qed.

Lemma switched : forall solve ty circ E nu o o' p z es M l mi, solver_ok solve -> cut o M M -> nan_free (length es) M = true -> usable (springs_of M) ->
  (exists cs, moment_coefs ty circ E nu p es = Ok (Some cs)) -> (on_mt o = true -> on_py o = true) -> (on_mt o' = true -> on_py o' = true) ->
  same_answer (3 * length es + 3) (winkler_on solve ty circ E nu o' p z es M l mi) (winkler_on solve ty circ E nu (both_on o' o) p z es M l mi).
Proof.
  intros solve ty circ E nu o o' p z es M l mi SV (C1 & C2 & C3 & C4 & C5 & C6) NF (U1 & _) (cs & CS) D D'. unfold winkler_on. rewrite NF, CS.
  destruct (global_forces z l) as [tf|e]; cbn [bind]; [|reflexivity]. destruct (global_disp z l) as [td|e]; cbn [bind]; [|reflexivity]. destruct (global_restrained z l) as [tr|e]; cbn [bind]; [|reflexivity].
  destruct (elem_matrices ty circ E nu p es) as [[ks|]|e]; cbn [bind]; [| |reflexivity].
  2: { destruct (on_mt o'), (on_mt (both_on o' o)); exact Logic.I. }
  unfold part in *. cbn [both_on on_py on_mt on_hb on_mb on_tz on_qz].
  assert (SZ : forall cs' py tz mt hb mb qz, SpringModel.size (soil_model p es ks py tz mt cs' hb mb qz) = (3 * length es + 3)%nat) by (intros; unfold SpringModel.size; cbn [soil_model w_n]; lia).
  assert (BA : forall c1 c2, (on_mt o' && on_mt o = true -> c1 = c2) ->
    barer (soil_model p es ks (when_on (on_py o') (g_py (springs_of M))) (when_on (on_tz o') (g_tz (springs_of M))) (when_on (on_mt o') (g_mt (springs_of M))) c1 (when_on (on_hb o') (g_hb (springs_of M))) (when_on (on_mb o') (g_mb (springs_of M))) (when_on (on_qz o') (g_qz (springs_of M))))
          (soil_model p es ks (when_on (on_py o' && on_py o) (g_py (springs_of M))) (when_on (on_tz o' && on_tz o) (g_tz (springs_of M))) (when_on (on_mt o' && on_mt o) (g_mt (springs_of M))) c2 (when_on (on_hb o' && on_hb o) (g_hb (springs_of M))) (when_on (on_mb o' && on_mb o) (g_mb (springs_of M))) (when_on (on_qz o' && on_qz o) (g_qz (springs_of M))))).
  { intros c1 c2 CC. constructor; cbn [soil_model w_n w_mech w_L w_py w_tz w_mt w_mtc w_hb w_mb w_qz]; try reflexivity.
    - destruct (on_py o'); [|left; reflexivity]. destruct (on_py o); [left; reflexivity|]. right. split; [reflexivity|]. eexists. split; [reflexivity|]. intros e j. unfold springs_of. cbn [g_py]. rewrite C1. reflexivity.
    - destruct (on_tz o'); [|left; reflexivity]. destruct (on_tz o); [left; reflexivity|]. right. split; [reflexivity|]. eexists. split; [reflexivity|]. intros e j. unfold springs_of. cbn [g_tz]. rewrite C3. reflexivity.
    - destruct (on_mt o') eqn:O1; [|left; split; reflexivity]. right. rewrite (D' eq_refl). destruct (on_mt o) eqn:O2.
      + left. rewrite (D eq_refl). split; [reflexivity|]. split; [symmetry; apply CC; reflexivity|reflexivity].
      + right. split; [reflexivity|]. eexists. eexists. split; [reflexivity|]. split; [reflexivity|]. split.
        * intros e j. unfold springs_of. cbn [g_mt]. rewrite C2. reflexivity.
        * intros e j u. apply usable_py_ok. apply U1.
    - destruct (on_hb o'); [|left; reflexivity]. destruct (on_hb o); [left; reflexivity|]. right. split; [reflexivity|]. unfold springs_of. cbn [g_hb when_on]. rewrite C4. reflexivity.
    - destruct (on_mb o'); [|left; reflexivity]. destruct (on_mb o); [left; reflexivity|]. right. split; [reflexivity|]. unfold springs_of. cbn [g_mb when_on]. rewrite C5. reflexivity.
    - destruct (on_qz o'); [|left; reflexivity]. destruct (on_qz o); [left; reflexivity|]. right. split; [reflexivity|]. unfold springs_of. cbn [g_qz when_on]. rewrite C6. reflexivity. }
  assert (G : forall c1 c2, (on_mt o' && on_mt o = true -> c1 = c2) -> same_answer (3 * length es + 3)
    (bind (winkler_model solve (soil_model p es ks (when_on (on_py o') (g_py (springs_of M))) (when_on (on_tz o') (g_tz (springs_of M))) (when_on (on_mt o') (g_mt (springs_of M))) c1 (when_on (on_hb o') (g_hb (springs_of M))) (when_on (on_mb o') (g_mb (springs_of M))) (when_on (on_qz o') (g_qz (springs_of M)))) (dof_vector tf) (dof_vector td) (dof_flags tr) mi) (fun r => Ok (Some r)))
    (bind (winkler_model solve (soil_model p es ks (when_on (on_py o' && on_py o) (g_py (springs_of M))) (when_on (on_tz o' && on_tz o) (g_tz (springs_of M))) (when_on (on_mt o' && on_mt o) (g_mt (springs_of M))) c2 (when_on (on_hb o' && on_hb o) (g_hb (springs_of M))) (when_on (on_mb o' && on_mb o) (g_mb (springs_of M))) (when_on (on_qz o' && on_qz o) (g_qz (springs_of M)))) (dof_vector tf) (dof_vector td) (dof_flags tr) mi) (fun r => Ok (Some r)))).
  { intros c1 c2 CC. apply alike_answer. pose proof (barer_winkler solve _ _ (dof_vector tf) (dof_vector td) (dof_flags tr) mi SV (BA c1 c2 CC)) as AL. rewrite SZ in AL. exact AL. }
  destruct (on_mt o') eqn:O1; cbn [andb] in *; [destruct (on_mt o) eqn:O2|]; cbn [bind]; apply G; intros; try reflexivity; try discriminate.
Qed.

(** Springs that are switched on after the construction add nothing, springs that are switched off are as if never made. *)
Theorem C147_options : forall rnd ch sort solve ty circ E nu o sections s x c p t b m ob prog, storage rnd -> fair_chance ch -> (forall rows, ascending_of (sort rows) rows) -> solver_ok solve ->
  sound_site o sections (so_ground s) (so_water s) (so_layers s) x c p t b m -> new_in_soil rnd ch sort ty circ E nu o sections s x c = Ok (Some ob) ->
  forallb (fun o => negb (mesh_field o)) prog = true -> let o' := options_after prog o in (on_mt o = true -> on_py o = true) -> (on_mt o' = true -> on_py o' = true) -> (type_after prog ty = Timoshenko -> circ = true) ->
  exists a, EditSpec.shows a (fst (step solve Solve (snd (program solve prog ob)))) /\
    same_answer (3 * length (elements_of m) + 3) a
      (soil_analysis rnd ch sort solve (type_after prog ty) circ (fst (material_after prog (E, nu))) (snd (material_after prog (E, nu))) (both_on o' o) sections (so_ground s) (so_water s) (so_layers s) x c (calls_in prog) 100).
Proof.
  intros rnd ch sort solve ty circ E nu o sections s x c p t b m ob prog ST FC SO SV SS NW PR o' D D' HT. destruct (new_consistent _ _ _ _ _ _ _ _ _ _ _ _ _ NW) as (B & CB & CO & BM & BB & BF & _ & BE).
  destruct (program_fields solve prog _ _ PR CO) as (A1 & A2 & A3 & A4). rewrite BF in A1. cbn [fd_pile fd_soil fd_x2mesh fd_coarse fd_type fd_circ fd_E fd_nu fd_on] in A1. rewrite BB in A2. rewrite BM in A3. fold o' in A1.
  assert (FW : fewer (both_on o' o) o) by (repeat split; cbn [both_on on_py on_mt on_hb on_mb on_tz on_qz]; intros H; apply andb_true_iff in H; apply H).
  destruct (construct_fewer rnd ch sort o (both_on o' o) sections s x c B FW CB) as (B' & CB' & P1 & P2 & CT).
  assert (LE : length (nodes_of (b_mesh B)) = S (length (elements_of (b_mesh B)))) by (apply mesh_joined; apply (coordinates_nonempty _ _ (proj1 CO))).
  destruct (constructed rnd ch sort o sections _ _ _ x c p t b m ST FC SO SS) as (sg & MD & CB1 & MS & NF & US & _ & _).
  rewrite CB in CB1. assert (EB : B = mkBuilt p m (setting_of o p b (sort (data_rows p)) (so_ground s) (so_water s) (map y_layer (so_layers s)) m sg) MD) by congruence. clear CB1.
  pose proof (self_cut rnd ch sort o sections s x c B CB) as SC.
  set (ob' := snd (program solve prog ob)) in *.
  pose proof (solve_answer solve (b_mesh B) ob' s (b_made B) A4 ltac:(rewrite A1; reflexivity) A3 LE) as H. cbn zeta in H. rewrite A1, A2 in H. cbn [fd_pile fd_soil fd_x2mesh fd_coarse fd_type fd_circ fd_E fd_nu fd_on] in H.
  assert (EM : b_mesh B = m) by (rewrite EB; reflexivity). assert (ED : b_made B = MD) by (rewrite EB; reflexivity). assert (EP : b_pile B = p) by (rewrite EB; reflexivity).
  eexists. split; [exact H|]. unfold soil_analysis. rewrite CB'. cbn [bind]. rewrite <- winkler_on_built, P1, P2. rewrite ED, EM, EP in *.
  rewrite <- (winkler_on_fewer _ _ _ _ _ _ _ _ _ _ _ _ _ CT (NF _)). apply switched; auto.
  pose proof (si_mesh _ _ _ _ _ _ _ _ _ _ _ SS) as ME. destruct (coefs_exist _ _ _ _ _ _ _ _ (type_after prog ty) circ (fst (material_after prog (E, nu))) (snd (material_after prog (E, nu))) ME HT) as (cs & CS & _). eauto.
Qed.
Print Assumptions C147_options.

(** Moment springs that are on while lateral springs are off: the analysis raises, whatever was constructed. *)
Lemma moments_need_lateral : forall solve ty circ E nu o p z es M l mi tf td tr ks cs, global_forces z l = Ok tf -> global_disp z l = Ok td -> global_restrained z l = Ok tr -> elem_matrices ty circ E nu p es = Ok (Some ks) ->
  moment_coefs ty circ E nu p es = Ok (Some cs) -> nan_free (length es) M = true -> usable (springs_of M) -> on_mt o = true -> on_py o = false -> winkler_on solve ty circ E nu o p z es M l mi = Err UserInputError.
Proof.
  intros solve ty circ E nu o p z es M l mi tf td tr ks cs GF GD GR KS CS NF US OM OP. unfold winkler_on. rewrite GF, GD, GR, KS, OM, OP, CS, NF. cbn [bind when_on]. unfold winkler_model, winkler.
  match goal with |- context [SpringModel.build ?k _ _] => set (K := k) end. assert (X : forall u k, SpringModel.build K u k = Err UserInputError).
  { intros u k. unfold SpringModel.build, soil_elements. change (w_py K) with (@None (nat -> nat -> SpringModel.curve)). cbn [opt_res bind].
    match goal with |- context [opt_res (w_tz K) ?d ?f] => destruct (opt_ok _ _ (w_tz K) d f) as (k2 & ->) end; [|reflexivity].
    intros tz ET. unfold tz_stiffness. destruct (collect_done _ (w_n K) (fun e => SpringModel.both (fun j => tz_spring (spring_disp (w_n K) u 0 e j) (tz e j) k))) as (l0 & ->); [|cbn [bind]; eauto].
    intros e _. apply both_ok. intros j. apply usable_tz_ok. change (w_tz K) with (when_on (on_tz o) (g_tz (springs_of M))) in ET. unfold when_on in ET. destruct (on_tz o); [|discriminate ET]. assert (EQ : tz = g_tz (springs_of M)) by congruence. rewrite EQ. apply US. }
  rewrite X. reflexivity.
Qed.
Theorem C147_moments_alone : forall rnd ch sort solve ty circ E nu o sections s x c p t b m ob prog, storage rnd -> fair_chance ch -> (forall rows, ascending_of (sort rows) rows) ->
  sound_site o sections (so_ground s) (so_water s) (so_layers s) x c p t b m -> new_in_soil rnd ch sort ty circ E nu o sections s x c = Ok (Some ob) ->
  forallb (fun o => negb (mesh_field o)) prog = true -> let o' := options_after prog o in on_mt o' = true -> on_py o' = false -> (type_after prog ty = Timoshenko -> circ = true) ->
  0 < fst (material_after prog (E, nu)) -> -(3#4) <= snd (material_after prog (E, nu)) ->
  EditSpec.shows (Err UserInputError) (fst (step solve Solve (snd (program solve prog ob)))).
Proof.
  intros rnd ch sort solve ty circ E nu o sections s x c p t b m ob prog ST FC SO SS NW PR o' OM OP HT PE PN. destruct (new_consistent _ _ _ _ _ _ _ _ _ _ _ _ _ NW) as (B & CB & CO & BM & BB & BF & _ & BE).
  destruct (program_fields solve prog _ _ PR CO) as (A1 & A2 & A3 & A4). rewrite BF in A1. cbn [fd_pile fd_soil fd_x2mesh fd_coarse fd_type fd_circ fd_E fd_nu fd_on] in A1. rewrite BB in A2. rewrite BM in A3. fold o' in A1.
  assert (LE : length (nodes_of (b_mesh B)) = S (length (elements_of (b_mesh B)))) by (apply mesh_joined; apply (coordinates_nonempty _ _ (proj1 CO))).
  destruct (constructed rnd ch sort o sections _ _ _ x c p t b m ST FC SO SS) as (sg & MD & CB1 & MS & NF & US & _ & _).
  rewrite CB in CB1. assert (EB : B = mkBuilt p m (setting_of o p b (sort (data_rows p)) (so_ground s) (so_water s) (map y_layer (so_layers s)) m sg) MD) by congruence. clear CB1.
  set (ob' := snd (program solve prog ob)) in *.
  pose proof (solve_answer solve (b_mesh B) ob' s (b_made B) A4 ltac:(rewrite A1; reflexivity) A3 LE) as H. cbn zeta in H. rewrite A1, A2 in H. cbn [fd_pile fd_soil fd_x2mesh fd_coarse fd_type fd_circ fd_E fd_nu fd_on] in H.
  assert (EM : b_mesh B = m) by (rewrite EB; reflexivity). assert (ED : b_made B = MD) by (rewrite EB; reflexivity). assert (EP : b_pile B = p) by (rewrite EB; reflexivity). rewrite ED, EM, EP in *.
  pose proof (si_mesh _ _ _ _ _ _ _ _ _ _ _ SS) as ME. destruct (coefs_exist _ _ _ _ _ _ _ _ (type_after prog ty) circ (fst (material_after prog (E, nu))) (snd (material_after prog (E, nu))) ME HT) as (cs & CS & _).
  destruct (analysis_unfold rnd ch sort o sections _ _ _ x c p t b m ST FC SO SS solve (type_after prog ty) circ _ _ PE PN HT) as (ks & mc & g0 & _ & _ & KS & _ & _ & TT).
  destruct (TT (calls_in prog) 100%nat) as (tf & td & tr & GF & GD & GR & _).
  rewrite (moments_need_lateral solve _ _ _ _ o' p _ _ MD _ 100 tf td tr ks cs GF GD GR KS CS (NF _) US OM OP) in H. exact H.
Qed.
Print Assumptions C147_moments_alone.

(** ** Example: the pile of C107 constructed with its base springs only; all springs are switched on, then the base shear is switched off *)
Definition base_only : options := mkOptions false false true true false true.
Definition later : options := mkOptions true true false true true true.
Definition change_mind (cs : list call) : list op := AOptions all_on :: AOptions later :: map Call cs.
Example C147_example : exists ob, new_in_soil rnd0 ch0 sort0 EulerBernoulli true 210 0 base_only ex_l ex_soil [-1] 2 = Ok (Some ob) /\
  forall solve cs, solver_ok solve -> let prog := change_mind cs in both_on (options_after prog base_only) base_only = mkOptions false false false true false true /\
  exists a, EditSpec.shows a (fst (step solve Solve (snd (program solve prog ob)))) /\
  same_answer (3 * length (elements_of mesh1) + 3) a (soil_analysis rnd0 ch0 sort0 solve EulerBernoulli true 210 0 (mkOptions false false false true false true) ex_l 0 (-1) FullProps.soil0 [-1] 2 cs 100).
Proof.
  destruct C107_example as (ST & FC & SO & _). destruct (ex_new base_only) as (ob & NW & _). exists ob. split; [exact NW|]. intros solve cs SV prog.
  assert (MC : forall l o, options_after (map Call l) o = o) by (induction l as [|a l IH]; intros o; [reflexivity|exact (IH o)]).
  assert (MT : forall l o, type_after (map Call l) o = o) by (induction l as [|a l IH]; intros o; [reflexivity|exact (IH o)]).
  assert (MM : forall l o, material_after (map Call l) o = o) by (induction l as [|a l IH]; intros o; [reflexivity|exact (IH o)]).
  assert (MI : forall l, calls_in (map Call l) = l) by (induction l as [|a l IH]; [reflexivity|unfold calls_in; cbn [map flat_map app]; f_equal; exact IH]).
  assert (OA : options_after prog base_only = later) by exact (MC cs later). assert (TA : type_after prog EulerBernoulli = EulerBernoulli) by exact (MT cs EulerBernoulli). assert (MA : material_after prog (210, 0) = (210, 0)) by exact (MM cs (210, 0)).
  assert (CI : calls_in prog = cs) by exact (MI cs).
  assert (PR : forallb (fun o => negb (mesh_field o)) prog = true) by (unfold prog, change_mind; cbn [forallb mesh_field negb andb]; apply forallb_forall; intros op I; apply in_map_iff in I; destruct I as (cl & <- & _); reflexivity).
  split; [rewrite OA; reflexivity|].
  pose proof (C147_options rnd0 ch0 sort0 solve EulerBernoulli true 210 0 base_only ex_l ex_soil [-1] 2 ex_p 2 (-8) mesh1 ob prog ST FC SO SV (site_exists base_only) NW PR) as H. cbv zeta in H. rewrite OA, TA, MA, CI in H.
  apply H; [discriminate|reflexivity|discriminate].
Qed.

