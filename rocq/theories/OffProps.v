(** C146: springs that are switched off after the construction of a model take no part in the analysis, but its report goes on
    showing them as mobilised. *)
From Coq Require Import List Bool Arith ZArith QArith Qabs Reals Lia Lqa Lra.
From Verif Require Import Base LinAlg BCModel PileModel MeshModel StressModel StressProps BeamModel SolveModel SpringModel SpringProofs WinklerModel CreateModel CreateProps WholeModel WholeSpec WholeProofs AxialModel CapacityModel CapacityProps
  StressSpec ResultModel ResultSpec ResultProofs FullModel FullSpec FullProps SiteProofs AnalysisProofs BCSpec BCProofs SolveSpec ApartSpec GentleProofs GentleCalls StillProofs StillProps GentleProps EditModel EditSpec EditProofs EditProps LiveSpec LiveProofs KeenProps OffModel.
Import ListNotations.
Local Open Scope Q_scope.

(** ** Lemmas *)
Lemma site_fewer : forall o o' sections gr wt ys x c p t b m, fewer o' o -> sound_site o sections gr wt ys x c p t b m -> sound_site o' sections gr wt ys x c p t b m.
Proof.
  intros o o' sections gr wt ys x c p t b m (F1 & F2 & F3 & F4 & F5 & F6) [A1 A2 A3 A4 A5 A6 A7 [B1 B2 B3 B4 B5]]. constructor; try assumption. constructor.
  - intros y md s z ON. exact (B1 y md s z (F1 ON)).
  - intros y md s z ON. exact (B2 y md s z (F2 ON)).
  - intros y md s ON. apply (B3 y md s). destruct ON as [ON|ON]; apply andb_true_iff in ON; destruct ON as [O1 O2]; [left; rewrite (F3 O1)|right; rewrite (F4 O1)]; exact O2.
  - exact B4.
  - intros y s ON. exact (B5 y s (F6 ON)).
Qed.

Lemma report_is : forall solve m ob s M, consistent m ob -> fd_soil (ob_fields ob) = Some s -> ob_made ob = Some M -> length (nodes_of m) = S (length (elements_of m)) ->
  let f := ob_fields ob in report_object solve ob = Some (report_on solve (fd_type f) (fd_circ f) (fd_E f) (fd_nu f) (fd_on f) (fd_pile f) (nodes_of m) (elements_of m) M (ob_bcs ob) 100).
Proof.
  intros solve m ob s M C SO MA LE f. unfold report_object. fold f. fold f in SO.
  destruct (read_nodes_consistent m ob C) as (-> & _). destruct (read_elems_consistent m ob C) as (-> & _). rewrite SO, MA, LE, Nat.eqb_refl. f_equal; f_equal.
Qed.

(** Two analyses with the same stiffness matrices: the springs that are switched on are the same *)
Definition alike_result (M : wmodel) (nodes : list Q) (g g' : FullModel.springs) (a b : res (option result)) : Prop :=
  (exists e, a = Err e /\ b = Err e) \/ (a = Ok None /\ b = Ok None) \/
  exists out w w', a = Ok (Some w) /\ b = Ok (Some w') /\
    result_of M nodes (g_py g) (g_mt g) (g_hb g) (g_mb g) out = Ok w /\ result_of M nodes (g_py g') (g_mt g') (g_hb g') (g_mb g') out = Ok w'.

Lemma report_alike : forall solve ty circ E nu o' p z es M M' l mi, cut o' M' M -> nan_free (length es) M = true -> usable (springs_of M) -> usable (springs_of M') ->
  exists K, w_n K = length es /\ alike_result K z (springs_of M) (springs_of M') (report_on solve ty circ E nu o' p z es M l mi) (report_on solve ty circ E nu o' p z es M' l mi).
Proof.
  intros solve ty circ E nu o' p z es M M' l mi CT NF U U'. pose proof (cut_nan _ _ _ _ CT NF) as NF'. destruct (cut_same _ _ _ CT) as (C1 & C2 & C3 & C4 & C5 & C6).
  unfold report_on. rewrite NF, NF'. rewrite C1, C2, C3, C4, C5, C6. clear C1 C2 C3 C4 C5 C6.
  set (K0 := soil_model p es [] None None None (fun e => nth e [] (0, 0, 0, 0)) None None None).
  assert (D : exists K, w_n K = length es) by (exists K0; reflexivity). destruct D as (KD & DK).
  destruct (global_forces z l) as [tf|e]; cbn [bind]; [|exists KD; split; [exact DK|left; eauto]]. destruct (global_disp z l) as [td|e]; cbn [bind]; [|exists KD; split; [exact DK|left; eauto]].
  destruct (global_restrained z l) as [tr|e]; cbn [bind]; [|exists KD; split; [exact DK|left; eauto]]. destruct (elem_matrices ty circ E nu p es) as [ks|e]; cbn [bind]; [|exists KD; split; [exact DK|left; eauto]].
  destruct (if on_mt o' then moment_coefs ty circ E nu p es else Ok (Some [])) as [cs|e]; cbn [bind]; [|exists KD; split; [exact DK|left; eauto]].
  destruct ks as [ks|]; [|exists KD; split; [exact DK|right; left; auto]]. destruct cs as [cs|]; [|exists KD; split; [exact DK|right; left; auto]].
  match goal with |- context [winkler_model solve ?k _ _ _ _] => set (K := k) end. exists K. split; [reflexivity|].
  destruct (winkler_model solve K (dof_vector tf) (dof_vector td) (dof_flags tr) mi) as [out|e]; cbn [bind]; [|left; eauto].
  destruct (report_exists K z (springs_of M) out U) as (w & EW & _). destruct (report_exists K z (springs_of M') out U') as (w' & EW' & _).
  rewrite EW, EW'. cbn [bind]. right. right. exists out, w, w'. auto.
Qed.

Lemma result_fields : forall K z py mt hb mb out w, result_of K z py mt hb mb out = Ok w ->
  exists mob h m, springs_mob K z py mt (o_d out) = Ok mob /\ base_report (option_map (fun v => v (SpringModel.size K - 2)%nat) (o_d out)) hb = Ok h /\
    base_report (option_map (fun v => v (SpringModel.size K - 1)%nat) (o_d out)) mb = Ok m /\
    res_disp w = option_map (disp_rows z) (o_d out) /\ res_forces w = option_map (fun v => structural_forces z (pile_internal_forces (S (w_n K)) (w_mech K) v) (map (w_L K) (seq 0 (w_n K)))) (o_d out) /\
    res_reac w = reac_table z (o_Q out) /\ res_mob w = Some mob /\ res_hb w = Some h /\ res_mb w = Some m /\ res_iter w = o_iter out.
Proof.
  intros K z py mt hb mb out w H. unfold result_of in H.
  destruct (springs_mob _ _ _ _ _) as [mob|]; cbn [bind] in H; [|discriminate H]. destruct (base_report _ hb) as [h|]; cbn [bind] in H; [|discriminate H]. destruct (base_report _ mb) as [m|]; cbn [bind] in H; [|discriminate H].
  assert (EQ : forall a b : result, Ok a = Ok b -> b = a) by congruence. apply EQ in H. subst w. exists mob, h, m. cbn [res_disp res_forces res_reac res_mob res_hb res_mb res_iter]. repeat split; reflexivity.
Qed.

(** What the report of a model constructed without some springs is made of *)
Definition cut_springs_of (o' : options) (g' g : FullModel.springs) : Prop :=
  (if on_py o' then g_py g' = g_py g else forall e j, g_py g' e j = no_points) /\ (on_mt o' = true -> g_mt g' = g_mt g) /\
  (if on_hb o' then g_hb g' = g_hb g else g_hb g' = no_points) /\ (if on_mb o' then g_mb g' = g_mb g else g_mb g' = no_points).
Lemma cut_cut : forall o' M' M, cut o' M' M -> cut_springs_of o' (springs_of M') (springs_of M).
Proof.
  intros o' M' M (C1 & C2 & C3 & C4 & C5 & C6). unfold cut_springs_of, part, springs_of in *. cbn [g_py g_mt g_tz g_hb g_mb g_qz]. split; [|split; [|split]].
  - destruct (on_py o'); [rewrite C1; reflexivity|intros e j; rewrite C1; reflexivity].
  - intros ON. rewrite ON in C2. rewrite C2. reflexivity.
  - destruct (on_hb o'); rewrite C4; reflexivity.
  - destruct (on_mb o'); rewrite C5; reflexivity.
Qed.

(** The object and the model constructed with the options it has come to have *)
Lemma reports_of : forall rnd ch sort solve ty circ E nu o sections s x c p t b m ob prog, storage rnd -> fair_chance ch -> (forall rows, ascending_of (sort rows) rows) ->
  sound_site o sections (so_ground s) (so_water s) (so_layers s) x c p t b m -> new_in_soil rnd ch sort ty circ E nu o sections s x c = Ok (Some ob) ->
  forallb (fun o => negb (mesh_field o)) prog = true -> fewer (options_after prog o) o ->
  exists K g g' a, w_n K = length (elements_of m) /\ usable g /\ cut_springs_of (options_after prog o) g' g /\
    (forall i, (i < length (elements_of m))%nat -> own_springs rnd ch o sections (so_ground s) (so_water s) b (so_layers s) m g i 1) /\
    report_object solve (snd (program solve prog ob)) = Some a /\
    alike_result K (nodes_of m) g g' a (soil_report rnd ch sort solve (type_after prog ty) circ (fst (material_after prog (E, nu))) (snd (material_after prog (E, nu))) (options_after prog o) sections (so_ground s) (so_water s) (so_layers s) x c (calls_in prog) 100).
Proof.
  intros rnd ch sort solve ty circ E nu o sections s x c p t b m ob prog ST FC SO SS NW PR FW. destruct (new_consistent _ _ _ _ _ _ _ _ _ _ _ _ _ NW) as (B & CB & CO & BM & BB & BF & _ & BE).
  destruct (program_fields solve prog _ _ PR CO) as (A1 & A2 & A3 & A4). rewrite BF in A1. cbn [fd_pile fd_soil fd_x2mesh fd_coarse fd_type fd_circ fd_E fd_nu fd_on] in A1. rewrite BB in A2. rewrite BM in A3.
  destruct (construct_fewer rnd ch sort o (options_after prog o) sections s x c B FW CB) as (B' & CB' & P1 & P2 & CT).
  assert (LE : length (nodes_of (b_mesh B)) = S (length (elements_of (b_mesh B)))) by (apply mesh_joined; apply (coordinates_nonempty _ _ (proj1 CO))).
  destruct (constructed rnd ch sort o sections _ _ _ x c p t b m ST FC SO SS) as (sg & MD & CB1 & _ & NF & US & OW & _).
  destruct (constructed rnd ch sort (options_after prog o) sections _ _ _ x c p t b m ST FC SO (site_fewer _ _ _ _ _ _ _ _ _ _ _ _ FW SS)) as (sg' & MD' & CB1' & _ & _ & US' & _ & _).
  rewrite CB in CB1. assert (EB : B = mkBuilt p m (setting_of o p b (sort (data_rows p)) (so_ground s) (so_water s) (map y_layer (so_layers s)) m sg) MD) by congruence. clear CB1.
  rewrite CB' in CB1'. assert (EB' : b_made B' = MD') by (assert (Q0 : Some B' = Some (mkBuilt p m (setting_of (options_after prog o) p b (sort (data_rows p)) (so_ground s) (so_water s) (map y_layer (so_layers s)) m sg') MD')) by congruence; apply (f_equal (fun v => match v with Some b => b_made b | None => MD' end)) in Q0; exact Q0).
  set (ob' := snd (program solve prog ob)) in *.
  pose proof (report_is solve (b_mesh B) ob' s (b_made B) A4 ltac:(rewrite A1; reflexivity) A3 LE) as H. cbn zeta in H. rewrite A1, A2 in H. cbn [fd_pile fd_soil fd_x2mesh fd_coarse fd_type fd_circ fd_E fd_nu fd_on] in H.
  assert (EM : b_mesh B = m) by (rewrite EB; reflexivity). assert (ED : b_made B = MD) by (rewrite EB; reflexivity). rewrite EM, ED in *. rewrite EB' in CT.
  destruct (report_alike solve (type_after prog ty) circ (fst (material_after prog (E, nu))) (snd (material_after prog (E, nu))) (options_after prog o) (b_pile B) (nodes_of m) (elements_of m) MD MD' (run (calls_in prog) []) 100 CT (NF _) US US') as (K & KN & AL).
  exists K, (springs_of MD), (springs_of MD'). eexists. split; [exact KN|]. split; [exact US|]. split; [apply cut_cut; exact CT|]. split; [intros i Hi; apply OW; [exact Hi|lia]|]. split; [exact H|].
  unfold soil_report. rewrite CB'. cbn [bind]. rewrite EB', P1, P2. exact AL.
Qed.

(** The same, for the springs that the object holds *)
Lemma reports_made : forall rnd ch sort solve ty circ E nu o sections s x c p t b m ob prog MD0, storage rnd -> fair_chance ch -> (forall rows, ascending_of (sort rows) rows) ->
  sound_site o sections (so_ground s) (so_water s) (so_layers s) x c p t b m -> new_in_soil rnd ch sort ty circ E nu o sections s x c = Ok (Some ob) -> ob_made ob = Some MD0 ->
  forallb (fun o => negb (mesh_field o)) prog = true -> fewer (options_after prog o) o ->
  let g := springs_of MD0 in exists K g' a, w_n K = length (elements_of m) /\ cut_springs_of (options_after prog o) g' g /\ usable g /\
    report_object solve (snd (program solve prog ob)) = Some a /\
    alike_result K (nodes_of m) g g' a (soil_report rnd ch sort solve (type_after prog ty) circ (fst (material_after prog (E, nu))) (snd (material_after prog (E, nu))) (options_after prog o) sections (so_ground s) (so_water s) (so_layers s) x c (calls_in prog) 100).
Proof.
  intros rnd ch sort solve ty circ E nu o sections s x c p t b m ob prog MD0 ST FC SO SS NW OM PR FW g. destruct (new_consistent _ _ _ _ _ _ _ _ _ _ _ _ _ NW) as (B & CB & CO & BM & BB & BF & _ & BE).
  destruct (program_fields solve prog _ _ PR CO) as (A1 & A2 & A3 & A4). rewrite BF in A1. cbn [fd_pile fd_soil fd_x2mesh fd_coarse fd_type fd_circ fd_E fd_nu fd_on] in A1. rewrite BB in A2. rewrite BM in A3.
  destruct (construct_fewer rnd ch sort o (options_after prog o) sections s x c B FW CB) as (B' & CB' & P1 & P2 & CT).
  assert (LE : length (nodes_of (b_mesh B)) = S (length (elements_of (b_mesh B)))) by (apply mesh_joined; apply (coordinates_nonempty _ _ (proj1 CO))).
  destruct (constructed rnd ch sort o sections _ _ _ x c p t b m ST FC SO SS) as (sg & MD & CB1 & _ & NF & US & OW & _).
  destruct (constructed rnd ch sort (options_after prog o) sections _ _ _ x c p t b m ST FC SO (site_fewer _ _ _ _ _ _ _ _ _ _ _ _ FW SS)) as (sg' & MD' & CB1' & _ & _ & US' & _ & _).
  rewrite CB in CB1. assert (EB : B = mkBuilt p m (setting_of o p b (sort (data_rows p)) (so_ground s) (so_water s) (map y_layer (so_layers s)) m sg) MD) by congruence. clear CB1.
  rewrite CB' in CB1'. assert (EB' : b_made B' = MD') by (assert (Q0 : Some B' = Some (mkBuilt p m (setting_of (options_after prog o) p b (sort (data_rows p)) (so_ground s) (so_water s) (map y_layer (so_layers s)) m sg') MD')) by congruence; apply (f_equal (fun v => match v with Some b => b_made b | None => MD' end)) in Q0; exact Q0).
  set (ob' := snd (program solve prog ob)) in *.
  pose proof (report_is solve (b_mesh B) ob' s (b_made B) A4 ltac:(rewrite A1; reflexivity) A3 LE) as H. cbn zeta in H. rewrite A1, A2 in H. cbn [fd_pile fd_soil fd_x2mesh fd_coarse fd_type fd_circ fd_E fd_nu fd_on] in H.
  assert (EM : b_mesh B = m) by (rewrite EB; reflexivity). assert (ED : b_made B = MD) by (rewrite EB; reflexivity). rewrite EM, ED in *. rewrite EB' in CT.
  destruct (report_alike solve (type_after prog ty) circ (fst (material_after prog (E, nu))) (snd (material_after prog (E, nu))) (options_after prog o) (b_pile B) (nodes_of m) (elements_of m) MD MD' (run (calls_in prog) []) 100 CT (NF _) US US') as (K & KN & AL).
  assert (MD0 = MD) by congruence. subst MD0. unfold g. exists K, (springs_of MD'). eexists. split; [exact KN|]. split; [apply cut_cut; exact CT|]. split; [exact US|]. split; [exact H|].
  unfold soil_report. rewrite CB'. cbn [bind]. rewrite EB', P1, P2. exact AL.
Qed.

(** C146: full statement: the report of a model whose springs have been switched off is the report of a model constructed without them.
    Proved: the displacements, the forces in the pile, the reactions and the number of passes are; so is every table of springs that are
    still switched on.  False for the tables of springs that are switched off, see below. *)
Theorem C146_tables_partial : forall rnd ch sort solve ty circ E nu o sections s x c p t b m ob prog, storage rnd -> fair_chance ch -> (forall rows, ascending_of (sort rows) rows) ->
  sound_site o sections (so_ground s) (so_water s) (so_layers s) x c p t b m -> new_in_soil rnd ch sort ty circ E nu o sections s x c = Ok (Some ob) ->
  forallb (fun o => negb (mesh_field o)) prog = true -> let o' := options_after prog o in fewer o' o ->
  exists a, report_object solve (snd (program solve prog ob)) = Some a /\
  match a, soil_report rnd ch sort solve (type_after prog ty) circ (fst (material_after prog (E, nu))) (snd (material_after prog (E, nu))) o' sections (so_ground s) (so_water s) (so_layers s) x c (calls_in prog) 100 with
  | Err e, Err e' => e = e'
  | Ok None, Ok None => True
  | Ok (Some w), Ok (Some w') => res_disp w = res_disp w' /\ res_forces w = res_forces w' /\ res_reac w = res_reac w' /\ res_iter w = res_iter w' /\
      (on_py o' = true -> on_mt o' = true -> res_mob w = res_mob w') /\ (on_py o' = true -> py_mobilization w = py_mobilization w') /\
      (on_hb o' = true -> res_hb w = res_hb w') /\ (on_mb o' = true -> res_mb w = res_mb w')
  | _, _ => False
  end.
Proof.
  intros rnd ch sort solve ty circ E nu o sections s x c p t b m ob prog ST FC SO SS NW PR o' FW.
  destruct (reports_of rnd ch sort solve ty circ E nu o sections s x c p t b m ob prog ST FC SO SS NW PR FW) as (K & g & g' & a & KN & US & (D1 & D2 & D3 & D4) & _ & RO & AL). fold o' in D1, D2, D3, D4, AL.
  exists a. split; [exact RO|]. destruct AL as [(e & -> & ->)|[[-> ->]|(out & w & w' & -> & -> & R & R')]]; [reflexivity|exact Logic.I|].
  destruct (result_fields _ _ _ _ _ _ _ _ R) as (mob & h & mm & A1 & A2 & A3 & A4 & A5 & A6 & A7 & A8 & A9 & A10). destruct (result_fields _ _ _ _ _ _ _ _ R') as (mob' & h' & mm' & B1 & B2 & B3 & B4 & B5 & B6 & B7 & B8 & B9 & B10).
  do 4 (split; [congruence|]). split; [|split; [|split]].
  - intros O1 O2. rewrite O1 in D1. rewrite D1, (D2 O2) in B1. congruence.
  - intros O1. rewrite O1 in D1. rewrite D1 in B1. unfold py_mobilization. rewrite A7, B7. cbn [option_map]. f_equal. revert A1 B1. unfold springs_mob. destruct (o_d out) as [u|].
    + destruct (py_stiffness K (g_py g) u Secant) as [lp|]; cbn [bind]; [|discriminate]. destruct (mt_stiffness K (g_py g) (g_mt g) u Secant) as [lm|]; cbn [bind]; [|discriminate]. destruct (mt_stiffness K (g_py g) (g_mt g') u Secant) as [lm'|]; cbn [bind]; [|discriminate].
      intros X Y. assert (EQ : forall a b : list mob_row, Ok a = Ok b -> b = a) by congruence. apply EQ in X. apply EQ in Y. subst mob mob'. rewrite !map_map. apply map_ext. intros [e j]. reflexivity.
    + intros X Y. assert (EQ : forall a b : list mob_row, Ok a = Ok b -> b = a) by congruence. apply EQ in X. apply EQ in Y. subst mob mob'. rewrite !map_map. apply map_ext. intros [e j]. reflexivity.
  - intros O1. rewrite O1 in D3. rewrite D3 in B2. congruence.
  - intros O1. rewrite O1 in D4. rewrite D4 in B3. congruence.
Qed.
Print Assumptions C146_tables_partial.

(** Springs that are switched off go on being reported: wherever the soil had resistance and the pile moves, the table of the object
    shows a lateral resistance that is mobilised, and the table of the model constructed without the springs shows none. *)
Theorem C146_switched_off_refuted : forall rnd ch sort solve ty circ E nu o sections s x c p t b m ob prog, storage rnd -> fair_chance ch -> (forall rows, ascending_of (sort rows) rows) ->
  sound_site o sections (so_ground s) (so_water s) (so_layers s) x c p t b m -> new_in_soil rnd ch sort ty circ E nu o sections s x c = Ok (Some ob) ->
  forallb (fun o => negb (mesh_field o)) prog = true -> let o' := options_after prog o in fewer o' o -> on_py o = true -> on_py o' = false ->
  forall w, report_object solve (snd (program solve prog ob)) = Some (Ok (Some w)) ->
  exists w' mob mob', soil_report rnd ch sort solve (type_after prog ty) circ (fst (material_after prog (E, nu))) (snd (material_after prog (E, nu))) o' sections (so_ground s) (so_water s) (so_layers s) x c (calls_in prog) 100 = Ok (Some w') /\
  res_mob w = Some mob /\ res_mob w' = Some mob' /\
  forall rows i z uz uy th, res_disp w = Some rows -> (S i < length (elements_of m))%nat -> resisting_layer (so_ground s) (so_layers s) (nth i (elements_of m) (0, 0)) ->
    nth_error rows (S i) = Some (z, (uz, uy, th)) -> ~ uy == 0 ->
    (exists q, r_p (nth (2 * i + 1) mob no_row) = Some q /\ 0 < q) /\ exists q', r_p (nth (2 * i + 1) mob' no_row) = Some q' /\ q' == 0 /\ r_pmax (nth (2 * i + 1) mob' no_row) == 0.
Proof.
  intros rnd ch sort solve ty circ E nu o sections s x c p t b m ob prog ST FC SO SS NW PR o' FW ON OFF w HW.
  destruct (reports_of rnd ch sort solve ty circ E nu o sections s x c p t b m ob prog ST FC SO SS NW PR FW) as (K & g & g' & a & KN & US & (D1 & _) & OW & RO & AL). fold o' in D1, AL. rewrite OFF in D1.
  assert (a = Ok (Some w)) by congruence. subst a. destruct AL as [(e & X & _)|[[X _]|(out & w1 & w' & X & RS & R & R')]]; try discriminate X. assert (w1 = w) by congruence. subst w1. clear X.
  destruct (result_fields _ _ _ _ _ _ _ _ R) as (mob & h & mm & A1 & _ & _ & A4 & _ & _ & A7 & _). destruct (result_fields _ _ _ _ _ _ _ _ R') as (mob' & h' & mm' & B1 & _ & _ & _ & _ & _ & B7 & _).
  exists w', mob, mob'. split; [exact RS|]. split; [exact A7|]. split; [exact B7|]. intros rows i z uz uy th RD Hi RL NE NZ.
  rewrite A4 in RD. destruct (o_d out) as [u|]; [|discriminate RD]. cbn [option_map] in RD. assert (ER : rows = disp_rows (nodes_of m) u) by congruence. subst rows.
  pose proof (si_mesh _ _ _ _ _ _ _ _ _ _ _ SS) as MS. destruct (meshed_nonempty _ _ _ _ _ _ _ _ MS) as [NEM _]. pose proof (nodes_elems_count m NEM) as LN.
  assert (EU : uy = u (3 * S i + 1)%nat).
  { destruct (nth_error (nodes_of m) (S i)) as [zz|] eqn:EZ; [|apply nth_error_None in EZ; lia]. rewrite (disp_rows_nth _ u _ _ EZ) in NE. congruence. }
  assert (SD : spring_disp (w_n K) u 1 i 1 = uy).
  { rewrite spring_disp_node by lia. unfold spring_node. destruct (Nat.eqb_spec i (w_n K - 1)); [lia|]. cbn [andb]. rewrite EU. f_equal. lia. }
  destruct (rows_inv _ _ _ _ _ _ A1) as [_ RA]. destruct (RA i 1%nat no_row ltac:(lia) ltac:(lia)) as (kp & km & P1 & _ & P3). cbv zeta in P1, P3. rewrite SD in P1, P3.
  destruct (rows_inv _ _ _ _ _ _ B1) as [_ RB]. destruct (RB i 1%nat no_row ltac:(lia) ltac:(lia)) as (kp' & km' & Q1 & _ & Q3). cbv zeta in Q1, Q3. rewrite SD in Q1, Q3.
  assert (RP : resists (g_py g i 1)) by (eapply layer_resists; eauto; [lia|apply OW; lia]).
  destruct US as (U1 & _). destruct (resists_secant uy (g_py g i 1) (proj1 (U1 i 1%nat)) RP) as (s2 & E1 & E2). assert (s2 = kp) by congruence. subst s2. split.
  - rewrite P3. cbn [r_p]. exists (Qabs (uy * kp)). split; [reflexivity|]. rewrite Qabs_Qmult, (Qabs_pos kp) by (apply Qlt_le_weak; exact E2).
    apply Qmult_lt_0_compat; [|exact E2]. apply Qabs_case; intros; destruct (Qlt_le_dec 0 uy); destruct (Qlt_le_dec uy 0); try Lqa.lra; exfalso; apply NZ; Lqa.lra.
  - rewrite Q3. cbn [r_p r_pmax]. rewrite (D1 i 1%nat) in *. assert (AB : ResultSpec.absent no_points).
    { split; [discriminate|]. intros q IQ. apply repeat_spec in IQ. subst q. split; reflexivity. }
    destruct (absent_zero no_points uy AB) as [Z1 Z2]. assert (kp' = 0) by congruence. subst kp'. exists (Qabs (uy * 0)). split; [reflexivity|]. split; [|exact Z2].
    rewrite (Qmult_0_r uy). reflexivity.
Qed.
Print Assumptions C146_switched_off_refuted.

(** The springs at the tip: the report of the object is made from the curves of the construction, that of the model constructed without
    the springs shows zeros. *)
Theorem C146_base_off_refuted : forall rnd ch sort solve ty circ E nu o sections s x c p t b m ob prog MD, storage rnd -> fair_chance ch -> (forall rows, ascending_of (sort rows) rows) ->
  sound_site o sections (so_ground s) (so_water s) (so_layers s) x c p t b m -> new_in_soil rnd ch sort ty circ E nu o sections s x c = Ok (Some ob) -> ob_made ob = Some MD ->
  forallb (fun o => negb (mesh_field o)) prog = true -> let o' := options_after prog o in fewer o' o ->
  forall w, report_object solve (snd (program solve prog ob)) = Some (Ok (Some w)) ->
  exists w' h k h' k', soil_report rnd ch sort solve (type_after prog ty) circ (fst (material_after prog (E, nu))) (snd (material_after prog (E, nu))) o' sections (so_ground s) (so_water s) (so_layers s) x c (calls_in prog) 100 = Ok (Some w') /\
  res_hb w = Some h /\ res_mb w = Some k /\ res_hb w' = Some h' /\ res_mb w' = Some k' /\
  let tip := option_map (fun rows => nth (length (elements_of m)) rows (0, (0, 0, 0))) (res_disp w) in
  base_reports (option_map second3 tip) (g_hb (springs_of MD)) h /\ base_reports (option_map third3 tip) (g_mb (springs_of MD)) k /\
  (on_hb o' = false -> snd h' == 0 /\ forall q, fst h' = Some q -> q == 0) /\ (on_mb o' = false -> snd k' == 0 /\ forall q, fst k' = Some q -> q == 0).
Proof.
  intros rnd ch sort solve ty circ E nu o sections s x c p t b m ob prog MD ST FC SO SS NW OM PR o' FW w HW.
  destruct (reports_made rnd ch sort solve ty circ E nu o sections s x c p t b m ob prog MD ST FC SO SS NW OM PR FW) as (K & g' & a & KN & (_ & _ & D3 & D4) & US & RO & AL). fold o' in D3, D4, AL. set (g := springs_of MD) in *.
  assert (a = Ok (Some w)) by congruence. subst a. destruct AL as [(e & X & _)|[[X _]|(out & w1 & w' & X & RS & R & R')]]; try discriminate X. assert (w1 = w) by congruence. subst w1. clear X.
  destruct (result_fields _ _ _ _ _ _ _ _ R) as (mob & h & k & _ & A2 & A3 & A4 & _ & _ & _ & A8 & A9 & _). destruct (result_fields _ _ _ _ _ _ _ _ R') as (mob' & h' & k' & _ & B2 & B3 & _ & _ & _ & _ & B8 & B9 & _).
  exists w', h, k, h', k'. do 5 (split; [assumption|]). intros tip.
  pose proof (si_mesh _ _ _ _ _ _ _ _ _ _ _ SS) as MS. destruct (meshed_nonempty _ _ _ _ _ _ _ _ MS) as [NEM _]. pose proof (nodes_elems_count m NEM) as LN.
  assert (ET : option_map second3 tip = option_map (fun v => v (SpringModel.size K - 2)%nat) (o_d out) /\ option_map third3 tip = option_map (fun v => v (SpringModel.size K - 1)%nat) (o_d out)).
  { unfold tip. rewrite A4. destruct (o_d out) as [u|]; cbn [option_map]; [|auto]. destruct (nth_error (nodes_of m) (length (elements_of m))) as [zz|] eqn:EZ; [|apply nth_error_None in EZ; lia].
    rewrite (nth_error_nth _ _ _ (disp_rows_nth _ u _ _ EZ)). unfold second3, third3, SpringModel.size. cbn [fst snd]. rewrite KN. split; f_equal; f_equal; lia. }
  destruct ET as [-> ->].
  assert (NE : forall c0, usable_base c0 -> c0 <> []) by (intros c0 [(L & _) _] ->; discriminate L). destruct US as (_ & _ & _ & U4 & U5 & _).
  split; [apply base_report_is; [exact (NE _ U4)|exact A2]|]. split; [apply base_report_is; [exact (NE _ U5)|exact A3]|].
  assert (Z : forall u rep, base_report u no_points = Ok rep -> snd rep == 0 /\ forall q, fst rep = Some q -> q == 0).
  { intros u rep BR. apply base_report_is in BR; [|discriminate]. destruct BR as [[_ (y & IY & EY)] BU].
    assert (Y0 : forall y, In y (map snd no_points ++ map fst no_points) -> y == 0).
    { intros y0 I0. apply in_app_iff in I0. destruct I0 as [I0|I0]; apply in_map_iff in I0; destruct I0 as (q & <- & IQ); apply repeat_spec in IQ; subst q; reflexivity. }
    split; [rewrite <- EY || rewrite EY; exact (Y0 y IY)|]. intros q Hq. destruct u as [u|]; [|congruence]. destruct BU as (k0 & BS & q0 & E0 & E1). assert (q0 = q) by congruence. subst q0. rewrite E1.
    assert (k0 == 0); [|rewrite H; ring]. revert BS. unfold base_spring. change (Qeq_bool (qsum (map snd no_points)) 0) with true. cbv iota. intros BS. assert (k0 = 0) by congruence. subst k0. reflexivity. }
  split; intros OFF.
  - rewrite OFF in D3. rewrite D3 in B2. exact (Z _ _ B2).
  - rewrite OFF in D4. rewrite D4 in B3. exact (Z _ _ B3).
Qed.
Print Assumptions C146_base_off_refuted.

(** The report is that of the analysis the object runs *)
Theorem C146_report : forall rnd ch sort solve ty circ E nu o sections s x c p t b m ob prog r, storage rnd -> fair_chance ch -> (forall rows, ascending_of (sort rows) rows) ->
  sound_site o sections (so_ground s) (so_water s) (so_layers s) x c p t b m -> new_in_soil rnd ch sort ty circ E nu o sections s x c = Ok (Some ob) ->
  forallb (fun o => negb (mesh_field o)) prog = true -> let ob' := snd (program solve prog ob) in
  fst (step solve Solve ob') = Winkler (Ok (Some r)) -> exists w, report_object solve ob' = Some (Ok (Some w)) /\ LiveSpec.shows (nodes_of m) r w.
Proof.
  intros rnd ch sort solve ty circ E nu o sections s x c p t b m ob prog r ST FC SO SS NW PR ob' HS. destruct (new_consistent _ _ _ _ _ _ _ _ _ _ _ _ _ NW) as (B & CB & CO & BM & BB & BF & _ & BE).
  destruct (program_fields solve prog _ _ PR CO) as (A1 & A2 & A3 & A4). fold ob' in A1, A2, A3, A4. rewrite BF in A1. cbn [fd_pile fd_soil fd_x2mesh fd_coarse fd_type fd_circ fd_E fd_nu fd_on] in A1. rewrite BM in A3.
  assert (LE : length (nodes_of (b_mesh B)) = S (length (elements_of (b_mesh B)))) by (apply mesh_joined; apply (coordinates_nonempty _ _ (proj1 CO))).
  destruct (constructed rnd ch sort o sections _ _ _ x c p t b m ST FC SO SS) as (sg & MD & CB1 & _ & NF & US & _ & _). rewrite CB in CB1.
  assert (EB : b_mesh B = m /\ b_made B = MD) by (split; [apply (f_equal (fun v => match v with Ok (Some b0) => b_mesh b0 | _ => [] end)) in CB1|apply (f_equal (fun v => match v with Ok (Some b0) => b_made b0 | _ => MD end)) in CB1]; exact CB1).
  destruct EB as [EM ED]. pose proof (report_is solve (b_mesh B) ob' s (b_made B) A4 ltac:(rewrite A1; reflexivity) A3 LE) as HR. cbn zeta in HR.
  pose proof (solve_answer solve (b_mesh B) ob' s (b_made B) A4 ltac:(rewrite A1; reflexivity) A3 LE) as HA. cbn zeta in HA. cbn [step] in HS. rewrite HS in HA. rewrite EM, ED in *.
  destruct HA as [HA|(e & _ & HA)]; [|discriminate HA]. set (f := ob_fields ob') in *. assert (WO : winkler_on solve (fd_type f) (fd_circ f) (fd_E f) (fd_nu f) (fd_on f) (fd_pile f) (nodes_of m) (elements_of m) MD (ob_bcs ob') 100 = Ok (Some r)) by congruence.
  clear HA. rewrite HR. clear HR. unfold winkler_on in WO. unfold report_on. rewrite NF in *.
  destruct (global_forces _ _) as [tf|e]; cbn [bind] in *; [|discriminate WO]. destruct (global_disp _ _) as [td|e]; cbn [bind] in *; [|discriminate WO].
  destruct (global_restrained _ _) as [tr|e]; cbn [bind] in *; [|discriminate WO]. destruct (elem_matrices _ _ _ _ _ _) as [ks|e]; cbn [bind] in *; [|discriminate WO].
  destruct (if on_mt (fd_on f) then moment_coefs (fd_type f) (fd_circ f) (fd_E f) (fd_nu f) (fd_pile f) (elements_of m) else Ok (Some [])) as [mc|e]; cbn [bind] in *; [|discriminate WO].
  destruct ks as [ks|]; [|discriminate WO]. destruct mc as [mc|]; [|discriminate WO].
  match goal with |- context [winkler_model solve ?k _ _ _ _] => set (K := k) in * end.
  destruct (winkler_model solve K (dof_vector tf) (dof_vector td) (dof_flags tr) 100) as [out|e]; cbn [bind] in *; [|discriminate WO]. assert (out = r) by congruence. subst out.
  destruct (report_exists K (nodes_of m) (springs_of MD) r US) as (w & EW & SH). rewrite EW. cbn [bind]. exists w. auto.
Qed.
Print Assumptions C146_report.

(** The report shows the displacements of the analysis *)
Lemma report_shows : forall rnd ch sort solve ty circ E nu o sections gr wt ys x c p t b m cs mi r, storage rnd -> fair_chance ch -> (forall rows, ascending_of (sort rows) rows) ->
  sound_site o sections gr wt ys x c p t b m -> soil_analysis rnd ch sort solve ty circ E nu o sections gr wt ys x c cs mi = Ok (Some r) ->
  exists w, soil_report rnd ch sort solve ty circ E nu o sections gr wt ys x c cs mi = Ok (Some w) /\ res_disp w = option_map (disp_rows (nodes_of m)) (o_d r).
Proof.
  intros rnd ch sort solve ty circ E nu o sections gr wt ys x c p t b m cs mi r ST FC SO SS H.
  destruct (constructed rnd ch sort o sections gr wt ys x c p t b m ST FC SO SS) as (sg & MD & CB & _ & NF & US & _). unfold soil_analysis in H. unfold soil_report. rewrite CB in *. cbn [bind] in *. rewrite <- winkler_on_built in H.
  cbn [b_pile b_mesh b_made] in *. unfold winkler_on in H. unfold report_on. rewrite NF in *.
  destruct (global_forces _ _) as [tf|e]; cbn [bind] in *; [|discriminate H]. destruct (global_disp _ _) as [td|e]; cbn [bind] in *; [|discriminate H].
  destruct (global_restrained _ _) as [tr|e]; cbn [bind] in *; [|discriminate H]. destruct (elem_matrices _ _ _ _ _ _) as [ks|e]; cbn [bind] in *; [|discriminate H].
  destruct (if on_mt o then moment_coefs ty circ E nu p (elements_of m) else Ok (Some [])) as [mc|e]; cbn [bind] in *; [|discriminate H].
  destruct ks as [ks|]; [|discriminate H]. destruct mc as [mc|]; [|discriminate H].
  match goal with |- context [winkler_model solve ?k _ _ _ _] => set (K := k) in * end.
  destruct (winkler_model solve K (dof_vector tf) (dof_vector td) (dof_flags tr) mi) as [out|e]; cbn [bind] in *; [|discriminate H]. assert (out = r) by congruence. subst out.
  destruct (report_exists K (nodes_of m) (springs_of MD) r US) as (w & EW & SH). rewrite EW. cbn [bind]. exists w. split; [reflexivity|exact (proj1 SH)].
Qed.

(** The pile of C107 with its lateral and base springs switched off after the construction, held at the head and moved by a small distance
    at -6 m: the table shows a mobilised resistance there. *)
Definition no_lateral : options := {| on_py := false; on_mt := false; on_hb := false; on_mb := false; on_tz := true; on_qz := true |}.
Definition moved_below : list call := [SetSupport 2 (Some 1) (Some 1) (Some 1); SetPointdisplacement (-6) (Some 1) None None].
Definition switch_off (t : Q) : list op := AOptions no_lateral :: map Call (map (scaled t) moved_below).
Lemma moved_below_ok : holds_at_rest (nodes_of mesh1) (run moved_below []) /\ exists i a d q, In d (run moved_below []) /\ sends (nodes_of mesh1) Displacement i a d q.
Proof.
  assert (F2 : first_close (nodes_of mesh1) 2 = Some 0%nat) by (vm_compute; reflexivity).
  assert (NZ : forall a, In a [AX; AY; AZ] -> at_rest (nodes_of mesh1) (run moved_below []) 0 a).
  { intros a Ha. split.
    - exists (mkBC Fixation 2 (Some 1) (Some 1) (Some 1)), 1. split; [left; reflexivity|]. apply send_here; [reflexivity|exact F2|destruct Ha as [<-|[<-|[<-|[]]]]; reflexivity|discriminate].
    - intros (d & q & [<-|[<-|[]]] & K & MT & _); [discriminate K|]. cbn [bc_elev] in MT. apply first_close_iff in MT. vm_compute in MT. discriminate MT. }
  split.
  - split; [exists 0%nat; apply NZ; cbn; auto|]. exists 0%nat. split; [apply NZ; cbn; auto|]. left. exists 0%nat. apply NZ; cbn; auto.
  - destruct (first_close (nodes_of mesh1) (-6)) as [i|] eqn:E; [|vm_compute in E; discriminate E]. exists i, AY, (mkBC Displacement (-6) None (Some 1) None), 1.
    split; [right; left; reflexivity|]. apply send_here; [reflexivity|exact E|reflexivity|discriminate].
Qed.
Example C146_example : forall solve, solver_ok solve -> exists ob t0, new_in_soil rnd0 ch0 sort0 EulerBernoulli true 210 0 no_moment ex_l ex_soil [-1] 2 = Ok (Some ob) /\ 0 < t0 /\
  forall t, ~ t == 0 -> Qabs t <= t0 -> forallb (fun o => negb (mesh_field o)) (switch_off t) = true /\ fewer (options_after (switch_off t) no_moment) no_moment /\
  exists w mob q, report_object solve (snd (program solve (switch_off t) ob)) = Some (Ok (Some w)) /\ res_mob w = Some mob /\ r_p (nth 9 mob no_row) = Some q /\ 0 < q.
Proof.
  intros solve SV. destruct C107_example as (ST & FC & SO & _). pose proof (site_exists no_moment) as SS. pose proof (site_exists no_lateral) as SS'.
  destruct (ex_new no_moment) as (ob & NW & _).
  destruct (C144_small_displacements_partial rnd0 ch0 sort0 no_lateral ex_l 0 (-1) FullProps.soil0 [-1] 2 ex_p 2 (-8) mesh1 solve EulerBernoulli true 210 0 moved_below ST FC SO SS' (or_introl eq_refl) SV ltac:(reflexivity) ltac:(discriminate) ltac:(discriminate))
    as (td & V & R & t0 & GD & T0 & _ & SU & H).
  - exact (Forall_cons (SetSupport 2 (Some 1) (Some 1) (Some 1)) Logic.I (Forall_cons (SetPointdisplacement (-6) (Some 1) None None) Logic.I (Forall_nil no_load))).
  - right. left. exact (Forall_cons (SetSupport 2 (Some 1) (Some 1) (Some 1)) Logic.I (Forall_cons (SetPointdisplacement (-6) (Some 1) None None) (or_introl eq_refl) (Forall_nil asks_nothing_along))).
  - left. exact (proj1 moved_below_ok).
  - exact (proj2 moved_below_ok).
  - exists ob, t0. split; [exact NW|]. split; [exact T0|]. intros t NT TL. assert (OA : options_after (switch_off t) no_moment = no_lateral) by reflexivity.
    assert (PR : forallb (fun o => negb (mesh_field o)) (switch_off t) = true) by reflexivity. assert (FW : fewer no_lateral no_moment) by (repeat split; (reflexivity || discriminate)).
    split; [exact PR|]. rewrite OA. split; [exact FW|]. destruct (H t 100%nat NT TL ltac:(lia)) as (r & v & q & AN & _ & OD & _ & VE).
    destruct (report_shows rnd0 ch0 sort0 solve EulerBernoulli true 210 0 no_lateral ex_l 0 (-1) FullProps.soil0 [-1] 2 ex_p 2 (-8) mesh1 (map (scaled t) moved_below) 100 r ST FC SO SS' AN) as (w' & RW & RD). rewrite OD in RD. cbn [option_map] in RD.
    assert (CI : calls_in (switch_off t) = map (scaled t) moved_below) by reflexivity.
    destruct (C146_tables_partial rnd0 ch0 sort0 solve EulerBernoulli true 210 0 no_moment ex_l ex_soil [-1] 2 ex_p 2 (-8) mesh1 ob (switch_off t) ST FC SO SS NW PR) as (a & RO & CM); [rewrite OA; exact FW|].
    rewrite OA, CI in CM. change (type_after (switch_off t) EulerBernoulli) with EulerBernoulli in CM. change (material_after (switch_off t) (210, 0)) with (210, 0) in CM. cbn [fst snd so_ground so_water so_layers ex_soil] in CM. rewrite RW in CM.
    destruct a as [[w|]|]; try contradiction. destruct CM as (D1 & _).
    destruct (C146_switched_off_refuted rnd0 ch0 sort0 solve EulerBernoulli true 210 0 no_moment ex_l ex_soil [-1] 2 ex_p 2 (-8) mesh1 ob (switch_off t) ST FC SO SS NW PR) with (w := w) as (w2 & mob & mob' & _ & RM & _ & ROW); [rewrite OA; exact FW|reflexivity|rewrite OA; reflexivity|exact RO|].
    assert (N5 : exists z5, nth_error (nodes_of mesh1) 5 = Some z5) by (vm_compute; eauto). destruct N5 as (z5 & N5).
    assert (F6 : first_close (nodes_of mesh1) (-6) = Some 5%nat) by (vm_compute; reflexivity).
    assert (L5 : (5 < length (nodes_of mesh1))%nat) by (vm_compute; lia).
    assert (S5 : supported (nodes_of mesh1) (run moved_below []) 5 AY).
    { exists (mkBC Displacement (-6) None (Some 1) None), 1. split; [right; left; reflexivity|]. right. apply send_here; [reflexivity|exact F6|reflexivity|discriminate]. }
    assert (V5 : V 16%nat == 1).
    { rewrite (proj1 (SU 5%nat AY L5) S5 : V 16%nat == dof_vector td 16%nat). assert (X : exists t1, global_disp (nodes_of mesh1) (run moved_below []) = Ok t1 /\ dof_vector t1 16%nat == 1) by (eexists; split; [vm_compute; reflexivity|vm_compute; reflexivity]).
      destruct X as (t1 & X1 & X2). assert (t1 = td) by congruence. subst t1. exact X2. }
    assert (V16 : v 16%nat == t) by (rewrite (proj1 (VE 16%nat ltac:(vm_compute; lia))), V5; ring).
    destruct (ROW (disp_rows (nodes_of mesh1) v) 4%nat z5 (v 15%nat) (v 16%nat) (v 17%nat)) as [(q0 & Q1 & Q2) _].
    + congruence.
    + vm_compute; lia.
    + exists (mkSL (mkLayer (-4) (-20) 19) (Some lower0) (Some (Clay clay_w))), lower0. split; [left; reflexivity|]. cbn [y_layer y_lat so_ground ex_soil].
      assert (E4 : l_bottom (mkLayer (-4) (-20) 19) <= snd (nth 4 (elements_of mesh1) (0, 0)) /\ fst (nth 4 (elements_of mesh1) (0, 0)) <= l_top (mkLayer (-4) (-20) 19) /\ snd (nth 4 (elements_of mesh1) (0, 0)) < 0) by (vm_compute; repeat split; discriminate).
      destruct E4 as (A & B & C). do 3 (split; [assumption|]). split; [reflexivity|]. intros X _. cbn. Lra.lra.
    + exact (disp_rows_nth (nodes_of mesh1) v 5 z5 N5).
    + rewrite V16. exact NT.
    + exists w, mob, q0. auto.
Qed.
