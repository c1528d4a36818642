(** Two models of one site that differ in the draws of random(). *)
From Coq Require Import List Bool Arith ZArith QArith Qabs Qminmax Reals Qreals Permutation Lia Lqa Lra FunctionalExtensionality.
From Verif Require Import Base LinAlg BCModel PileModel PileSpec PileProofs MeshModel MeshSpec ConicSpec PisaModel StressModel StressSpec BeamModel SolveModel SolveSpec SpringModel WinklerModel
  CreateModel CreateProofs CreateProps WholeModel WholeSpec AxialModel AxialSpec LateralModel LateralSpec LateralProofs StartProofs
  CapacityModel CapacitySpec CapacityProofs FullModel FullSpec FullProofs CallProofs SiteProofs WholeProofs AnalysisProofs UnitSpec RandomSpec RandomProofs PlateauProofs.
Import ListNotations.
Local Open Scope Q_scope.

Definition rel_opt {A : Type} (R : A -> A -> Prop) (a a' : option A) : Prop := match a, a' with None, None => True | Some x, Some x' => R x x' | _, _ => False end.

(** The same springs, p-y springs up to points on a plateau *)
Record rel_made (M M' : @made stored_value) : Prop := {
  rm_py : forall e j, rel_opt alike_stored (m_py M e j) (m_py M' e j);
  rm_mt : m_mt M = m_mt M'; rm_tz : m_tz M = m_tz M'; rm_hb : m_hb M = m_hb M'; rm_mb : m_mb M = m_mb M'; rm_qz : m_qz M = m_qz M' }.

Section Visit.
Variables (rnd : R -> Q) (ch ch' : chance) (ta fp : Q) (st : setting).
Hypothesis FC : fair_chance ch.
Hypothesis FC' : fair_chance ch'.

Lemma lateral_mt : forall md, f_mt (lateral_of rnd ch md) = f_mt (lateral_of rnd ch' md).
Proof using FC FC'.
  intros md. extensionality a. cbn [f_mt lateral_of]. unfold at_place. destruct (a_sig a); [|reflexivity]. destruct (a_D a); [|reflexivity]. f_equal.
  destruct FC as (_ & F & _). destruct FC' as (_ & F' & _). destruct (F md a) as [U A]. destruct (F' md a) as [U' A']. apply mt_same; auto.
Qed.
Lemma axial_same : forall md, axial_of rnd ch ta fp md = axial_of rnd ch' ta fp md.
Proof using FC FC'.
  intros md. unfold axial_of. destruct FC as (_ & _ & F1 & F2). destruct FC' as (_ & _ & F1' & F2'). f_equal; extensionality a; [rewrite (tz_same _ _ md a F1 F1')|rewrite (qz_same _ _ ta fp md a F2 F2')]; reflexivity.
Qed.

Lemma visit_rel : forall y i M M', rel_made M M' ->
  (forall md j, y_lat y = Some md -> distributed_lateral st = true -> alike_stored (f_py (lateral_of rnd ch md) (shaft_args st (y_layer y) i j)) (f_py (lateral_of rnd ch' md) (shaft_args st (y_layer y) i j))) ->
  rel_made (visit st (slayer_of rnd ch ta fp y, i) M) (visit st (slayer_of rnd ch' ta fp y, i) M').
Proof using FC FC'.
  intros y i M M' [P1 P2 P3 P4 P5 P6] H. unfold visit. cbn [s_layer s_lat s_ax slayer_of].
  assert (AX : option_map (axial_of rnd ch ta fp) (y_ax y) = option_map (axial_of rnd ch' ta fp) (y_ax y)) by (destruct (y_ax y) as [ax|]; cbn [option_map]; [rewrite axial_same|]; reflexivity).
  rewrite AX. clear AX. rewrite P3, P6. destruct (y_lat y) as [md|].
  - cbn [option_map]. destruct (option_map (axial_of rnd ch' ta fp) (y_ax y)) as [ax|]; cbn [m_py m_mt m_tz m_hb m_mb m_qz]; (constructor; cbn [m_py m_mt m_tz m_hb m_mb m_qz];
      [|rewrite lateral_mt, P2; reflexivity|first [reflexivity|exact P3]|rewrite P4; reflexivity|rewrite P5; reflexivity|first [reflexivity|exact P6]]);
      (change (has_py (lateral_of rnd ch' md)) with (has_py (lateral_of rnd ch md)); intros e j; destruct (has_py (lateral_of rnd ch md) && distributed_lateral st) eqn:D; [|apply P1];
       apply andb_prop in D; unfold put; destruct (Nat.eqb e i && (j <? 2)%nat); [apply (H md j eq_refl); apply D|apply P1]).
  - cbn [option_map]. destruct (option_map (axial_of rnd ch' ta fp) (y_ax y)) as [ax|]; cbn [m_py m_mt m_tz m_hb m_mb m_qz]; constructor; cbn [m_py m_mt m_tz m_hb m_mb m_qz]; auto.
Qed.

(** The elements of a layer *)
Definition elements_in (y : soil_layer) : list nat := filter (fun i => inside (l_top (y_layer y)) (l_bottom (y_layer y)) (nth i (elems st) (0, 0))) (seq 0 (length (elems st))).

Lemma create_rel : forall ys,
  (forall y i md j, In y ys -> In i (elements_in y) -> y_lat y = Some md -> distributed_lateral st = true ->
     alike_stored (f_py (lateral_of rnd ch md) (shaft_args st (y_layer y) i j)) (f_py (lateral_of rnd ch' md) (shaft_args st (y_layer y) i j))) ->
  rel_made (create_springs st (map (slayer_of rnd ch ta fp) ys)) (create_springs st (map (slayer_of rnd ch' ta fp) ys)).
Proof using FC FC'.
  intros ys. unfold create_springs.
  assert (G : forall M M', rel_made M M' -> (forall y i md j, In y ys -> In i (elements_in y) -> y_lat y = Some md -> distributed_lateral st = true ->
     alike_stored (f_py (lateral_of rnd ch md) (shaft_args st (y_layer y) i j)) (f_py (lateral_of rnd ch' md) (shaft_args st (y_layer y) i j))) ->
     rel_made (fold_left (fun m li => visit st li m) (work st (map (slayer_of rnd ch ta fp) ys)) M) (fold_left (fun m li => visit st li m) (work st (map (slayer_of rnd ch' ta fp) ys)) M')).
  2:{ intros H. apply G; [|exact H]. constructor; try reflexivity; intros e j; exact Logic.I. }
  induction ys as [|y t IH]; intros M M' RM H; [exact RM|]. cbn [map]. unfold work in *. cbn [flat_map]. rewrite !fold_left_app. apply IH; [|intros; eapply H; eauto; right; auto].
  cbn [s_layer slayer_of]. fold (elements_in y). assert (HY : forall i md j, In i (elements_in y) -> y_lat y = Some md -> distributed_lateral st = true ->
     alike_stored (f_py (lateral_of rnd ch md) (shaft_args st (y_layer y) i j)) (f_py (lateral_of rnd ch' md) (shaft_args st (y_layer y) i j))) by (intros; eapply H; eauto; left; auto).
  clear - RM HY FC FC'. revert M M' RM HY. induction (elements_in y) as [|i l IH]; intros M M' RM HY; [exact RM|]. cbn [map fold_left]. apply IH; [|intros; apply HY; auto; right; auto].
  apply visit_rel; [exact RM|]. intros md j E D. apply HY; auto. left. reflexivity.
Qed.
End Visit.

Lemma curve_of_alike : forall v v', rel_opt alike_stored v v' -> acts_alike (or_else no_points (curve_of v)) (or_else no_points (curve_of v')).
Proof.
  intros [v|] [v'|] H; cbn [rel_opt] in H; try contradiction; [|apply acts_alike_refl]. destruct H as [->|(c & c' & -> & -> & A)]; [apply acts_alike_refl|exact A].
Qed.

Lemma rel_model : forall o p m ks cs M M', rel_made M M' -> acts_model (stiffness_model o p m ks cs (springs_of M)) (stiffness_model o p m ks cs (springs_of M')).
Proof.
  intros o p m ks cs M M' [P1 P2 P3 P4 P5 P6]. constructor; try reflexivity; unfold stiffness_model, soil_model, springs_of; cbn [w_py w_tz w_mt w_hb w_mb w_qz g_py g_tz g_mt g_hb g_mb g_qz].
  - destruct (on_py o); cbn [when_on]; [|exact Logic.I]. intros e j. apply curve_of_alike, P1.
  - rewrite P3. reflexivity.
  - rewrite P2. reflexivity.
  - rewrite P4. reflexivity.
  - rewrite P5. reflexivity.
  - rewrite P6. reflexivity.
Qed.

Section Site.
Variables (rnd : R -> Q) (sort : list (Q * section) -> list (Q * section)) (o : options) (sections : list section) (gr wt : Q) (ys : list soil_layer)
  (x : list Q) (c : Q) (p : list section) (t b : Q) (m : list Q).
Hypothesis ST : storage rnd.
Hypothesis SO : forall rows, ascending_of (sort rows) rows.
Hypothesis SS : sound_site o sections gr wt ys x c p t b m.
Notation ls := (map y_layer ys).
Notation st sg := (setting_of o p b (sort (data_rows p)) gr wt ls m sg).

Lemma site_built : exists sg ta fp, stress ls gr wt (elements_of m) = Ok sg /\ forall ch, fair_chance ch ->
  construct rnd ch sort o sections gr wt ys x c = Ok (Some (mkBuilt p m (st sg) (create_springs (st sg) (map (slayer_of rnd ch ta fp) ys)))) /\
  forall n, nan_free n (create_springs (st sg) (map (slayer_of rnd ch ta fp) ys)) = true.
Proof using SS SO ST.
  pose proof SS as [[S1 S2 S3 S4 S5 S6 S7 S8 S9] FI (d & PD & ES & SB) TI WE WA OU SL].
  assert (ND : d <> []) by (intros ->; cbn in SB; Lqa.lra).
  assert (LS : exists s, last_section p = Ok s). { unfold pile_bottom in S4. destruct (last_section p) as [s|]; [eauto|discriminate]. }
  destruct LS as (s & LS). assert (TA : tip_area p = Ok (s_area s)) by (unfold tip_area; rewrite LS; reflexivity). assert (FP : tip_footprint p = Ok (s_footprint s)) by (unfold tip_footprint; rewrite LS; reflexivity).
  assert (SG0 : exists sg, stress ls gr wt (elements_of m) = Ok sg).
  { destruct (site_fits rnd {| c_py := fun _ _ _ => 0%R; c_mt := fun _ _ => ((fun _ => 0%R), []); c_tz := fun _ _ => ((fun _ => 0%R), []); c_qz := fun _ _ => ((fun _ => 0%R), []) |} sort o sections gr wt ys x c p t b m SS 0 0) as (sd & sg & _ & SG). eauto. }
  destruct SG0 as (sg & SG). exists sg, (s_area s), (s_footprint s). split; [exact SG|]. intros ch FC.
  destruct (site_fits rnd ch sort o sections gr wt ys x c p t b m SS (s_area s) (s_footprint s)) as (sd & sg' & F & SG'). assert (sg' = sg) by congruence. subst sg'.
  destruct (made_ok rnd ch sort o sections gr wt ys x c p t b m ST FC SO SS (s_area s) (s_footprint s) sd sg F SG) as (MS & NF & US).
  split; [|exact NF].
  unfold construct. rewrite S2. cbn [bind]. rewrite (stack_profile gr ls d ND PD ES). cbn [bind]. unfold pile_length. rewrite S3, S4. cbn [bind].
  assert (AC : accept_model (t - b) c b (Some (profile_bottom gr ls)) = Ok tt).
  { apply accept_iff. split; [exact S5|]. split; [exact FI|]. intros b' E. injection E as <-. rewrite (stack_depth gr ls d PD ES). exact SB. }
  rewrite AC. cbn [bind]. rewrite S6, SG. cbn [bind]. rewrite TA, FP. cbn [bind]. rewrite MS. reflexivity.
Qed.

Lemma site_rel : forall ch ch' sg ta fp, fair_chance ch -> fair_chance ch' -> (on_py o = true -> forall y md, In y ys -> y_lat y = Some md -> ~ sampled md) ->
  stress ls gr wt (elements_of m) = Ok sg -> rel_made (create_springs (st sg) (map (slayer_of rnd ch ta fp) ys)) (create_springs (st sg) (map (slayer_of rnd ch' ta fp) ys)).
Proof using SS SO ST.
  intros ch ch' sg ta fp FC FC' NS SG. apply create_rel; auto. intros y i md j IY IE EM D. change (on_py o = true) in D.
  destruct (site_fits rnd ch sort o sections gr wt ys x c p t b m SS ta fp) as (sd & sg' & F & SG'). assert (sg' = sg) by congruence. subst sg'.
  assert (IW : In (slayer_of rnd ch ta fp y, i) (work (st sg) (map (slayer_of rnd ch ta fp) ys))).
  { unfold work. apply in_flat_map. exists (slayer_of rnd ch ta fp y). split; [apply in_map; exact IY|]. apply in_map. exact IE. }
  destruct (called_shaft rnd ch sort o sections gr wt ys x c p t b m SO SS ta fp sd sg F SG y i j IY IW) as (s & IS & NB & WI & BZ & AP & _ & _ & _ & _ & G & AT).
  destruct (so_py _ _ _ _ _ _ (si_soil _ _ _ _ _ _ _ _ _ _ _ SS) y md s _ D IY EM IS WI BZ) as (A1 & A2 & A3).
  cbn [f_py lateral_of]. rewrite !AT. apply py_alike; auto; [exact (NS D y md IY EM)|apply FC|apply FC'].
Qed.

Lemma site_answers : forall solve ty circ E nu cs mi ch ch', solver_ok solve -> fair_chance ch -> fair_chance ch' -> (on_py o = true -> forall y md, In y ys -> y_lat y = Some md -> ~ sampled md) ->
  same_answer (3 * length (nodes_of m)) (soil_analysis rnd ch sort solve ty circ E nu o sections gr wt ys x c cs mi) (soil_analysis rnd ch' sort solve ty circ E nu o sections gr wt ys x c cs mi).
Proof using SS SO ST.
  intros solve ty circ E nu cs mi ch ch' SV FC FC' NS. destruct site_built as (sg & ta & fp & SG & BU). destruct (BU ch FC) as [B1 N1]. destruct (BU ch' FC') as [B2 N2].
  pose proof (site_rel ch ch' sg ta fp FC FC' NS SG) as RM. unfold soil_analysis. rewrite B1, B2. cbn [bind]. revert RM N1 N2. clear B1 B2 BU.
  generalize (create_springs (st sg) (map (slayer_of rnd ch ta fp) ys)). generalize (create_springs (st sg) (map (slayer_of rnd ch' ta fp) ys)). intros M' M RM N1 N2.
  unfold solve_built. cbn [b_mesh b_pile b_made]. rewrite N1, N2.
  destruct (global_forces _ _) as [tf|]; cbn [bind]; [|reflexivity]. destruct (global_disp _ _) as [td|]; cbn [bind]; [|reflexivity]. destruct (global_restrained _ _) as [tr|]; cbn [bind]; [|reflexivity].
  destruct (elem_matrices _ _ _ _ _ _) as [ks|]; cbn [bind]; [|reflexivity]. destruct (if on_mt o then _ else _) as [mc|]; cbn [bind]; [|reflexivity].
  destruct ks as [ks|]; [|exact Logic.I]. destruct mc as [mc|]; [|exact Logic.I].
  pose proof (acts_winkler solve _ _ (dof_vector tf) (dof_vector td) (dof_flags tr) mi SV (rel_model o p m ks mc M M' RM)) as A.
  assert (SZ : size (stiffness_model o p m ks mc (springs_of M)) = (3 * length (nodes_of m))%nat).
  { unfold size, stiffness_model, soil_model. cbn [w_n]. pose proof (si_mesh _ _ _ _ _ _ _ _ _ _ _ SS) as MS. destruct (meshed_nonempty _ _ _ _ _ _ _ _ MS) as [NE _]. rewrite (nodes_elems_count m NE). lia. }
  rewrite SZ in A. destruct (winkler_model _ _ _ _ _ _) as [r|]; destruct (winkler_model _ _ _ _ _ _) as [r'|]; cbn [bind same_answer alike] in *; auto.
Qed.
End Site.
