(** C104 - C107: a pile in soil, from the description of the site to the results. *)
From Coq Require Import List Bool Arith ZArith QArith Qabs Qminmax Reals Qreals Permutation Lia Lqa Lra.
From Verif Require Import Base LinAlg SoilProofs BalanceProps BCModel BCSpec PileModel PileSpec MeshModel MeshSpec PisaModel StressModel StressSpec StressProofs StressProps BeamModel SolveModel SolveSpec SpringModel SpringSpec WinklerModel WinklerProofs
  CreateModel CreateProofs CreateProps WholeModel WholeSpec WholeProofs WholeProps BalanceSpec BalanceProofs ApiClayProofs AxialModel AxialSpec AxialProofs AxialProps LateralModel LateralSpec LateralProofs MomentProofs StartProofs
  CapacityModel CapacitySpec CapacityProofs CapacityProps FullModel FullSpec FullProofs SiteProofs AnalysisProofs.
From Verif Require AccessModel AccessSpec AccessProofs.
Import ListNotations SpringModel.
Local Open Scope Q_scope.

(** ** C104: the model is constructed, with the springs of its soil models *)
Theorem C104_constructed : forall rnd ch sort o sections gr wt ys x c p t b m, storage rnd -> fair_chance ch -> (forall rows, ascending_of (sort rows) rows) ->
  sound_site o sections gr wt ys x c p t b m ->
  exists st MD, construct rnd ch sort o sections gr wt ys x c = Ok (Some (mkBuilt p m st MD)) /\ (forall n, nan_free n MD = true) /\ usable (springs_of MD).
Proof.
  intros rnd ch sort o sections gr wt ys x c p t b m ST FC SO SS. destruct (constructed rnd ch sort o sections gr wt ys x c p t b m ST FC SO SS) as (sg & M & E & _ & NF & US & _). eauto.
Qed.
Print Assumptions C104_constructed.

Theorem C104_springs_of_models : forall rnd ch sort o sections gr wt ys x c p t b m B, storage rnd -> fair_chance ch -> (forall rows, ascending_of (sort rows) rows) ->
  sound_site o sections gr wt ys x c p t b m -> construct rnd ch sort o sections gr wt ys x c = Ok (Some B) ->
  (forall i j, (i < length (elements_of m))%nat -> (j < 2)%nat -> own_springs rnd ch o sections gr wt b ys m (springs_of (b_made B)) i j) /\
  exists s, last_section p = Ok s /\ own_base rnd ch o sections gr wt b (s_area s) (s_footprint s) ys m (springs_of (b_made B)).
Proof.
  intros rnd ch sort o sections gr wt ys x c p t b m B ST FC SO SS CB. destruct (constructed rnd ch sort o sections gr wt ys x c p t b m ST FC SO SS) as (sg & M & E & _ & NF & US & OW & OB).
  assert (B = mkBuilt p m (setting_of o p b (sort (data_rows p)) gr wt (map y_layer ys) m sg) M) by congruence. subst B. auto.
Qed.
Print Assumptions C104_springs_of_models.

(** ** C105: the stiffness of the pile in soil is defined at any displacement *)
Theorem C105_stiffness : forall rnd ch sort o sections gr wt ys x c p t b m B ks mc, storage rnd -> fair_chance ch -> (forall rows, ascending_of (sort rows) rows) ->
  sound_site o sections gr wt ys x c p t b m -> (on_mt o = true -> on_py o = true) -> construct rnd ch sort o sections gr wt ys x c = Ok (Some B) ->
  forall u k, exists K, build (stiffness_model o p m ks mc (springs_of (b_made B))) u k = Ok K.
Proof.
  intros rnd ch sort o sections gr wt ys x c p t b m B ks mc ST FC SO SS PP CB. destruct (constructed rnd ch sort o sections gr wt ys x c p t b m ST FC SO SS) as (sg & M & E & _ & NF & US & _).
  assert (EB : springs_of (b_made B) = springs_of M) by (replace B with (mkBuilt p m (setting_of o p b (sort (data_rows p)) gr wt (map y_layer ys) m sg) M) by congruence; reflexivity).
  rewrite EB. apply usable_builds. apply usable_stiffness; auto.
Qed.
Print Assumptions C105_stiffness.

(** ** C106: no warning *)
Lemma shape_nonneg : forall c q, lateral_shape c -> In q c -> 0 <= fst q /\ 0 <= snd q.
Proof.
  intros c q (L & X0 & _ & OR & P) I. split; [|auto]. destruct (In_nth c q (0, 0) I) as (i & Hi & <-). apply Qle_trans with (fst (nth 0 c (0, 0))); [rewrite X0; apply Qle_refl|]. apply OR. lia.
Qed.
Lemma curve_entries : forall v c, curve_of v = Some c -> (forall q, In q c -> 0 <= fst q /\ 0 <= snd q) -> AccessSpec.sound (entries v).
Proof.
  intros v c E H e I. unfold curve_of, entries in *. destruct v as [[[[|c0 [|]]|]|]|]; try discriminate E.
  - assert (c0 = c) by congruence. subst c0. cbn [flat_map] in I. rewrite app_nil_r in I. apply in_flat_map in I. destruct I as (q & IQ & J). destruct (H q IQ). destruct J as [<-|[<-|[]]]; eauto.
  - destruct I as [<-|[]]. exists 0. split; [reflexivity|apply Qle_refl].
Qed.
Lemma column_entries : forall v cols, columns_of v = Some cols -> (forall c q, In c cols -> In q c -> 0 <= fst q /\ 0 <= snd q) -> AccessSpec.sound (entries v).
Proof.
  intros v c E H e I. unfold columns_of, entries in *. destruct v as [[[cols|]|]|]; try discriminate E.
  - assert (cols = c) by congruence. subst c. apply in_flat_map in I. destruct I as (c0 & IC & I). apply in_flat_map in I. destruct I as (q & IQ & J). destruct (H c0 q IC IQ). destruct J as [<-|[<-|[]]]; eauto.
  - destruct I as [<-|[]]. exists 0. split; [reflexivity|apply Qle_refl].
Qed.
Lemma over_sound : forall n f, (forall e j, (e < n)%nat -> (j < 2)%nat -> AccessSpec.sound (entries (f e j))) -> AccessSpec.sound (over n f).
Proof.
  intros n f H e I. unfold over in I. apply in_flat_map in I. destruct I as (i & J & I). apply in_seq in J. apply in_app_iff in I. destruct I as [I|I]; [apply (H i 0%nat ltac:(lia) ltac:(lia) e I)|apply (H i 1%nat ltac:(lia) ltac:(lia) e I)].
Qed.
Lemma sound_quiet : forall a, AccessSpec.sound a -> ~ AccessSpec.suspicious a.
Proof. intros a H (e & I & [->|(q & -> & L)]); destruct (H _ I) as (q' & E & N); [discriminate|]. injection E as <-. Lqa.lra. Qed.
Lemma known_some : forall A (o : option A) d, known o = true -> o = Some (or_else d o).
Proof. intros A [a|] d E; [reflexivity|discriminate]. Qed.

Theorem C106_no_warning : forall rnd ch sort o sections gr wt ys x c p t b m B, storage rnd -> fair_chance ch -> (forall rows, ascending_of (sort rows) rows) ->
  sound_site o sections gr wt ys x c p t b m -> construct rnd ch sort o sections gr wt ys x c = Ok (Some B) -> warnings (length (elements_of m)) (b_made B) = [].
Proof.
  intros rnd ch sort o sections gr wt ys x c p t b m B ST FC SO SS CB. destruct (constructed rnd ch sort o sections gr wt ys x c p t b m ST FC SO SS) as (sg & M & E & _ & NF & US & _).
  replace B with (mkBuilt p m (setting_of o p b (sort (data_rows p)) gr wt (map y_layer ys) m sg) M) by congruence. cbn [b_made]. clear E CB B.
  set (n := length (elements_of m)). specialize (NF n). destruct US as (U1 & _ & U3 & U4 & U5 & _).
  unfold nan_free in NF. apply andb_true_iff in NF. destruct NF as [NF _]. apply andb_true_iff in NF. destruct NF as [NF N5]. apply andb_true_iff in NF. destruct NF as [NF N4]. rewrite forallb_forall in NF.
  assert (EL : forall e j, (e < n)%nat -> (j < 2)%nat -> known (curve_of (m_py M e j)) = true /\ known (columns_of (m_mt M e j)) = true).
  { intros e j He Hj. pose proof (NF e ltac:(apply in_seq; lia)) as X. rewrite forallb_forall in X. specialize (X j ltac:(apply in_seq; lia)). apply andb_true_iff in X. destruct X as [X _]. apply andb_true_iff in X. exact X. }
  unfold warnings. match goal with |- fst (AccessModel.finish ?a) = [] => assert (W : forall w, ~ In w (fst (AccessModel.finish a))) end.
  { intros w I. apply AccessProofs.warnings_iff in I. revert I. apply sound_quiet.
    destruct w; cbn [AccessModel.a_py AccessModel.a_mt AccessModel.a_Hb AccessModel.a_Mb].
    - apply over_sound. intros e j He Hj. apply (curve_entries _ _ (known_some _ _ no_points (proj1 (EL e j He Hj)))). intros q I. apply (shape_nonneg _ q (proj1 (U1 e j)) I).
    - apply over_sound. intros e j He Hj. apply (column_entries _ _ (known_some _ _ [] (proj2 (EL e j He Hj)))). intros c0 q I J. destruct (U3 e j) as (_ & U & _). apply (proj2 (U c0 I) q J).
    - apply (curve_entries _ _ (known_some _ _ no_points N4)). intros q I. apply (shape_nonneg _ q (proj1 U4) I).
    - apply (curve_entries _ _ (known_some _ _ no_points N5)). intros q I. apply (shape_nonneg _ q (proj1 U5) I). }
  match goal with |- ?l = [] => destruct l as [|w l'] end; [reflexivity|]. exfalso. apply (W w). left. reflexivity.
Qed.
Print Assumptions C106_no_warning.

(** ** C107: the analysis *)
(** It ends with results, or reports a singular matrix. *)
Theorem C107_ends : forall rnd ch sort o sections gr wt ys x c p t b m solve ty circ E nu cs mi, storage rnd -> fair_chance ch -> (forall rows, ascending_of (sort rows) rows) ->
  sound_site o sections gr wt ys x c p t b m -> (on_mt o = true -> on_py o = true) -> 0 < E -> -(3#4) <= nu -> (ty = Timoshenko -> circ = true) ->
  (exists r, soil_analysis rnd ch sort solve ty circ E nu o sections gr wt ys x c cs mi = Ok (Some r)) \/
  soil_analysis rnd ch sort solve ty circ E nu o sections gr wt ys x c cs mi = Err LinAlgError.
Proof. intros. eapply analysis_ends; eauto. Qed.
Print Assumptions C107_ends.

(** Moment springs without lateral springs: the model is constructed, no analysis of it succeeds. *)
Theorem C107_moment_springs_alone_refuted : forall rnd ch sort o sections gr wt ys x c p t b m solve ty circ E nu, storage rnd -> fair_chance ch -> (forall rows, ascending_of (sort rows) rows) ->
  sound_site o sections gr wt ys x c p t b m -> on_mt o = true -> on_py o = false -> 0 < E -> -(3#4) <= nu -> (ty = Timoshenko -> circ = true) ->
  (exists B, construct rnd ch sort o sections gr wt ys x c = Ok (Some B)) /\
  forall cs mi, soil_analysis rnd ch sort solve ty circ E nu o sections gr wt ys x c cs mi = Err UserInputError.
Proof.
  intros rnd ch sort o sections gr wt ys x c p t b m solve ty circ E nu ST FC SO SS OM OP PE PN HT. split.
  - destruct (C104_constructed rnd ch sort o sections gr wt ys x c p t b m ST FC SO SS) as (st & MD & -> & _). eauto.
  - intros. eapply analysis_moment_alone; eauto.
Qed.
Print Assumptions C107_moment_springs_alone_refuted.

(** A pile held by its supports gets numbers, unless the loop stops after 100 passes. *)
Theorem C107_supported : forall rnd ch sort o sections gr wt ys x c p t b m solve ty circ E nu cs mi, storage rnd -> fair_chance ch -> (forall rows, ascending_of (sort rows) rows) ->
  sound_site o sections gr wt ys x c p t b m -> (on_mt o = true -> on_py o = true) -> solver_ok solve -> 0 < E -> -(3#4) <= nu -> (ty = Timoshenko -> circ = true) ->
  ty = EulerBernoulli \/ on_mt o = false -> holds_pile (nodes_of m) (run cs []) ->
  exists r, soil_analysis rnd ch sort solve ty circ E nu o sections gr wt ys x c cs mi = Ok (Some r) /\ (o_d r = None -> o_iter r = 100%nat).
Proof. intros. eapply analysis_supported; eauto. Qed.
Print Assumptions C107_supported.

(** A pile without supports: one element in a layer whose lateral springs are not switched off, and an axial
    support or one element in a layer with shaft friction, are enough.  No displacement makes the matrix singular. *)
Theorem C107_soil_holds_pile : forall rnd ch sort o sections gr wt ys x c p t b m solve ty circ E nu cs mi, storage rnd -> fair_chance ch -> (forall rows, ascending_of (sort rows) rows) ->
  sound_site o sections gr wt ys x c p t b m -> (on_mt o = true -> on_py o = true) -> solver_ok solve -> 0 < E -> -(3#4) <= nu -> (ty = Timoshenko -> circ = true) ->
  ty = EulerBernoulli \/ on_mt o = false ->
  on_py o = true -> (exists e, In e (elements_of m) /\ resisting_layer gr ys e) ->
  (exists i, supported (nodes_of m) (run cs []) i AZ) \/ (on_tz o = true /\ exists e, In e (elements_of m) /\ sticking_layer gr ys e) ->
  exists r, soil_analysis rnd ch sort solve ty circ E nu o sections gr wt ys x c cs mi = Ok (Some r).
Proof.
  intros rnd ch sort o sections gr wt ys x c p t b m solve ty circ E nu cs mi ST FC SO SS PP SV PE PN HT C ON (e & IE & RL) AX.
  destruct (C104_constructed rnd ch sort o sections gr wt ys x c p t b m ST FC SO SS) as (st & MD & CB & _).
  destruct (C104_springs_of_models _ _ _ _ _ _ _ _ _ _ _ _ _ _ _ ST FC SO SS CB) as [OW _].
  assert (IX : forall e, In e (elements_of m) -> exists i, (i < length (elements_of m))%nat /\ nth i (elements_of m) (0, 0) = e) by (intros e0 I; apply In_nth; exact I).
  eapply analysis_resisted; eauto.
  - split; [exact ON|]. destruct (IX e IE) as (i & Hi & EI). exists i, 1%nat. split; [exact Hi|]. split; [lia|]. eapply layer_resists; eauto. rewrite EI. exact RL.
  - destruct AX as [AX|(OT & e' & IE' & SL)]; [left; exact AX|right]. split; [exact OT|]. destruct (IX e' IE') as (i & Hi & EI). exists i, 1%nat. split; [exact Hi|]. split; [lia|].
    eapply layer_sticks; eauto. { apply FC. } rewrite EI. exact SL.
Qed.
Print Assumptions C107_soil_holds_pile.

(** Loads, reactions and the resistance of the soil are in balance: forces along and across the pile, and moments
    about its top. *)
Theorem C107_balance : forall rnd ch sort o sections gr wt ys x c p t b m solve ty circ E nu cs mi r v, storage rnd -> fair_chance ch -> (forall rows, ascending_of (sort rows) rows) ->
  sound_site o sections gr wt ys x c p t b m -> solver_ok solve -> 0 < E -> -(3#4) <= nu -> (ty = Timoshenko -> circ = true) -> (99 <= mi)%nat ->
  soil_analysis rnd ch sort solve ty circ E nu o sections gr wt ys x c cs mi = Ok (Some r) -> o_d r = Some v ->
  separate (nodes_of m) (run cs []) -> (forall q, In q (run cs []) -> is_load q = true -> at_node (nodes_of m) q /\ whole_load q) ->
  let z := fun a => nth a (nodes_of m) 0 in let l := run cs [] in
  exists B ks mc R V kp kz km h mo q, construct rnd ch sort o sections gr wt ys x c = Ok (Some B) /\ elem_matrices ty circ E nu p (elements_of m) = Ok (Some ks) /\ o_Q r = Some R /\
    let M := stiffness_model o p m ks mc (springs_of (b_made B)) in let n := w_n M in spring_values M v Secant kp kz km h mo q /\
    let rows := disp_rows (nodes_of m) R in
    total_load AZ l + rows_axial rows == sum n (fun e => when (w_tz M) (shaft_axial (w_L M e) (kz e) (elem_disp V e))) + q * V (3 * n)%nat /\
    total_load AY l + rows_lateral rows == sum n (fun e => when (w_py M) (shaft_lateral (w_L M e) (kp e) (elem_disp V e))) + h * V (3 * n + 1)%nat /\
    (ty = EulerBernoulli \/ on_mt o = false -> total_load_moment (z O) l + rows_moment (z O) rows ==
      sum n (fun e => when (w_py M) (shaft_moment (w_L M e) (z O - z e) (kp e) (elem_disp V e)) + when (w_mt M) (shaft_rotation (w_L M e) (km e) (elem_disp V e)))
      + (z O - z n) * (h * V (3 * n + 1)%nat) + mo * V (3 * n + 2)%nat).
Proof.
  intros rnd ch sort o sections gr wt ys x c p t b m solve ty circ E nu cs mi r v ST FC SO SS SV PE PN HT MI AN OD SP LD z l.
  destruct (analysis_unfold rnd ch sort o sections gr wt ys x c p t b m ST FC SO SS solve ty circ E nu PE PN HT) as (ks & mc & g & US & (st & MD & CB & EG) & KS & _ & NT & AU).
  destruct (AU cs mi) as (tf & td & tr & GF & GD & GR & EA). rewrite AN in EA. subst g.
  set (M := stiffness_model o p m ks mc (springs_of MD)) in *. destruct (winkler_model solve M (dof_vector tf) (dof_vector td) (dof_flags tr) mi) as [r'|] eqn:EW; [|discriminate EA]. cbn [bind] in EA. assert (r' = r) by congruence. subst r'.
  destruct (C83_pile_soil_balance solve ty circ E nu sections _ x c p t b m l ks _ _ _ _ _ _ _ tf td tr mi r v SV MI PE PN HT (si_mesh _ _ _ _ _ _ _ _ _ _ _ SS) KS GF GD GR EW OD SP LD)
    as (R & V & kp & kz & km & h & mo & q & ER & SPV & _ & B1 & B2 & B3).
  exists (mkBuilt p m st MD), ks, mc, R, V, kp, kz, km, h, mo, q. cbn [b_made]. fold M. split; [exact CB|]. split; [exact KS|]. split; [exact ER|]. split; [exact SPV|]. split; [exact B1|]. split; [exact B2|].
  intros C. apply B3. apply (NT C).
Qed.
Print Assumptions C107_balance.

(** ** A site: clay over stiffer clay, all springs on *)
(** Rounding down to whole numbers, and to 1/n between 0 and 1 *)
Definition rnd0 (v : R) : Q :=
  if Rlt_dec v 0 then inject_Z (up v - 1) else if Req_EM_T v 0 then 0 else if Rlt_dec v 1 then / inject_Z (up (/ v)) else inject_Z (up v - 1).
Lemma up_le : forall a b, (a <= b)%R -> (up a <= up b)%Z.
Proof. intros a b H. destruct (archimed a) as [A1 A2]. destruct (archimed b) as [B1 B2]. apply Z.lt_succ_r. apply lt_IZR. rewrite succ_IZR. lra. Qed.
Lemma storage_exists : storage rnd0.
Proof.
  assert (NG : forall v, (v < 0)%R -> inject_Z (up v - 1) < 0).
  { intros v V. destruct (archimed v) as [A1 A2]. change 0 with (inject_Z 0). rewrite <- Zlt_Qlt. assert (up v < 1)%Z by (apply lt_IZR; lra). lia. }
  assert (BG : forall v, (1 <= v)%R -> 1 <= inject_Z (up v - 1)).
  { intros v V. destruct (archimed v) as [A1 A2]. change 1 with (inject_Z 1). rewrite <- Zle_Qle. assert (1 < up v)%Z by (apply lt_IZR; lra). lia. }
  assert (SM : forall v, (0 < v < 1)%R -> 0 < / inject_Z (up (/ v)) /\ / inject_Z (up (/ v)) <= 1 /\ (1 <= up (/ v))%Z).
  { intros v V. destruct (archimed (/ v)) as [A1 A2]. assert (1 < / v)%R by (rewrite <- Rinv_1; apply Rinv_lt_contravar; lra). assert (1 < up (/ v))%Z by (apply lt_IZR; lra).
    assert (1 <= inject_Z (up (/ v))) by (change 1 with (inject_Z 1); rewrite <- Zle_Qle; lia). assert (P : 0 < / inject_Z (up (/ v))) by (apply Qinv_lt_0_compat; Lqa.lra). split; [exact P|]. split; [|lia].
    setoid_replace 1 with (inject_Z (up (/ v)) * / inject_Z (up (/ v))) by (rewrite Qmult_inv_r; [reflexivity|Lqa.lra]). rewrite <- (Qmult_1_l (/ inject_Z (up (/ v)))) at 1. apply Qmult_le_compat_r; Lqa.lra. }
  unfold storage, rnd0. split; [|split; [|split]].
  - intros v w H. destruct (Rlt_dec v 0) as [V0|V0].
    + destruct (Rlt_dec w 0) as [W0|W0]; [rewrite <- Zle_Qle; pose proof (up_le v w H); lia|]. pose proof (NG v V0). destruct (Req_EM_T w 0) as [W1|W1]; [Lqa.lra|].
      destruct (Rlt_dec w 1); [pose proof (SM w ltac:(lra)); Lqa.lra|pose proof (BG w ltac:(lra)); Lqa.lra].
    + destruct (Rlt_dec w 0); [lra|]. destruct (Req_EM_T v 0) as [V1|V1].
      * destruct (Req_EM_T w 0) as [W1|W1]; [Lqa.lra|]. destruct (Rlt_dec w 1); [pose proof (SM w ltac:(lra)); Lqa.lra|pose proof (BG w ltac:(lra)); Lqa.lra].
      * destruct (Req_EM_T w 0) as [W1|W1]; [lra|]. destruct (Rlt_dec v 1) as [V2|V2].
        -- destruct (SM v ltac:(lra)) as (S1 & S2 & S3). destruct (Rlt_dec w 1) as [W2|W2]; [|pose proof (BG w ltac:(lra)); Lqa.lra]. destruct (SM w ltac:(lra)) as (S4 & S5 & S6).
           assert (U : (up (/ w) <= up (/ v))%Z) by (apply up_le, Rinv_le_contravar; lra).
           assert (A1 : 1 <= inject_Z (up (/ w))) by (change 1 with (inject_Z 1); rewrite <- Zle_Qle; lia). assert (A2 : inject_Z (up (/ w)) <= inject_Z (up (/ v))) by (rewrite <- Zle_Qle; exact U).
           apply Qmult_le_r with (inject_Z (up (/ v))); [Lqa.lra|]. setoid_replace (/ inject_Z (up (/ v)) * inject_Z (up (/ v))) with 1 by (rewrite Qmult_comm, Qmult_inv_r; [reflexivity|Lqa.lra]).
           setoid_replace 1 with (/ inject_Z (up (/ w)) * inject_Z (up (/ w))) by (rewrite Qmult_comm, Qmult_inv_r; [reflexivity|Lqa.lra]). rewrite !(Qmult_comm (/ inject_Z (up (/ w)))). apply Qmult_le_compat_r; [exact A2|Lqa.lra].
        -- destruct (Rlt_dec w 1); [lra|]. rewrite <- Zle_Qle. pose proof (up_le v w H). lia.
  - destruct (Rlt_dec 0 0); [lra|]. destruct (Req_EM_T 0 0); [reflexivity|congruence].
  - intros v V. destruct (Rlt_dec v 0); [lra|]. destruct (Req_EM_T v 0); [lra|]. destruct (Rlt_dec v 1); [apply (SM v); lra|pose proof (BG v ltac:(lra)); Lqa.lra].
  - intros v V. destruct (Rlt_dec v 0); [|lra]. auto.
Qed.

Definition ch0 : chance := {| c_py := fun _ _ _ => 0%R; c_mt := fun _ _ => (fun _ => 0%R, seq 0 15); c_tz := draw_w; c_qz := draw_w |}.
Lemma chance_exists : fair_chance ch0.
Proof.
  assert (A : forall zs added, length zs = 15%nat -> argsort (backbone_z zs added 15) (seq 0 15)).
  { intros zs added L. assert (E : length (backbone_z zs added 15) = 15%nat). { unfold backbone_z. rewrite ApiClayProofs.rsort_length, app_length, map_length, seq_length, L. reflexivity. }
    rewrite <- E at 2. apply argsort_id. apply ApiClayProofs.rsort_nd. }
  unfold fair_chance, ch0. cbn [c_py c_mt c_tz c_qz fst snd]. split; [intros; lra|]. split; [|exact draw_w_fair]. intros m a. split; [intros; lra|].
  destruct m; cbn [sorted_draw]; auto; apply A; reflexivity.
Qed.
Definition sort0 : list (Q * section) -> list (Q * section) := sort_by fst.
Lemma sort_exists : forall rows, ascending_of (sort0 rows) rows.
Proof. intros rows. apply sort_by_ascending. Qed.

Definition all_on : options := mkOptions true true true true true true.
Definition one_all : mults := mkMults (MNum 1) (MNum 1) (MNum 1) (MNum 1).
Definition four0 : four := mkFour (PNum 100) (PFun (fun X => 0.4%R)) (PNum 8) (PList [6; 7]%R).
Definition upper0 : lateral_model := API_clay (PList [20; 60]%R) (PNum 0.02) ApiSandModel.Cyclic 0.5 true (MNum 1) (MFun (fun X => 2%R)).
Definition lower0 : lateral_model := Custom_pisa_clay (PNum 100) (PFun (fun X => (10000 + X)%R)) four0 four0 four0 four0 one_all.
Definition soil0 : list soil_layer := [mkSL (mkLayer (-4) (-20) 19) (Some lower0) (Some (Clay clay_w)); mkSL (mkLayer 0 (-4) 18) (Some upper0) None].

Lemma site_exists : forall o, sound_site o ex_l 0 (-1) soil0 [-1] 2 ex_p 2 (-8) mesh1.
Proof.
  intros o. assert (EL : map y_layer soil0 = ex_ls) by reflexivity.
  assert (EX : forall y, requested ex_p (-8) (Some ex_ls) [(-1)%Q] y -> four_decimals y).
  { intros y H. apply ex_requested in H. destruct H as [H|[H|[H|[H|[H|H]]]]]; [exists 20000%Z|exists (-30000)%Z|exists (-80000)%Z|exists 0%Z|exists (-40000)%Z|exists (-10000)%Z]; rewrite H; reflexivity. }
  assert (FF : forall X, (0 <= X)%R -> conic_fields four0 X) by (intros X HX; unfold conic_fields; cbn; unfold wide, curvature, pos; lra).
  assert (FR : forall q, conic_regular four0 q). { intros q xx n k y _ E _ _. unfold custom_value in E. cbn in E. injection E as <-. left. lra. }
  assert (HX : forall z, -8 <= z -> z <= 0 -> (0 <= Q2R (0 - z))%R) by (intros; apply Q2R_nn; Lqa.lra).
  constructor.
  - rewrite EL. constructor.
    + intros s [<-|[<-|[]]]; repeat split; reflexivity.
    + vm_compute. reflexivity.
    + reflexivity.
    + reflexivity.
    + discriminate.
    + vm_compute. reflexivity.
    + exact EX.
    + intros ls y E I. injection E as <-. destruct I as [<-|[<-|[]]]; split; discriminate.
    + intros y [<-|[]]; split; discriminate.
  - discriminate.
  - exists ex_d. rewrite EL. split; [apply perm_swap|]. split; [cbn; repeat split; reflexivity|discriminate].
  - reflexivity.
  - intros y [<-|[<-|[]]]; reflexivity.
  - rewrite EL. left. right. right. exists (-1). split; [left|]; reflexivity.
  - intros s [<-|[<-|[]]]; (split; [reflexivity|discriminate]).
  - constructor.
    + intros y md s z _ IY E IS [WI1 WI2] Z q. assert (PX : (0 <= q_X q)%R) by (apply Q2R_nn; destruct IY as [<-|[<-|[]]]; cbn in WI2; Lqa.lra).
      destruct IY as [<-|[<-|[]]]; cbn [y_lat] in E; injection E as <-.
      * split; [|cbn; lra]. unfold lower0. cbn [LateralProofs.admissible custom_values all_values]. unfold pos. split; [lra|]. split; [lra|]. split; [apply FF; auto|apply FR].
      * split; [|cbn; lra]. cbn. unfold pos. lra.
    + intros y md s z _ _ IY E IS [WI1 WI2] Z q. assert (PX : (0 <= q_X q)%R) by (apply Q2R_nn; destruct IY as [<-|[<-|[]]]; cbn in WI2; Lqa.lra).
      destruct IY as [<-|[<-|[]]]; cbn [y_lat] in E; injection E as <-.
      * split; [|cbn; lra]. unfold lower0. cbn [moment_usable]. unfold moment_admissible. cbn [LateralProofs.admissible custom_values all_values]. split; [|split; [apply FF; auto|apply FR]]. unfold pos. split; [lra|]. split; [lra|]. split; [apply FF; auto|apply FR].
      * split; [|cbn; lra]. cbn. unfold pos. lra.
    + intros y md s SG IY E IS [WI1 WI2]. assert (PX : (0 <= Q2R (0 - profile_bottom 0 (map y_layer soil0)))%R) by (apply Q2R_nn; vm_compute; discriminate).
      destruct IY as [<-|[<-|[]]]; cbn [y_lat] in E; injection E as <-.
      * unfold lower0. cbn [base_admissible spot q_X custom_values all_values]. unfold pos. split; [lra|]. split; [lra|]. auto 10.
      * exfalso. cbn in WI1. apply WI1. reflexivity.
    + intros y s [<-|[<-|[]]] E; cbn in E; [injection E as <-; apply clay_w_admissible|discriminate].
    + intros y s _ [<-|[<-|[]]] E; cbn in E; [injection E as <-; cbn; lra|discriminate].
Qed.

(** Every hypothesis of the theorems is met: the site above, an unsupported pile included. *)
Example C107_example : storage rnd0 /\ fair_chance ch0 /\ (forall rows, ascending_of (sort0 rows) rows) /\ sound_site all_on ex_l 0 (-1) soil0 [-1] 2 ex_p 2 (-8) mesh1 /\
  (exists e, In e (elements_of mesh1) /\ resisting_layer 0 soil0 e) /\ (exists e, In e (elements_of mesh1) /\ sticking_layer 0 soil0 e) /\
  forall solve nu cs mi, solver_ok solve -> -(3#4) <= nu -> exists r, soil_analysis rnd0 ch0 sort0 solve EulerBernoulli true 210 nu all_on ex_l 0 (-1) soil0 [-1] 2 cs mi = Ok (Some r).
Proof.
  pose proof storage_exists as ST. pose proof chance_exists as FC. pose proof sort_exists as SO. pose proof (site_exists all_on) as SS.
  assert (I5 : In (nth 5 (elements_of mesh1) (0, 0)) (elements_of mesh1)) by (apply nth_In; vm_compute; lia).
  assert (E5 : l_bottom (mkLayer (-4) (-20) 19) <= snd (nth 5 (elements_of mesh1) (0, 0)) /\ fst (nth 5 (elements_of mesh1) (0, 0)) <= l_top (mkLayer (-4) (-20) 19) /\ snd (nth 5 (elements_of mesh1) (0, 0)) < 0)
    by (vm_compute; repeat split; discriminate).
  assert (RL : exists e, In e (elements_of mesh1) /\ resisting_layer 0 soil0 e).
  { exists (nth 5 (elements_of mesh1) (0, 0)). split; [exact I5|]. exists (mkSL (mkLayer (-4) (-20) 19) (Some lower0) (Some (Clay clay_w))), lower0. split; [left; reflexivity|]. cbn [y_layer y_lat]. destruct E5 as (A & B & C). do 3 (split; [assumption|]). split; [reflexivity|]. intros X _. cbn. lra. }
  assert (SL : exists e, In e (elements_of mesh1) /\ sticking_layer 0 soil0 e).
  { exists (nth 5 (elements_of mesh1) (0, 0)). split; [exact I5|]. exists (mkSL (mkLayer (-4) (-20) 19) (Some lower0) (Some (Clay clay_w))), (Clay clay_w). split; [left; reflexivity|]. cbn [y_layer y_ax]. destruct E5 as (A & B & C). do 3 (split; [assumption|]). split; [reflexivity|]. cbn. split; [exists 1%R, 1%R; repeat split; lra|lra]. }
  do 4 (split; [assumption|]). split; [exact RL|]. split; [exact SL|]. intros solve nu cs mi SV PN.
  eapply C107_soil_holds_pile; eauto; try reflexivity; try discriminate.
Qed.
