(** C150 for the program: analyses of one site under small prescribed displacements in proportion end alike. *)
From Coq Require Import Reals List Bool Arith ZArith QArith Qabs Qminmax Lia Lqa Setoid.
From Verif Require Import Base LinAlg BCModel BCSpec BCProofs PileModel MeshModel StressModel StressSpec StressProps BeamModel SolveModel SolveSpec SolveProofs SpringModel SpringSpec SpringProofs SpringProper SoilProofs WinklerModel WinklerSpec
  WholeModel WholeSpec WholeProofs CreateProps ElasticSpec ElasticProofs FullModel FullSpec AnalysisProofs FullProps ApartSpec ApartProofs ApartCalls StillProofs StillProps GentleProofs GentleCalls SteadyProofs EvenProofs GentleProps TwinProofs ConeSpec ConeProofs ConeProps.
From Verif Require BalanceProps LiveWitness.
Import ListNotations.
Local Open Scope Q_scope.

(** ** Axial springs pulled by less than to their first point *)
Definition lifts (c : curve) (u : Q) : Prop := axial_shape c /\ fst (xy c 8) < 0 /\ u < fst (xy c 6) /\ 0 < u.
Lemma lifts_value : forall c u d, lifts c u -> 0 <= d -> d <= u -> interp d (rev c) == snd (xy c 6) / fst (xy c 6) * d.
Proof.
  intros c u d ((L & O1 & O2 & DE) & P8 & P6 & U0) D0 D1.
  do 15 (destruct c as [|[? ?] c]; [discriminate L|]). destruct c; [|discriminate L].
  pose proof (DE 8%nat 9%nat ltac:(lia)) as A9. pose proof (DE 8%nat 10%nat ltac:(lia)) as A10. pose proof (DE 8%nat 11%nat ltac:(lia)) as A11. pose proof (DE 8%nat 12%nat ltac:(lia)) as A12.
  pose proof (DE 8%nat 13%nat ltac:(lia)) as A13. clear DE. unfold xy in *. cbn [nth fst snd] in *. cbn [rev app].
  do 7 (rewrite interp_cons; match goal with |- context [if Qltb d ?x then _ else _] => destruct (Qltb d x) eqn:?T; [apply Qltb_true in T; exfalso; lra|clear T] end).
  rewrite interp_cons. match goal with |- context [if Qltb d ?x then _ else _] => destruct (Qltb d x) eqn:T6; [|apply Qltb_false in T6; exfalso; lra] end.
  match goal with |- context [if Qltb d ?x then _ else _] => destruct (Qltb d x) eqn:T7; [apply Qltb_true in T7; exfalso; lra|clear T7] end. rewrite O1, O2. field. lra.
Qed.
Lemma lifts_terms : forall c u kd, lifts c u -> initial_kind kd = false -> exists k', ratio (axial_terms kd u c) = Ok k' /\ k' == Qabs (snd (xy c 6) / fst (xy c 6)).
Proof.
  intros c u kd P KI. pose proof (lifts_value c u) as V. pose proof P as ((L & O1 & O2 & _) & P8 & P6 & UP). set (k := snd (xy c 6) / fst (xy c 6)) in *.
  assert (NZ : ~ u == 0) by lra. assert (ZB : Qeq_bool u 0 = false) by (destruct (Qeq_bool u 0) eqn:Z; [apply Qeq_bool_iff in Z; contradiction|reflexivity]).
  unfold axial_terms. rewrite L. change (zero_index 15) with 7%nat. cbv zeta. rewrite ZB.
  assert (UA : Qabs u == u) by (apply Qabs_pos; lra).
  assert (SEC : exists k', ratio (u, snd (xy c 7), interp u (rev c)) = Ok k' /\ k' == Qabs k).
  { apply ratio_abs; [exact NZ|]. rewrite (V u P ltac:(lra) (Qle_refl _)), O2. ring. }
  destruct kd; [discriminate KI|exact SEC|]. cbn [orb].
  assert (PB : Qltb 0 u = true) by (apply Qltb_true; exact UP).
  assert (DX : 0 < Qmin (1#2000) (Qabs u) /\ Qmin (1#2000) (Qabs u) <= u).
  { destruct (Q.min_dec (1#2000) (Qabs u)) as [X|X]; pose proof (Q.le_min_r (1#2000) (Qabs u)); rewrite X in *; split; lra. }
  rewrite PB. apply ratio_abs; [lra|]. rewrite (V u P ltac:(lra) (Qle_refl _)). rewrite (V (u - Qmin (1#2000) (Qabs u)) P) by lra. ring.
Qed.

(** what an axial spring answers small displacements in the direction of [u] *)
Lemma axial_reply : forall (zero_sum : bool) c k u, axial_shape c -> zero_sum = true \/ (fst (xy c 8) < 0 /\ 0 < fst (xy c 6)) ->
  exists R, eventually (fun t => forall d, d == t * u -> req Qeq R (if zero_sum then Ok 0 else ratio (axial_terms k d c))).
Proof.
  intros zs c k u SH P. destruct zs; [exists (Ok 0); apply eventually_const; intros t d _; reflexivity|]. destruct P as [P|P]; [discriminate P|].
  destruct (initial_kind k) eqn:KI.
  { exists (ratio (axial_terms k 0 c)). apply eventually_const. intros t d _. destruct k; try discriminate KI. apply req_refl_Q. }
  destruct (Qlt_le_dec 0 u) as [UP|UN].
  - exists (Ok (Qabs (snd (xy c 6) / fst (xy c 6)))). assert (H6 : 0 < fst (xy c 6) / 2) by (apply Qlt_shift_div_l; lra). assert (X6 : fst (xy c 6) / 2 < fst (xy c 6)) by (apply Qlt_shift_div_r; lra).
    refine (eventually_imp _ _ _ (small_abs u _ H6)). intros t T B d D. rewrite <- D in B. assert (DP : 0 < d) by (rewrite D; apply Qmult_lt_0_compat; assumption). rewrite Qabs_pos in B by lra.
    destruct (lifts_terms c d k) as (y & -> & E); [split; [exact SH|]; split; [apply P|]; split; lra|exact KI|]. cbn [req]. symmetry. exact E.
  - exists (ratio (axial_terms Initial 0 c)). refine (eventually_imp _ _ _ (presses_small c u SH P UN)). intros t T (A1 & A2 & A3 & A4 & A5 & A6) d D.
    assert (PR : presses c d) by (split; [exact A1|]; split; [exact A2|]; split; [exact A3|]; split; [exact A4|]; split; lra).
    pose proof (presses_req c d k PR) as X. destruct (ratio (axial_terms k d c)), (ratio (axial_terms Initial 0 c)); cbn [req] in *; try contradiction; [symmetry; exact X|congruence].
Qed.

Lemma req_two : forall (R a b : res Q), req Qeq R a -> req Qeq R b -> req Qeq a b.
Proof. intros [r|e] [a|a] [b|b]; cbn; try contradiction; [intros X Y; rewrite <- X; exact Y|congruence]. Qed.

(** ** The stiffness matrix *)
Definition gentle_sideways (M : wmodel) (u : vec) : Prop :=
  (forall mt, w_mt M = Some mt -> exists py, w_py M = Some py /\ forall e j a, (e < w_n M)%nat -> (j < 2)%nat -> a = e \/ a = S e -> absent_rows (mt e j) \/ turns (map snd (py e j)) (mt e j) (u (3 * a + 2)%nat)) /\
  (forall py, w_py M = Some py -> forall e j a, (e < w_n M)%nat -> (j < 2)%nat -> a = e \/ a = S e -> absent (py e j) \/ starts (py e j) (u (3 * a + 1)%nat)) /\
  (forall c, w_hb M = Some c -> idle c \/ starts c (u (3 * w_n M + 1)%nat)) /\
  (forall c, w_mb M = Some c -> idle c \/ starts c (u (3 * w_n M + 2)%nat)).

Lemma build_alike : forall M u u' k, gentle_sideways M u -> gentle_sideways M u' ->
  (forall tz, w_tz M = Some tz -> forall e j a, (e < w_n M)%nat -> (j < 2)%nat -> a = e \/ a = S e -> req Qeq (tz_spring (u (3 * a)%nat) (tz e j) k) (tz_spring (u' (3 * a)%nat) (tz e j) k)) ->
  (forall c, w_qz M = Some c -> req Qeq (base_axial_spring (u (3 * w_n M)%nat) c k) (base_axial_spring (u' (3 * w_n M)%nat) c k)) ->
  req same_all (build M u k) (build M u' k).
Proof.
  intros M u u' kd (GR & GP & GH & GM) (GR' & GP' & GH' & GM') GT GQ. unfold build.
  assert (S1 : (size M - 1 = 3 * w_n M + 2)%nat) by (unfold size; lia). assert (S2 : (size M - 2 = 3 * w_n M + 1)%nat) by (unfold size; lia).
  assert (S3 : (size M - 3 = 3 * w_n M)%nat) by (unfold size; lia).
  eapply req_bind.
  { instantiate (1 := elems_eq). unfold soil_elements. apply (req_bind _ _ elems_eq).
    - unfold opt_res. destruct (w_py M) as [py|] eqn:P; [|intros e i j; reflexivity]. eapply req_bind.
      + apply collect_comp. intros e He. apply both_comp. intros j Hj. rewrite !spring_disp_node by assumption.
        eapply req_sym_trans; apply py_gentle; [apply (GP py eq_refl e j _ He Hj), node_of; assumption|apply (GP' py eq_refl e j _ He Hj), node_of; assumption].
      + intros l l' HL e. destruct (kpair_comp l l' e HL). apply madd_comp; [intros i j; reflexivity|apply elem_py_comp; auto].
    - intros k1 k1' H1. unfold opt_res. apply (req_bind _ _ elems_eq).
      + destruct (w_tz M) as [tz|] eqn:Z; [|exact H1]. eapply req_bind.
        * apply collect_comp. intros e He. apply both_comp. intros j Hj. rewrite !spring_disp_node by assumption. rewrite !Nat.add_0_r.
          apply (GT tz eq_refl e j _ He Hj), node_of; assumption.
        * intros l l' HL e. destruct (kpair_comp l l' e HL). apply madd_comp; [apply H1|apply elem_tz_comp; auto].
      + intros k2 k2' H2. destruct (w_mt M) as [mt|]; [|exact H2]. destruct (GR mt eq_refl) as (py & P & RR). destruct (GR' mt eq_refl) as (py' & P' & RR'). rewrite P in P'. injection P' as <-. rewrite P in GP, GP' |- *. eapply req_bind.
        * apply collect_comp. intros e He. apply both_comp. intros j Hj. apply (req_bind _ _ Qeq).
          -- rewrite !spring_disp_node by assumption. eapply req_sym_trans; apply py_gentle; [apply (GP py eq_refl e j _ He Hj), node_of; assumption|apply (GP' py eq_refl e j _ He Hj), node_of; assumption].
          -- intros s1 s2 _. rewrite !(spring_disp_node _ _ 2) by assumption. eapply req_sym_trans; [apply (mt_gentle _ _ _ _ 0 _ Initial); apply (RR e j _ He Hj), node_of; assumption|apply mt_gentle; apply (RR' e j _ He Hj), node_of; assumption].
        * intros l l' HL e. destruct (kpair_comp l l' e HL). apply madd_comp; [apply H2|apply mt_matrix_comp; auto]. }
  intros a b E. eapply req_bind; [apply add_base_elastic; [lia| |apply jit_build_comp, E]|].
  { intros c C. rewrite S2. eapply req_sym_trans; apply base_gentle; [apply GH, C|apply GH', C]. }
  intros K1 K1' E1. eapply req_bind; [apply add_base_elastic; [lia| |exact E1]|].
  { intros c C. rewrite S1. eapply req_sym_trans; apply base_gentle; [apply GM, C|apply GM', C]. }
  intros K2 K2' E2. apply add_base_elastic; [lia| |exact E2].
  intros c C. rewrite S3. apply GQ, C.
Qed.

Lemma usable_settled : forall o p m ks mc g, usable g -> steady_springs o m g -> settled (stiffness_model o p m ks mc g).
Proof.
  intros o p m ks mc g US SD u k. set (M := stiffness_model o p m ks mc g). pose proof US as (_ & U2 & _ & _ & _ & U6).
  set (o' := mkOptions (on_py o) (on_mt o) (on_hb o) (on_mb o) false false). set (M' := stiffness_model o' p m ks mc g).
  assert (G1 : eventually (fun t => gentle M' (fun i => t * u i))) by (apply usable_gentle; [exact US|exact SD|left; split; reflexivity]).
  assert (G2 : exists R : nat -> nat -> nat -> res Q, eventually (fun t => forall e j a, (e < w_n M)%nat -> (j < 2)%nat -> a = e \/ a = S e -> forall d, d == t * u (3 * a)%nat -> req Qeq (R e j a) (tz_spring d (g_tz g e j) k))).
  { assert (X : forall e j a, exists r, eventually (fun t => forall d, d == t * u (3 * a)%nat -> req Qeq r (tz_spring d (g_tz g e j) k))).
    { intros e j a. destruct (U2 e j) as [SH H]. unfold tz_spring. apply axial_reply; [exact SH|]. destruct H as [A|P]; [left|right; exact P]. apply Qeq_bool_iff. exact (absent_abs_sum _ A). }
    assert (Y : forall e j a, eventually (fun t => forall s, 0 < s -> s <= t -> forall d d', d == t * u (3 * a)%nat -> d' == s * u (3 * a)%nat -> req Qeq (tz_spring d (g_tz g e j) k) (tz_spring d' (g_tz g e j) k))).
    { intros e j a. destruct (X e j a) as (r & t0 & T0 & H). exists t0. split; [exact T0|]. intros t T L s S0 SL d d' D D'. apply (req_two r); [apply (H t T L d D)|apply (H s S0 ltac:(lra) d' D')]. }
    destruct (eventually_nodes (w_n M) _ (fun e j a _ _ _ => Y e j a)) as (t0 & T0 & H). exists (fun e j a => tz_spring (t0 * u (3 * a)%nat) (g_tz g e j) k). exists t0. split; [exact T0|].
    intros t T L e j a He Hj Ha d D. apply (H t0 T0 (Qle_refl _) e j a He Hj Ha t T L); [reflexivity|exact D]. }
  assert (G3 : exists R : res Q, eventually (fun t => forall d, d == t * u (3 * w_n M)%nat -> req Qeq R (base_axial_spring d (g_qz g) k))).
  { destruct U6 as [SH H]. unfold base_axial_spring. apply axial_reply; [exact SH|]. destruct H as [A|P]; [left|right; exact P]. apply Qeq_bool_iff. exact (idle_abs_sum _ A). }
  destruct G2 as (Z & G2). destruct G3 as (Y & G3). destruct (eventually_and _ _ G1 (eventually_and _ _ G2 G3)) as (t0 & T0 & H).
  exists (build M (fun i => t0 * u i) k). exists t0. split; [exact T0|]. intros t T L w W.
  assert (SZ : size M = (3 * w_n M + 3)%nat) by (unfold size; lia).
  destruct (H t0 T0 (Qle_refl _)) as (A1 & A2 & A3). destruct (H t T L) as (B1 & B2 & B3).
  assert (B1' : gentle M' w) by (apply (gentle_comp M' (fun i => t * u i)); [intros i Hi; apply W, Hi|exact B1]).
  apply build_alike.
  - destruct A1 as (X1 & X2 & _ & X4 & X5 & _). exact (conj X1 (conj X2 (conj X4 X5))).
  - destruct B1' as (X1 & X2 & _ & X4 & X5 & _). exact (conj X1 (conj X2 (conj X4 X5))).
  - intros tz E e j a He Hj Ha. assert (tz = g_tz g) as -> by (unfold M, stiffness_model, soil_model, when_on in E; cbn [w_tz] in E; destruct (on_tz o); [congruence|discriminate E]).
    apply (req_two (Z e j a)); [apply (A2 e j a He Hj Ha); reflexivity|apply (B2 e j a He Hj Ha); apply W; destruct Ha; lia].
  - intros c E. assert (c = g_qz g) as -> by (unfold M, stiffness_model, soil_model, when_on in E; cbn [w_qz] in E; destruct (on_qz o); [congruence|discriminate E]).
    apply (req_two Y); [apply A3; reflexivity|apply B3; apply W; lia].
Qed.

(** C150 for the program: one pile and soil, without loads, under small prescribed displacements in proportion.  No support needs to
    hold the pile, and it may move up or down.  Missing: loads, and moment springs that change with the lateral resistance from the first movement on (sands). *)
Theorem C150_program_partial : forall rnd ch sort o sections gr wt ys x c p top b m solve ty circ E nu cs, storage rnd -> fair_chance ch -> (forall rows, ascending_of (sort rows) rows) ->
  sound_site o sections gr wt ys x c p top b m -> gentle_moments o ty ys -> solver_ok solve -> 0 < E -> -(3#4) <= nu -> (ty = Timoshenko -> circ = true) -> Forall no_load cs -> forall mi,
  exists t0, 0 < t0 /\ forall s t, 0 < s -> s <= t0 -> 0 < t -> t <= t0 ->
  exists r r', soil_analysis rnd ch sort solve ty circ E nu o sections gr wt ys x c (map (scaled s) cs) mi = bind r (fun a => Ok (Some a)) /\
    soil_analysis rnd ch sort solve ty circ E nu o sections gr wt ys x c (map (scaled t) cs) mi = bind r' (fun a => Ok (Some a)) /\
    end_in_proportion (3 * length (elements_of m) + 3) s t r r'.
Proof.
  intros rnd ch sort o sections gr wt ys x c p top b m solve ty circ E nu cs ST FC SO SS NM SV PE PN HT NL mi.
  destruct (analysis_unfold rnd ch sort o sections gr wt ys x c p top b m ST FC SO SS solve ty circ E nu PE PN HT) as (ks & mc & g & US & (st & MD & CB & EG) & KS & _ & _ & AN).
  destruct (C104_springs_of_models _ _ _ _ _ _ _ _ _ _ _ _ _ _ _ ST FC SO SS CB) as [OW _]. cbn [b_made] in OW. rewrite <- EG in OW. pose proof (site_steady _ _ _ _ _ _ _ _ _ _ _ NM US OW) as SD.
  destruct (AN cs mi) as (tf & td & tr & GF & GD & GR & _). pose proof (unloaded _ _ _ NL GF) as F0.
  destruct (settled_in_proportion _ (dof_vector tf) (dof_vector td) (dof_flags tr) mi (usable_settled o p m ks mc g US SD)) as (t0 & T0 & H). exists t0. split; [exact T0|].
  intros s t S1 S2 T1 T2. destruct (AN (map (scaled s) cs) mi) as (sf & sd & sr & SF & SDD & SR & ES). destruct (AN (map (scaled t) cs) mi) as (tf' & td' & tr' & TF & TD & TR & ET).
  destruct (tables_scaled _ s cs _ _ _ _ _ _ ltac:(lra) GF GD GR SF SDD SR) as (-> & -> & DS). destruct (tables_scaled _ t cs _ _ _ _ _ _ ltac:(lra) GF GD GR TF TD TR) as (-> & -> & DT).
  eexists. eexists. split; [exact ES|]. split; [exact ET|]. apply (H solve solve s t); auto. intros i _. split; [rewrite (F0 i); ring|]. split; [apply DS|]. split; [rewrite (F0 i); ring|apply DT].
Qed.
Print Assumptions C150_program_partial.

(** A pile pulled up at its head, with springs along the shaft and at the tip, which C144 leaves out *)
Example C150_program_case : on_tz all_on = true /\ on_qz all_on = true /\ on_mt all_on = true /\ ~ Forall asks_nothing_along head_pulled /\ forall solve mi, solver_ok solve ->
  exists t0, 0 < t0 /\ forall s t, 0 < s -> s <= t0 -> 0 < t -> t <= t0 -> exists r r',
    soil_analysis LiveWitness.rnd32 ch0 sort0 solve EulerBernoulli true 210 (3#10) all_on ex_l 0 (-1) FullProps.soil0 [-1] 2 (map (scaled s) head_pulled) mi = bind r (fun a => Ok (Some a)) /\
    soil_analysis LiveWitness.rnd32 ch0 sort0 solve EulerBernoulli true 210 (3#10) all_on ex_l 0 (-1) FullProps.soil0 [-1] 2 (map (scaled t) head_pulled) mi = bind r' (fun a => Ok (Some a)) /\
    end_in_proportion (3 * length (elements_of mesh1) + 3) s t r r'.
Proof.
  destruct C107_example as (_ & FC & SO & _). pose proof (site_exists all_on) as SS. destruct C144_pulled_example as (_ & NA & _). destruct C144_moments_example as (_ & GM & _).
  split; [reflexivity|]. split; [reflexivity|]. split; [reflexivity|]. split; [exact NA|]. intros solve mi SV.
  apply (C150_program_partial LiveWitness.rnd32 ch0 sort0 all_on ex_l 0 (-1) FullProps.soil0 [-1] 2 ex_p 2 (-8) mesh1 solve EulerBernoulli true 210 (3#10) head_pulled LiveWitness.storage32 FC SO SS GM SV ltac:(reflexivity) ltac:(discriminate) ltac:(reflexivity)).
  apply Forall_cons; [exact Logic.I|apply Forall_cons; [exact Logic.I|apply Forall_nil]].
Qed.
