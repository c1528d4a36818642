(** Programs working on a constructed pile in soil. *)
From Coq Require Import List Bool Arith ZArith QArith Qabs Qminmax Reals Qreals FunctionalExtensionality Lia Lqa Lra.
From Verif Require Import Base LinAlg BCModel BCSpec BCProofs PileModel PileSpec MeshModel MeshSpec StressModel StressSpec BeamModel SolveModel SolveSpec SolveProofs SoilProofs SpringModel SpringSpec SpringProofs WinklerModel WinklerProofs
  CreateModel WholeModel WholeSpec WholeProofs WholeProps BalanceSpec BalanceProofs BalanceProps ResultModel GetterModel GetterProofs SessionModel SessionSpec SessionProofs SessionWitness
  AxialModel AxialSpec CapacityModel CapacitySpec CapacityProofs FullModel FullSpec FullProofs SiteProofs AnalysisProofs LiveModel LiveSpec.
Import ListNotations SpringModel.
Local Open Scope Q_scope.

(** ** The arrays as curves *)
Definition springs_in (B : built) (s : spring_state) : FullModel.springs :=
  {| FullModel.g_py := SessionModel.spring_curve (GetterModel.g_py s); FullModel.g_tz := SessionModel.spring_curve (GetterModel.g_tz s); FullModel.g_mt := moment_columns (GetterModel.g_mt s);
     FullModel.g_hb := FullModel.g_hb (springs_of (b_made B)); FullModel.g_mb := FullModel.g_mb (springs_of (b_made B)); FullModel.g_qz := FullModel.g_qz (springs_of (b_made B)) |}.

Lemma as_stiffness : forall o B ks cs s, b_mesh B <> [] -> as_model (live_frame o B ks cs) s = stiffness_model o (b_pile B) (b_mesh B) ks cs (springs_in B s).
Proof.
  intros o B ks cs s NE. unfold as_model, stiffness_model, soil_model, live_frame, fr_n, springs_in. cbn. f_equal. pose proof (nodes_elems_count (b_mesh B) NE). lia.
Qed.

Lemma nth_seq_map : forall A (f : nat -> A) n i d, (i < n)%nat -> nth i (map f (seq 0 n)) d = f i.
Proof. intros A f n i d H. rewrite (nth_indep _ d (f 0%nat)) by (rewrite map_length, seq_length; auto). rewrite map_nth, seq_nth by auto. reflexivity. Qed.

Lemma array_back : forall (f : nat -> nat -> SpringModel.curve) e j, length (f e j) = 15%nat -> SessionModel.spring_curve (array_of f) e j = f e j.
Proof.
  intros f e j L. unfold SessionModel.spring_curve, array_of, spring_dim. cbn [s_y s_p]. apply (nth_ext _ _ (0, 0) (0, 0)); [rewrite map_length, seq_length; auto|].
  intros n H. rewrite map_length, seq_length in H. rewrite nth_seq_map by auto. symmetry. apply surjective_pairing.
Qed.
Lemma array5_back : forall (f : nat -> nat -> list SpringModel.curve) e j, length (f e j) = 15%nat -> (forall c, In c (f e j) -> length c = 15%nat) -> moment_columns (array5_of f) e j = f e j.
Proof.
  intros f e j L LC. unfold moment_columns, array5_of, spring_dim. cbn [t_t t_m]. apply (nth_ext _ _ [] []); [rewrite map_length, seq_length; auto|].
  intros n H. rewrite map_length, seq_length in H. rewrite nth_seq_map by auto. assert (LN : length (nth n (f e j) []) = 15%nat) by (apply LC, nth_In; lia).
  apply (nth_ext _ _ (0, 0) (0, 0)); [rewrite map_length, seq_length; auto|]. intros k K. rewrite map_length, seq_length in K. rewrite nth_seq_map by auto. symmetry. apply surjective_pairing.
Qed.

Lemma springs_back : forall B, usable (springs_of (b_made B)) -> springs_in B (live_springs B) = springs_of (b_made B).
Proof.
  intros B (U1 & U2 & U3 & _). unfold springs_in, live_springs. cbn [GetterModel.g_py GetterModel.g_tz GetterModel.g_mt]. destruct (springs_of (b_made B)) as [py tz mt hb mb qz]. cbn [FullModel.g_py FullModel.g_tz FullModel.g_mt FullModel.g_hb FullModel.g_mb FullModel.g_qz] in *.
  f_equal; extensionality e; extensionality j.
  - apply array_back. apply U1.
  - apply array_back. apply U2.
  - apply array5_back; [apply U3|]. intros c I. apply (proj1 (proj2 (U3 e j)) c I).
Qed.

(** ** Reading tables keeps the springs usable *)
Lemma influence_nn : forall n z i, 0 <= GetterModel.influence n z i.
Proof.
  intros n z i. unfold GetterModel.influence. assert (H : forall q, 0 <= Qabs q / 2) by (intros q; unfold Qdiv; apply Qmult_le_0_compat; [apply Qabs_nonneg|discriminate]).
  destruct (Nat.eqb i 0); [apply H|]. destruct (Nat.eqb i n); [apply H|apply Qabs_nonneg].
Qed.

(** the same displacements, resistances multiplied by [w] *)
Definition weighs (w : Q) (c c' : SpringModel.curve) : Prop := length c' = length c /\ forall i, fst (xy c' i) == fst (xy c i) /\ snd (xy c' i) == w * snd (xy c i).

Lemma weighs_in : forall w c c' q, weighs w c c' -> In q c' -> exists q0, In q0 c /\ fst q == fst q0 /\ snd q == w * snd q0.
Proof. intros w c c' q [L H] I. destruct (In_nth _ _ (0, 0) I) as (i & Hi & <-). exists (xy c i). split; [apply nth_In; lia|]. apply H. Qed.

Lemma weighted_curve : forall n z s e j, weighs (GetterModel.influence n z (if Nat.eqb j 0 then e else S e)) (SessionModel.spring_curve s e j) (SessionModel.spring_curve (weighted n z s) e j).
Proof.
  intros n z s e j. unfold SessionModel.spring_curve. split; [rewrite !map_length; reflexivity|]. intros i. destruct (lt_dec i spring_dim) as [L|L].
  - rewrite !nth_seq_map by auto. cbn [fst snd weighted s_y s_p]. split; [reflexivity|ring].
  - rewrite !nth_overflow by (rewrite map_length, seq_length; lia). cbn [fst snd]. split; [reflexivity|ring].
Qed.

Lemma weighs_shape : forall w c c', 0 <= w -> weighs w c c' -> lateral_shape c -> lateral_shape c'.
Proof.
  intros w c c' W X (L & Z1 & Z2 & OR & P). pose proof X as [L' H]. split; [congruence|]. split; [rewrite (proj1 (H 0%nat)); auto|]. split; [rewrite (proj2 (H 0%nat)), Z2; ring|].
  split; [intros i j IJ; rewrite (proj1 (H i)), (proj1 (H j)); auto|]. intros q I. destruct (weighs_in _ _ _ _ X I) as (q0 & I0 & _ & ->). apply Qmult_le_0_compat; auto.
Qed.
Lemma weighs_py : forall w c c', 0 <= w -> weighs w c c' -> usable_py c -> usable_py c'.
Proof.
  intros w c c' W X [S1 S2]. split; [eapply weighs_shape; eauto|]. destruct S2 as [Z|P]; [left|right].
  - intros q I. destruct (weighs_in _ _ _ _ X I) as (q0 & I0 & -> & _). auto.
  - rewrite (proj1 (proj2 X 1%nat)). exact P.
Qed.
Lemma weighs_tz : forall w c c', weighs w c c' -> usable_tz c -> usable_tz c'.
Proof.
  intros w c c' X [(L & Z1 & Z2 & OR) S2]. pose proof X as [L' H]. split.
  - split; [congruence|]. split; [rewrite (proj1 (H 7%nat)); auto|]. split; [rewrite (proj2 (H 7%nat)), Z2; ring|]. intros i j IJ. rewrite (proj1 (H i)), (proj1 (H j)); auto.
  - destruct S2 as [Z|P]; [left|right].
    + intros q I. destruct (weighs_in _ _ _ _ X I) as (q0 & I0 & -> & _). auto.
    + rewrite (proj1 (H 8%nat)), (proj1 (H 6%nat)). exact P.
Qed.
Lemma weighs_resists : forall w c c', 0 < w -> weighs w c c' -> resists c -> resists c'.
Proof.
  intros w c c' W [_ H] [A B]. split; [rewrite (proj1 (H 1%nat)); auto|]. intros i I. rewrite (proj2 (H i)). pose proof (B i I). apply Qmult_lt_0_compat; auto.
Qed.
Lemma weighs_axial : forall w c c', 0 < w -> weighs w c c' -> resists_axial c -> resists_axial c'.
Proof.
  intros w c c' W [_ H] (A & B & C). split; [rewrite (proj1 (H 8%nat)); auto|]. split; intros i I; rewrite (proj2 (H i)).
  - pose proof (B i I). apply Qmult_lt_0_compat; auto.
  - pose proof (C i I). setoid_replace (w * snd (xy c i)) with (- (w * - snd (xy c i))) by ring. assert (0 < w * - snd (xy c i)) by (apply Qmult_lt_0_compat; auto; Lqa.lra). Lqa.lra.
Qed.

(** What a state keeps: usable springs, and resistance where the built model had it *)
Definition sturdy (n : nat) (B : built) (s : spring_state) : Prop :=
  let g := springs_in B s in let g0 := springs_of (b_made B) in usable g /\
  (forall e j, (e < n)%nat -> (j < 2)%nat -> resists (FullModel.g_py g0 e j) -> resists (FullModel.g_py g e j)) /\
  (forall e j, (e < n)%nat -> (j < 2)%nat -> resists_axial (FullModel.g_tz g0 e j) -> resists_axial (FullModel.g_tz g e j)).

Lemma call_keeps : forall n z B g k s, (forall i, (i <= n)%nat -> 0 < GetterModel.influence n z i) -> sturdy n B s -> sturdy n B (snd (GetterModel.call n spring_dim z g k s)).
Proof.
  intros n z B g k s PI ((U1 & U2 & U3 & U4) & R1 & R2).
  assert (PW : forall e j, (e < n)%nat -> 0 < GetterModel.influence n z (if Nat.eqb j 0 then e else S e)) by (intros e j He; apply PI; destruct (Nat.eqb j 0); lia).
  assert (AX : sturdy n B {| GetterModel.g_py := GetterModel.g_py s; GetterModel.g_tz := weighted n z (GetterModel.g_tz s); GetterModel.g_mt := GetterModel.g_mt s |}).
  { unfold sturdy, springs_in. cbn [GetterModel.g_py GetterModel.g_tz GetterModel.g_mt FullModel.g_py FullModel.g_tz FullModel.g_mt FullModel.g_hb FullModel.g_mb FullModel.g_qz] in *. split; [|split; [exact R1|]].
    - split; [exact U1|]. split; [|split; [exact U3|exact U4]]. intros e j. exact (weighs_tz _ _ _ (weighted_curve n z (GetterModel.g_tz s) e j) (U2 e j)).
    - intros e j He Hj X. exact (weighs_axial _ _ _ (PW e j He) (weighted_curve n z (GetterModel.g_tz s) e j) (R2 e j He Hj X)). }
  assert (LA : sturdy n B {| GetterModel.g_py := weighted n z (GetterModel.g_py s); GetterModel.g_tz := GetterModel.g_tz s; GetterModel.g_mt := GetterModel.g_mt s |}).
  { unfold sturdy, springs_in. cbn [GetterModel.g_py GetterModel.g_tz GetterModel.g_mt FullModel.g_py FullModel.g_tz FullModel.g_mt FullModel.g_hb FullModel.g_mb FullModel.g_qz] in *. split; [|split; [|exact R2]].
    - split; [|split; [exact U2|split; [exact U3|exact U4]]]. intros e j. exact (weighs_py _ _ _ (influence_nn _ _ _) (weighted_curve n z (GetterModel.g_py s) e j) (U1 e j)).
    - intros e j He Hj X. exact (weighs_resists _ _ _ (PW e j He) (weighted_curve n z (GetterModel.g_py s) e j) (R1 e j He Hj X)). }
  assert (ID : sturdy n B s) by (split; [exact (conj U1 (conj U2 (conj U3 U4)))|auto]).
  destruct g, k; cbn [GetterModel.call get_lumped get_distributed snd fst]; auto.
Qed.

(** ** The report of an analysis exists *)
Lemma report_exists : forall M z g out, usable g -> exists w, result_of M z (FullModel.g_py g) (FullModel.g_mt g) (FullModel.g_hb g) (FullModel.g_mb g) out = Ok w /\ shows z out w.
Proof.
  intros M z g out (U1 & U2 & U3 & U4 & U5 & _). unfold result_of.
  assert (MOB : exists mob, springs_mob M z (FullModel.g_py g) (FullModel.g_mt g) (o_d out) = Ok mob).
  { unfold springs_mob. destruct (o_d out) as [u|]; [|eauto].
    assert (A : exists l, py_stiffness M (FullModel.g_py g) u Secant = Ok l). { apply collect_done. intros e _. apply both_ok. intros j. apply usable_py_ok. apply U1. }
    destruct A as (l & ->). cbn [bind].
    assert (A : exists l', mt_stiffness M (FullModel.g_py g) (FullModel.g_mt g) u Secant = Ok l').
    { apply collect_done. intros e _. apply both_ok. intros j. destruct (usable_py_ok (spring_disp (w_n M) u 1 e j) (FullModel.g_py g e j) Secant (U1 e j)) as (s & ->). cbn [bind].
      apply usable_mt_ok; [|apply U3]. rewrite map_length. apply (U1 e j). }
    destruct A as (l' & ->). cbn [bind]. eauto. }
  destruct MOB as (mob & ->). cbn [bind].
  assert (BR : forall u c, usable_base c -> exists h, base_report u c = Ok h).
  { intros [u|] c U; cbn [base_report]; [|eauto]. unfold base_mobilised. destruct (usable_base_ok u c Secant U) as (s & ->). cbn [bind]. eauto. }
  match goal with |- context [base_report ?u (FullModel.g_hb g)] => destruct (BR u _ U4) as (h & ->) end. cbn [bind].
  match goal with |- context [base_report ?u (FullModel.g_mb g)] => destruct (BR u _ U5) as (h' & ->) end. cbn [bind].
  eexists. split; [reflexivity|]. split; [reflexivity|]. split; reflexivity.
Qed.

Section Live.
Variables (rnd : R -> Q) (ch : chance) (sort : list (Q * section) -> list (Q * section)) (o : options) (sections : list section) (gr wt : Q) (ys : list soil_layer)
  (x : list Q) (c : Q) (p : list section) (t b : Q) (m : list Q).
Hypothesis ST : storage rnd.
Hypothesis FC : fair_chance ch.
Hypothesis SO : forall rows, ascending_of (sort rows) rows.
Hypothesis SS : sound_site o sections gr wt ys x c p t b m.
Variables (solve : solver) (ty : elem_type) (circ : bool) (E nu : Q).
Hypothesis PE : 0 < E.
Hypothesis PN : -(3#4) <= nu.
Hypothesis HT : ty = Timoshenko -> circ = true.

Notation ana cs mi := (soil_analysis rnd ch sort solve ty circ E nu o sections gr wt ys x c cs mi).
Notation z := (fun a => nth a (nodes_of m) 0).
Notation N := (length (elements_of m)).

(** The object that the operations work on *)
Lemma live_unfold : exists st MD ks mc, let B := mkBuilt p m st MD in construct rnd ch sort o sections gr wt ys x c = Ok (Some B) /\ usable (springs_of MD) /\
  (forall prog, live rnd ch sort solve ty circ E nu o sections gr wt ys x c prog = Ok (Some (fst (session solve (live_frame o B ks mc) prog {| st_bcs := []; st_springs := live_springs B |})))) /\
  (forall cs mi, exists tf td tr, global_forces (nodes_of m) (run cs []) = Ok tf /\ global_disp (nodes_of m) (run cs []) = Ok td /\ global_restrained (nodes_of m) (run cs []) = Ok tr /\
    ana cs mi = bind (winkler_model solve (stiffness_model o p m ks mc (springs_of MD)) (dof_vector tf) (dof_vector td) (dof_flags tr) mi) (fun r => Ok (Some r))) /\
  forall g, usable g -> (on_mt o = true -> on_py o = true) -> ty = EulerBernoulli \/ on_mt o = false -> sound_model (stiffness_model o p m ks mc g) z.
Proof using ST FC SO SS PE PN HT.
  destruct (constructed rnd ch sort o sections gr wt ys x c p t b m ST FC SO SS) as (sg & MD & CO & _ & NF & US & _).
  pose proof (si_mesh _ _ _ _ _ _ _ _ _ _ _ SS) as MS.
  destruct (C83_pile_soil_mechanics _ _ _ _ _ _ _ _ ty circ E nu MS PE PN HT) as (ks & KS & SM).
  destruct (coefs_exist _ _ _ _ _ _ _ _ ty circ E nu MS HT) as (cs0 & CS & LC & CE).
  eexists _, MD, ks, (if on_mt o then cs0 else []). cbv zeta. split; [exact CO|]. split; [exact US|]. split; [|split].
  - intros prog. unfold live. rewrite CO. cbn [bind b_pile b_mesh b_made]. rewrite KS. cbn [bind]. rewrite NF. destruct (on_mt o); [rewrite CS|]; cbn [bind]; reflexivity.
  - intros cs mi. unfold soil_analysis. rewrite CO. cbn [bind]. unfold solve_built. cbn [b_mesh b_pile b_made].
    unfold global_forces, global_disp, global_restrained. rewrite !run_never_conflicts. cbn [bind]. do 3 eexists. do 3 (split; [reflexivity|]).
    rewrite KS. cbn [bind]. rewrite NF. destruct (on_mt o); [rewrite CS|]; cbn [bind]; reflexivity.
  - intros g UG PQ C.
    assert (EL : forall e, (e < N)%nat -> 0 < elem_length (elements_of m) e).
    { intros e L. destruct (nth_error (elements_of m) e) as [y|] eqn:NN; [|apply nth_error_None in NN; lia]. destruct (element_sections _ _ _ _ _ _ _ _ MS e y NN) as [A _].
      unfold elem_length. rewrite (nth_error_nth _ _ _ NN). cbv zeta. pose proof (Qle_Qabs (fst y - snd y)). Lqa.lra. }
    apply (SM _ _ _ _ _ _ _). constructor; cbn [soil_model w_mt w_py w_mtc w_n].
    + intros mt EM e L kt kb Pt Pb. unfold when_on in EM. destruct (on_mt o) eqn:OM; [|discriminate]. destruct C as [C|C]; [|discriminate].
      destruct (CE C e L) as (J & A & X). rewrite X. apply eb_mtc_ok; auto.
    + intros py mt EP EM e j L J col q IC IQ. unfold when_on in EM. destruct (on_mt o) eqn:OM; [|discriminate]. injection EM as <-.
      destruct UG as (_ & _ & U3 & _). destruct (U3 e j) as (_ & U & _). apply (proj2 (U col IC) q IQ).
    + unfold when_on. destruct (on_mt o); [right|left; reflexivity]. rewrite PQ by reflexivity. eauto.
Qed.

(** One analysis, whatever the springs have become *)
Lemma live_solve : forall st MD ks mc cs s, let B := mkBuilt p m st MD in usable (springs_in B s) ->
  exists tf td tr, global_forces (nodes_of m) (run cs []) = Ok tf /\ global_disp (nodes_of m) (run cs []) = Ok td /\ global_restrained (nodes_of m) (run cs []) = Ok tr /\
  let W := winkler_model solve (stiffness_model o p m ks mc (springs_in B s)) (dof_vector tf) (dof_vector td) (dof_flags tr) 100 in
  let A := solve_state solve (live_frame o B ks mc) {| st_bcs := run cs []; st_springs := s |} in
  (forall out, W = Ok out -> exists w, A = Ok (Some w) /\ shows (nodes_of m) out w) /\ (forall e, W = Err e -> A = Err e).
Proof using SS.
  intros st MD ks mc cs s B US.
  assert (NE : b_mesh B <> []) by (apply (meshed_nonempty _ _ _ _ _ _ _ _ (si_mesh _ _ _ _ _ _ _ _ _ _ _ SS))).
  unfold solve_state, global_forces, global_disp, global_restrained. cbn [st_bcs st_springs fr_nodes live_frame]. cbn [b_mesh B]. rewrite !run_never_conflicts. cbn [bind]. do 3 eexists. do 3 (split; [reflexivity|]). cbv zeta.
  unfold solve_model, winkler_result. cbn [fr_soil live_frame SessionModel.when]. rewrite as_stiffness by exact NE. cbn [b_pile b_mesh B].
  change (a_py (arrays_of (live_frame o B ks mc) s)) with (FullModel.g_py (springs_in B s)). change (a_mt (arrays_of (live_frame o B ks mc) s)) with (FullModel.g_mt (springs_in B s)).
  change (a_hb (arrays_of (live_frame o B ks mc) s)) with (FullModel.g_hb (springs_in B s)). change (a_mb (arrays_of (live_frame o B ks mc) s)) with (FullModel.g_mb (springs_in B s)).
  split.
  - intros out EW. fold B. rewrite EW. cbn [bind]. destruct (report_exists (stiffness_model o p m ks mc (springs_in B s)) (nodes_of m) (springs_in B s) out US) as (w & EQ & SH). rewrite EQ. cbn [bind]. eauto.
  - intros e EW. fold B. rewrite EW. reflexivity.
Qed.

Lemma live_influence : forall i, (i <= N)%nat -> 0 < GetterModel.influence N z i.
Proof using SS.
  intros i Hi. pose proof (si_mesh _ _ _ _ _ _ _ _ _ _ _ SS) as MS. destruct (meshed_nonempty _ _ _ _ _ _ _ _ MS) as [NE NZ].
  apply influence_pos; [|intros e He|exact Hi]; [destruct (elements_of m); [congruence|cbn [length]; lia]|].
  destruct (C83_pile_soil_mechanics _ _ _ _ _ _ _ _ EulerBernoulli true 1 0 MS ltac:(reflexivity) ltac:(discriminate) ltac:(discriminate)) as (ks & _ & SM).
  destruct (SM None None None (fun _ => (0,0,0,0)) None None None) as [SP _]. destruct (sp_len _ _ SP e He) as [E1 E2]. rewrite E1 in E2. Lqa.lra.
Qed.

Lemma start_sturdy : forall st MD, usable (springs_of MD) -> sturdy N (mkBuilt p m st MD) (live_springs (mkBuilt p m st MD)).
Proof using. intros st MD US. unfold sturdy. rewrite springs_back by exact US. cbn [b_made]. split; [exact US|]. split; auto. Qed.

Lemma program_keeps : forall st MD ks mc prog s, let B := mkBuilt p m st MD in let fr := live_frame o B ks mc in sturdy N B (st_springs s) ->
  sturdy N B (st_springs (snd (session solve fr prog s))) /\ st_bcs (snd (session solve fr prog s)) = run (setters prog) (st_bcs s).
Proof using SS.
  intros st MD ks mc prog s B fr HS. rewrite (session_state solve fr prog s eq_refl). cbn [st_springs st_bcs]. split; [|reflexivity].
  assert (FN : fr_n fr = N). { unfold fr_n, fr. cbn [live_frame fr_nodes b_mesh B]. pose proof (nodes_elems_count m (proj1 (meshed_nonempty _ _ _ _ _ _ _ _ (si_mesh _ _ _ _ _ _ _ _ _ _ _ SS)))). lia. }
  rewrite FN. change (elev fr) with z. generalize (st_springs s) HS. induction (tables prog) as [|[g k] l IH]; intros s0 H0; [exact H0|]. cbn [calls].
  pose proof (call_keeps N z B g k s0 live_influence H0) as H1. destruct (GetterModel.call N spring_dim z g k s0) as [r s1]. specialize (IH s1 H1). destruct (calls N spring_dim z l s1). exact IH.
Qed.
End Live.
