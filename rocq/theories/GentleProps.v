(** C144: analyses whose prescribed displacements are small enough end after two passes, and answer in proportion. *)
From Coq Require Lra.
From Coq Require Import Reals List Bool Arith ZArith QArith Qabs Lia Lqa Setoid.
From Verif Require Import Base LinAlg BCModel BCSpec BCProofs PileModel MeshModel StressModel StressSpec StressProps BeamModel SolveModel SolveSpec SolveProofs SpringModel SpringSpec SpringProofs SpringProper SoilProofs WinklerModel WinklerSpec
  WholeModel WholeSpec WholeProofs CreateProps ElasticSpec ElasticProofs FullModel FullSpec AnalysisProofs FullProps ApartSpec ApartProofs ApartCalls StillProofs StillProps GentleProofs GentleCalls SteadyProofs EvenProofs.
From Verif Require BalanceProps LiveWitness.
Import ListNotations.
Local Open Scope Q_scope.

(** The supports that do not move hold the pile *)
Definition holds_at_rest (nodes : list Q) (l : list bc) : Prop :=
  (exists i, at_rest nodes l i AZ) /\ (exists i, at_rest nodes l i AY /\ ((exists j, at_rest nodes l j AX) \/ (exists j, j <> i /\ at_rest nodes l j AY))).
(** or the soil does, with an axial support that does not move or with friction *)
Definition soil_holds (o : options) (gr : Q) (ys : list soil_layer) (m : list Q) (l : list bc) : Prop :=
  on_py o = true /\ (exists e, In e (elements_of m) /\ resisting_layer gr ys e) /\
  ((exists i, at_rest (nodes_of m) l i AZ) \/ (on_tz o = true /\ exists e, In e (elements_of m) /\ sticking_layer gr ys e)).

Lemma search : forall n (R : vec), (forall i, (i < n)%nat -> R i == 0) \/ exists i, (i < n)%nat /\ ~ R i == 0.
Proof.
  induction n as [|n IH]; intros R; [left; intros; lia|]. destruct (Qeq_dec (R n) 0) as [Z|N]; [|right; exists n; split; [lia|exact N]].
  destruct (IH R) as [A|(i & Hi & X)]; [left; intros i Hi; destruct (Nat.eq_dec i n) as [->|NE]; [exact Z|apply A; lia]|right; exists i; split; [lia|exact X]].
Qed.
Lemma stable_same : forall n K K' s, same_all K' K -> stable n K' s -> stable n K s.
Proof.
  intros n K K' s E H v A B. apply H; [exact A|]. intros i Hi Si. rewrite <- (B i Hi Si). apply mulv_ext; [intros; apply E|intros; reflexivity].
Qed.
Lemma starts_small : forall c u, origin (pt c 0) -> 0 < fst (pt c 1) -> eventually (fun t => starts c (t * u)).
Proof.
  intros c u OR P. destruct (small_abs u (fst (pt c 1) / 2)) as (t0 & T0 & H). { apply Qlt_shift_div_l; lra. }
  exists t0. split; [exact T0|]. intros t Tp Tl. split; [exact OR|]. specialize (H t Tp Tl). assert (X : fst (pt c 1) / 2 < fst (pt c 1)) by (apply Qlt_shift_div_r; lra). lra.
Qed.
Lemma presses_small : forall c u, axial_shape c -> fst (pt c 8) < 0 /\ 0 < fst (pt c 6) -> u <= 0 -> eventually (fun t => presses c (t * u)).
Proof.
  intros c u (L & A & B & D) [P8 P6] U. destruct (small_abs u (- fst (pt c 8) / 2)) as (t0 & T0 & H). { apply Qlt_shift_div_l; lra. }
  exists t0. split; [exact T0|]. intros t Tp Tl. specialize (H t Tp Tl). assert (X : - fst (pt c 8) / 2 < - fst (pt c 8)) by (apply Qlt_shift_div_r; lra).
  assert (N : 0 <= t * (- u)) by (apply Qmult_le_0_compat; lra). assert (N' : t * - u == - (t * u)) by ring. rewrite N' in N. rewrite Qabs_neg in H by lra.
  split; [exact L|]. split; [split; [exact A|exact B]|]. split; [exact D|]. split; [exact P6|]. split; lra.
Qed.
(** Usable springs are moved gently by any displacement that is small enough and, along the pile, downwards *)
Definition steady_springs (o : options) (m : list Q) (g : springs) : Prop := on_mt o = false \/
  (on_py o = true /\ forall e j, (e < length (elements_of m))%nat -> (j < 2)%nat -> forall col, In col (g_mt g e j) -> same_points col).
Lemma leans_small : forall c u, axial_shape c -> fst (pt c 8) < 0 /\ 0 < fst (pt c 6) -> u <= 0 \/ even_start c -> eventually (fun t => leans c (t * u)).
Proof.
  intros c u LS P H. destruct (Qlt_le_dec 0 u) as [UP|UN].
  - destruct H as [H|EV]; [lra|]. destruct LS as (L & A & B & D). destruct P as [P8 P6]. destruct (small_abs u (fst (pt c 6) / 2)) as (t0 & T0 & S0). { apply Qlt_shift_div_l; lra. }
    exists t0. split; [exact T0|]. intros t Tp Tl. specialize (S0 t Tp Tl). assert (X : fst (pt c 6) / 2 < fst (pt c 6)) by (apply Qlt_shift_div_r; lra).
    assert (N : 0 <= t * u) by (apply Qmult_le_0_compat; lra). rewrite Qabs_pos in S0 by exact N. right.
    split; [exact L|]. split; [split; [exact A|exact B]|]. split; [exact D|]. split; [exact P8|]. split; [exact EV|]. split; lra.
  - eapply eventually_imp; [|apply (presses_small c u LS P UN)]. intros t _ X. left. exact X.
Qed.
Lemma turns_small : forall c cols u, usable_py c -> usable_mt cols -> (forall col, In col cols -> same_points col) -> eventually (fun t => absent_rows cols \/ turns (map snd c) cols (t * u)).
Proof.
  intros c cols u [(LC & _) _] (L & CO & UP & Z0 & Z1) SP. destruct Z1 as [AB|P1]; [apply eventually_const; intros t; left; exact AB|].
  assert (NC : forall k, (k < 15)%nat -> In (nth k cols []) cols) by (intros k Hk; apply nth_In; lia).
  assert (PT : forall k, (k < 15)%nat -> pt (first_points cols) k = pt (nth k cols []) 0).
  { intros k Hk. unfold first_points, pt. rewrite (nth_indep _ (0, 0) ((fun row : curve => nth 0 row (0, 0)) [])) by (rewrite map_length; exact (eq_ind_r (fun z => (k < z)%nat) Hk L)). exact (map_nth (fun row : curve => nth 0 row (0, 0)) cols [] k). }
  assert (IP : forall k, (k < 15)%nat -> In (pt (nth k cols []) 0) (nth k cols [])) by (intros k Hk; apply nth_In; rewrite (proj1 (CO _ (NC k Hk))); lia).
  eapply eventually_imp; [|apply (starts_small (first_points cols) u)].
  - intros t _ H. right. split; [intros W; apply (f_equal (@length _)) in W; rewrite map_length, LC in W; discriminate W|]. split; [intros row I'; rewrite map_length, LC; split; [apply (CO row I')|apply SP, I']|].
    split; [|exact H]. intros i j Hij. change (i <= j < @length (list (Q * Q)) cols)%nat in Hij. rewrite L in Hij. rewrite !PT by lia. exact (UP i j 0%nat Hij).
  - rewrite PT by lia. exact (Z0 _ (IP 0%nat ltac:(lia))).
  - rewrite PT by lia. exact (P1 _ (IP 1%nat ltac:(lia))).
Qed.
Lemma usable_turns : forall o m g, usable g -> steady_springs o m g -> on_mt o = false \/
  (on_py o = true /\ forall e j, (e < length (elements_of m))%nat -> (j < 2)%nat -> absent_rows (g_mt g e j) \/ turns (map snd (g_py g e j)) (g_mt g e j) 0).
Proof.
  intros o m g (U1 & _ & U3 & _) [A|[ON SP]]; [left; exact A|right]. split; [exact ON|]. intros e j He Hj.
  destruct (turns_small _ _ 0 (U1 e j) (U3 e j) (SP e j He Hj)) as (t0 & T0 & H). destruct (H t0 T0 (Qle_refl _)) as [A|(T1 & T2 & T3 & T4 & T5)]; [left; exact A|right].
  split; [exact T1|]. split; [exact T2|]. split; [exact T3|]. split; [exact T4|]. rewrite Qmult_0_r in T5. exact T5.
Qed.
Lemma usable_gentle : forall o p m ks mc g V, usable g -> steady_springs o m g -> (on_tz o = false /\ on_qz o = false) \/ (forall a, (a <= length (elements_of m))%nat -> V (3 * a)%nat <= 0) \/
  (on_qz o = false /\ forall e j, (e < length (elements_of m))%nat -> (j < 2)%nat -> even_start (g_tz g e j)) ->
  eventually (fun t => gentle (stiffness_model o p m ks mc g) (fun i => t * V i)).
Proof.
  intros o p m ks mc g V (U1 & U2 & U3 & U4 & U5 & U6) NM AX. set (M := stiffness_model o p m ks mc g). assert (MN : w_n M = length (elements_of m)) by reflexivity.
  assert (OR : forall c, lateral_shape c -> origin (pt c 0)) by (intros c (_ & A & B & _); split; [exact A|exact B]).
  assert (P1 : eventually (fun t => forall e j a, (e < w_n M)%nat -> (j < 2)%nat -> a = e \/ a = S e -> absent (g_py g e j) \/ starts (g_py g e j) (t * V (3 * a + 1)%nat))).
  { apply (eventually_nodes (w_n M) (fun e j a t => absent (g_py g e j) \/ starts (g_py g e j) (t * V (3 * a + 1)%nat))). intros e j a _ _ _. destruct (U1 e j) as [LS [AB|P]]; [apply eventually_const; intros t; left; exact AB|].
    eapply eventually_imp; [|apply (starts_small (g_py g e j) (V (3 * a + 1)%nat) (OR _ LS) P)]. intros t _ H. right. exact H. }
  assert (PB : forall c k, usable_base c -> eventually (fun t => idle c \/ starts c (t * V k))).
  { intros c k [LS [AB|P]]; [apply eventually_const; intros t; left; exact AB|]. eapply eventually_imp; [|apply (starts_small c (V k) (OR _ LS) P)]. intros t _ H. right. exact H. }
  assert (PZ' : eventually (fun t => (on_tz o = false /\ on_qz o = false) \/ ((forall e j a, (e < w_n M)%nat -> (j < 2)%nat -> a = e \/ a = S e -> absent (g_tz g e j) \/ t * V (3 * a)%nat == 0 \/ leans (g_tz g e j) (t * V (3 * a)%nat)) /\
    (on_qz o = false \/ idle (g_qz g) \/ t * V (3 * w_n M)%nat == 0 \/ presses (g_qz g) (t * V (3 * w_n M)%nat))))).
  { destruct AX as [A|AX]; [apply eventually_const; intros t; left; exact A|].
    assert (PZ1 : eventually (fun t => forall e j a, (e < w_n M)%nat -> (j < 2)%nat -> a = e \/ a = S e -> absent (g_tz g e j) \/ t * V (3 * a)%nat == 0 \/ leans (g_tz g e j) (t * V (3 * a)%nat))).
    { apply (eventually_nodes (w_n M) (fun e j a t => absent (g_tz g e j) \/ t * V (3 * a)%nat == 0 \/ leans (g_tz g e j) (t * V (3 * a)%nat))). intros e j a He Hj Ha. destruct (U2 e j) as [LS [AB|P]]; [apply eventually_const; intros t; left; exact AB|].
      eapply eventually_imp; [|apply (leans_small (g_tz g e j) (V (3 * a)%nat) LS P); destruct AX as [A|[_ A]]; [left; apply A; destruct Ha; lia|right; apply A; assumption]]. intros t _ H. right. right. exact H. }
    assert (PZ2 : eventually (fun t => on_qz o = false \/ idle (g_qz g) \/ t * V (3 * w_n M)%nat == 0 \/ presses (g_qz g) (t * V (3 * w_n M)%nat))).
    { destruct AX as [A|[A _]]; [|apply eventually_const; intros t; left; exact A]. destruct U6 as [LS [AB|P]]; [apply eventually_const; intros t; right; left; exact AB|].
      eapply eventually_imp; [|apply (presses_small (g_qz g) (V (3 * w_n M)%nat) LS P); apply A; lia]. intros t _ H. right. right. right. exact H. }
    eapply eventually_imp; [|exact (eventually_and _ _ PZ1 PZ2)]. intros t _ H. right. exact H. }
  assert (PR : eventually (fun t => on_mt o = false \/ (on_py o = true /\ forall e j a, (e < w_n M)%nat -> (j < 2)%nat -> a = e \/ a = S e -> absent_rows (g_mt g e j) \/ turns (map snd (g_py g e j)) (g_mt g e j) (t * V (3 * a + 2)%nat)))).
  { destruct NM as [A|[ON SP]]; [apply eventually_const; intros t; left; exact A|].
    assert (X : eventually (fun t => forall e j a, (e < w_n M)%nat -> (j < 2)%nat -> a = e \/ a = S e -> absent_rows (g_mt g e j) \/ turns (map snd (g_py g e j)) (g_mt g e j) (t * V (3 * a + 2)%nat))).
    { apply (eventually_nodes (w_n M) (fun e j a t => absent_rows (g_mt g e j) \/ turns (map snd (g_py g e j)) (g_mt g e j) (t * V (3 * a + 2)%nat))). intros e j a He Hj _. apply turns_small; [apply U1|apply U3|apply SP; assumption]. }
    eapply eventually_imp; [|exact X]. intros t _ H. right. split; [exact ON|exact H]. }
  eapply eventually_imp; [|exact (eventually_and _ _ PR (eventually_and _ _ PZ' (eventually_and _ _ P1 (eventually_and _ _ (PB (g_hb g) (3 * w_n M + 1)%nat U4) (PB (g_mb g) (3 * w_n M + 2)%nat U5)))))].
  intros t _ (GR & G0 & G1 & G2 & G3). unfold M, stiffness_model, soil_model, when_on in *. cbn [w_py w_tz w_mt w_hb w_mb w_qz w_n] in *. unfold gentle. cbn [w_py w_tz w_mt w_hb w_mb w_qz w_n].
  split.
  { intros mt E. destruct GR as [A|[ON GR]]; [rewrite A in E; discriminate E|]. destruct (on_mt o); [|discriminate E]. assert (mt = g_mt g) by congruence. subst mt. exists (g_py g). rewrite ON. split; [reflexivity|exact GR]. }
  split.
  { intros py E. destruct (on_py o); [|discriminate E]. assert (py = g_py g) by congruence. subst py. exact G1. }
  split.
  { intros tz E. destruct G0 as [[A1 A2]|[GZ _]]; [rewrite A1 in E; discriminate E|]. destruct (on_tz o); [|discriminate E]. assert (tz = g_tz g) by congruence. subst tz. exact GZ. }
  split.
  { intros c0 E. destruct (on_hb o); [|discriminate E]. assert (c0 = g_hb g) by congruence. subst c0. exact G2. }
  split.
  { intros c0 E. destruct (on_mb o); [|discriminate E]. assert (c0 = g_mb g) by congruence. subst c0. exact G3. }
  intros c0 E. destruct G0 as [[A1 A2]|[_ [A2|GQ]]]; [rewrite A2 in E; discriminate E|rewrite A2 in E; discriminate E|]. destruct (on_qz o); [|discriminate E]. assert (c0 = g_qz g) by congruence. subst c0. exact GQ.
Qed.

(** C144: full statement: what acts on a pile can be made so small that the analysis ends after two passes and its answers are in
    proportion to it.  Proved for prescribed displacements.  Missing: moment springs whose stiffness changes with the lateral
    resistance from the first movement on (sands), and moment springs with Timoshenko elements; axial springs in piles moved upwards along themselves, where their slopes differ up and down (always so with the spring at the tip).
    False for loads, see below. *)
Definition gentle_moments (o : options) (ty : elem_type) (ys : list soil_layer) : Prop := on_mt o = false \/
  (on_py o = true /\ ty = EulerBernoulli /\ forall y md, In y ys -> y_lat y = Some md -> steady md).
Lemma site_steady : forall rnd ch o ty sections gr wt b ys m g, gentle_moments o ty ys -> usable g ->
  (forall i j, (i < length (elements_of m))%nat -> (j < 2)%nat -> own_springs rnd ch o sections gr wt b ys m g i j) -> steady_springs o m g.
Proof.
  intros rnd ch o ty sections gr wt b ys m g [A|(ON & _ & SY)] (_ & _ & U3 & _) OW; [left; exact A|]. destruct (on_mt o) eqn:OM; [|left; exact OM]. right. split; [exact ON|]. intros e j He Hj.
  assert (NO : (forall col, In col (g_mt g e j) -> no_spring col) -> forall col, In col (g_mt g e j) -> same_points col).
  { intros H col IC q IQ. destruct (H col IC) as [LC Z]. rewrite (Z q IQ). assert (I0 : In (pt col 0) col) by (apply nth_In; rewrite LC; lia). rewrite (Z _ I0). split; reflexivity. }
  destruct (OW e j He Hj) as [(_ & _ & H & _)|(_ & y & s & IY & _ & _ & H & _)]; [exact (NO H)|]. rewrite OM in H. unfold given in H.
  destruct (y_lat y) as [md|] eqn:EY; [|exact (NO H)]. cbn [andb] in H. destruct (nth 2 (LateralModel.spring_signature md) false) eqn:SG; [|exact (NO H)].
  destruct H as (u & idx & _ & H). assert (IN : In y ys) by (apply (proj2 (IY y) eq_refl)). pose proof (SY y md IN EY) as S2.
  intros col IC q IQ. destruct (U3 e j) as (L & CO & _). destruct (In_nth _ _ [] IC) as (k & Hk & <-). rewrite L in Hk. destruct (In_nth _ _ (0, 0) IQ) as (i & Hi & <-). rewrite (proj1 (CO _ IC)) in Hi.
  pose proof (steady_stored rnd md u idx _ _ k i S2 SG H Hk Hi) as X. assert (W : forall p q : Q * Q, p = q -> fst p == fst q /\ snd p == snd q) by (intros p0 q0 ->; split; reflexivity). apply W. exact X.
Qed.
(** All shafts of the site take as much upwards as downwards at first. *)
Definition even_shafts (ys : list soil_layer) : Prop := forall y ax, In y ys -> y_ax y = Some ax -> even_shaft ax.
(** No spring at the tip, and springs along the shaft that do not tell up from down *)
Definition even_along (rnd : R -> Q) (o : options) (ys : list soil_layer) : Prop := on_qz o = false /\ odd_storage rnd /\ even_shafts ys.
Lemma first_pass : forall rnd ch sort o sections gr wt ys x c p top b m solve ty circ E nu cs, storage rnd -> fair_chance ch -> (forall rows, ascending_of (sort rows) rows) ->
  sound_site o sections gr wt ys x c p top b m -> gentle_moments o ty ys -> solver_ok solve -> 0 < E -> -(3#4) <= nu -> (ty = Timoshenko -> circ = true) ->
  Forall no_load cs ->
  let nodes := nodes_of m in let l := run cs [] in let n := (3 * length (elements_of m) + 3)%nat in
  holds_at_rest nodes l \/ soil_holds o gr ys m l -> (exists i a d q, In d l /\ sends nodes Displacement i a d q) ->
  exists td V R ks mc st MD tr K, construct rnd ch sort o sections gr wt ys x c = Ok (Some (mkBuilt p m st MD)) /\ usable (springs_of MD) /\ (odd_storage rnd -> even_shafts ys -> forall e j, (e < length (elements_of m))%nat -> (j < 2)%nat -> even_start (g_tz (springs_of MD) e j)) /\ (steady_springs o m (springs_of MD) /\ BalanceProps.no_timoshenko_mt (stiffness_model o p m ks mc (springs_of MD))) /\ elem_matrices ty circ E nu p (elements_of m) = Ok (Some ks) /\
    global_restrained nodes l = Ok tr /\ sound_model (stiffness_model o p m ks mc (springs_of MD)) (fun a => nth a (nodes_of m) 0) /\
    build (stiffness_model o p m ks mc (springs_of MD)) zero Initial = Ok K /\ stable n K (supports_of (dof_flags tr) (dof_vector td)) /\
    linear_state n K (fun _ => 0) (dof_vector td) (supports_of (dof_flags tr) (dof_vector td)) V R /\
    global_disp nodes l = Ok td /\ (exists i, (i < n)%nat /\ ~ R i == 0) /\
    (forall i a, (i < length nodes)%nat -> (supported nodes l i a -> V (dof i a) == dof_vector td (dof i a)) /\ (~ supported nodes l i a -> R (dof i a) == 0)) /\
    (Forall asks_nothing_along cs -> forall a, (a <= length (elements_of m))%nat -> V (3 * a)%nat == 0) /\
    forall t mi, ~ t == 0 -> gentle (stiffness_model o p m ks mc (springs_of MD)) (fun i => t * V i) -> (1 <= mi)%nat ->
    exists r v q, soil_analysis rnd ch sort solve ty circ E nu o sections gr wt ys x c (map (scaled t) cs) mi = Ok (Some r) /\ o_iter r = 2%nat /\ o_d r = Some v /\ o_Q r = Some q /\
      forall i, (i < n)%nat -> v i == t * V i /\ q i == t * R i.
Proof.
  intros rnd ch sort o sections gr wt ys x c p top b m solve ty circ E nu cs ST FC SO SS NM SV PE PN HT NL nodes l n HOLD (i1 & a1 & b1 & q1 & IN1 & SE1).
  assert (PP : on_mt o = true -> on_py o = true) by (intros W; destruct NM as [A|(A & _)]; [congruence|exact A]). assert (TY : ty = EulerBernoulli \/ on_mt o = false) by (destruct NM as [A|(_ & A & _)]; auto).
  destruct (analysis_unfold rnd ch sort o sections gr wt ys x c p top b m ST FC SO SS solve ty circ E nu PE PN HT) as (ks & mc & g & US & (st & MD & CB & EG) & KS & SP & SM & AN).
  destruct (SM TY) as [SM' NTM]. specialize (SM' PP). clear SM.
  destruct (C104_springs_of_models _ _ _ _ _ _ _ _ _ _ _ _ _ _ _ ST FC SO SS CB) as [OW _]. cbn [b_made] in OW. rewrite <- EG in OW. pose proof (site_steady _ _ _ _ _ _ _ _ _ _ _ NM US OW) as SD.
  assert (EVS : odd_storage rnd -> even_shafts ys -> forall e j, (e < length (elements_of m))%nat -> (j < 2)%nat -> even_start (g_tz g e j)).
  { intros OD EV e j He Hj. exact (site_even _ _ _ _ _ _ _ _ _ _ _ _ _ _ _ _ OD (proj1 (proj2 (proj2 FC))) SS EV (OW e j He Hj)). }
   destruct (AN cs 1%nat) as (tf & td & tr & GF & GD & GR & _). fold nodes l in GF, GD, GR.
  set (M := stiffness_model o p m ks mc g) in *. destruct (usable_builds _ (usable_stiffness o p m ks mc g US PP) zero Initial) as (K & EK). fold M in EK.
  assert (LN : length nodes = S (w_n M)).
  { pose proof (si_mesh _ _ _ _ _ _ _ _ _ _ _ SS) as MS. destruct (meshed_nonempty _ _ _ _ _ _ _ _ MS) as [NE _]. exact (nodes_elems_count m NE). }
  assert (SZ : SpringModel.size M = n) by reflexivity. set (F := dof_vector tf). set (U0 := dof_vector td). set (s := supports_of (dof_flags tr) U0).
  assert (F0 : forall i, F i == 0) by exact (unloaded nodes cs tf NL GF).
  set (s0 := fun i => dof_flags tr i && Qeq_bool (U0 i) 0).
  assert (S0 : forall i, s0 i = true -> s i = true) by (intros i H; unfold s0 in H; apply andb_true_iff in H; unfold s, supports_of; rewrite (proj1 H); reflexivity).
  assert (RB : forall i a, at_rest nodes l i a -> (i < length nodes)%nat) by (intros i a ((b0 & q0 & I0 & _ & MT & _) & _); exact (maps_to_bound _ _ _ MT)).
  assert (RS : forall i a, at_rest nodes l i a -> s0 (dof i a) = true).
  { intros i a AR. destruct (rest_flags nodes l td tr i a (RB i a AR) GD GR) as [X Y]. destruct AR as [A N]. unfold s0. apply andb_true_iff. split; [apply X; exact A|].
    destruct (Qeq_bool (U0 (dof i a)) 0) eqn:Z; [reflexivity|]. apply Qeq_bool_neq in Z. exfalso. apply N, Y, Z. }
  assert (GZ : gentle M zero).
  { destruct (usable_gentle o p m ks mc g zero US SD (or_intror (or_introl (fun a _ => Qle_refl 0)))) as (t0 & T0 & G). apply (gentle_comp M (fun i => t0 * zero i)); [|apply G; [exact T0|apply Qle_refl]]. intros i _. unfold zero. ring. }
  assert (STB : forall s1, (forall i, s0 i = true -> s1 i = true) -> stable n K s1).
  { intros s1 H1. rewrite <- SZ. destruct HOLD as [[(iz & Az) (iy & Ay & Hx)]|(ON & (e & IE & RL) & AXH)].
    - apply (system_held M (fun a => nth a (nodes_of m) 0) zero Initial K SM' EK). assert (BD : forall i a, at_rest nodes l i a -> (i <= w_n M)%nat) by (intros i a AR; apply RB in AR; lia).
      split; [exists iz; split; [exact (BD _ _ Az)|apply H1; exact (RS _ _ Az)]|]. exists iy. split; [exact (BD _ _ Ay)|]. split; [apply H1; exact (RS _ _ Ay)|].
      destruct Hx as [(j & Aj)|(j & NJ & Aj)]; [left; exists j; split; [exact (BD _ _ Aj)|apply H1; exact (RS _ _ Aj)]|right; exists j; split; [exact (BD _ _ Aj)|split; [exact NJ|apply H1; exact (RS _ _ Aj)]]].
    - destruct (gentle_same M zero Secant K GZ EK) as (K' & EK' & SK). apply (stable_same _ K K' s1 SK).
      assert (IX : forall e, In e (elements_of m) -> exists i, (i < length (elements_of m))%nat /\ nth i (elements_of m) (0, 0) = e) by (intros e0 I0; apply In_nth; exact I0).
      destruct US as (U1 & U2 & _). apply (system_stable M (fun a => nth a (nodes_of m) 0) zero Secant K' SM' EK').
      + destruct (IX e IE) as (i & Hi & EI). assert (RP : resists (g_py g i 1)) by (eapply layer_resists; eauto; rewrite EI; exact RL).
        destruct (resists_secant (spring_disp (w_n M) zero 1 i 1) (g_py g i 1) (proj1 (U1 i 1%nat)) RP) as (s2 & E1 & E2). exists (g_py g), i, 1%nat, s2.
        split; [unfold M, stiffness_model, soil_model; cbn [w_py]; rewrite ON; reflexivity|auto].
      + destruct AXH as [(iz & Az)|(OT & e' & IE' & SL)]; [left|right; left].
        * exists iz. pose proof (RB _ _ Az). split; [lia|apply H1; exact (RS _ _ Az)].
        * destruct (IX e' IE') as (i & Hi & EI). assert (RZ : resists_axial (g_tz g i 1)) by (eapply layer_sticks; eauto; [apply FC|rewrite EI; exact SL]).
          destruct (resists_axial_secant (spring_disp (w_n M) zero 0 i 1) (g_tz g i 1) (proj1 (U2 i 1%nat)) RZ) as (s2 & E1 & E2). exists (g_tz g), i, 1%nat, s2.
          split; [unfold M, stiffness_model, soil_model; cbn [w_tz]; rewrite OT; reflexivity|auto]. }
  destruct (proj2 (solve_equations_succeeds solve n K F U0 s SV) (STB s S0)) as [[V R] SE]. destruct (solve_equations_sound _ _ _ _ _ _ _ _ SV SE) as (L1 & L2 & L3).
  assert (BD1 : (i1 < length nodes)%nat) by (destruct SE1 as (_ & MT & _); exact (maps_to_bound _ _ _ MT)).
  assert (D1 : (dof i1 a1 < n)%nat) by (unfold n; assert (w_n M = length (elements_of m)) by reflexivity; destruct a1; cbn [dof]; lia).
  assert (U1 : ~ U0 (dof i1 a1) == 0) by (apply (proj2 (rest_flags nodes l td tr i1 a1 BD1 GD GR)); exists b1, q1; auto).
  assert (S1 : s (dof i1 a1) = true) by (apply (support_flags nodes l td tr i1 a1 BD1 GD GR); exists b1, q1; auto).
  assert (RN : exists i, (i < n)%nat /\ ~ R i == 0).
  { destruct (search n R) as [Z|H]; [exfalso|exact H]. apply U1. rewrite <- (L3 _ D1 S1). apply (STB s0 (fun i H => H)); [| |exact D1].
    - intros i Hi H. rewrite (L3 i Hi (S0 i H)). unfold s0 in H. apply andb_true_iff in H. apply Qeq_bool_iff, H.
    - intros i Hi _. rewrite (L1 i Hi), (F0 i), (Z i Hi). reflexivity. }
  assert (AXV : Forall asks_nothing_along cs -> forall a, (a <= length (elements_of m))%nat -> V (3 * a)%nat == 0).
  { intros A. destruct along_mod as (M2 & M1 & M0). pose proof (run_still _ _ _ cs [] (along_requests cs A) (Forall_nil _)) as RL.
    destruct (tables_still along false false true M2 M1 M0 nodes _ n _ _ RL GF GD) as [T1 T2]. assert (EA : elements_apart M) by (intros e _; apply (elem_matrices_uncoupled _ _ _ _ _ _ _ KS)).
    destruct (solve_still n along along_class solve s SV K F U0 V R (build_uncoupled M zero Initial K EA EK) T1 T2 SE) as [SV0 _]. intros a Ha. apply SV0; [unfold n; lia|].
    apply M0. rewrite Nat.mul_comm. apply Nat.mod_mul. lia. }
  subst g. exists td, V, R, ks, mc, st, MD, tr, K. split; [exact CB|]. split; [exact US|]. split; [exact EVS|]. split; [split; [exact SD|exact NTM]|]. split; [exact KS|]. split; [exact GR|]. split; [exact SM'|]. split; [exact EK|].
  split; [apply STB; exact S0|]. split; [split; [intros i Hi; rewrite (L1 i Hi), (F0 i); reflexivity|split; [exact L2|intros i Hi H; rewrite (L3 i Hi H); reflexivity]]|]. split; [exact GD|]. split; [exact RN|]. split.
  { intros i a Hi. assert (Di : (dof i a < n)%nat) by (unfold n; assert (w_n M = length (elements_of m)) by reflexivity; destruct a; cbn [dof]; lia). pose proof (support_flags nodes l td tr i a Hi GD GR) as SF. fold U0 s in SF. split.
    - intros SU. rewrite (L3 _ Di (proj2 SF SU)). reflexivity.
    - intros NS. apply L2; [exact Di|]. destruct (s (dof i a)) eqn:Z; [|reflexivity]. exfalso. apply NS, SF. reflexivity. }
  split; [exact AXV|]. intros t mi NT G Hm. fold M in G. destruct (AN (map (scaled t) cs) mi) as (tf' & td' & tr' & GF' & GD' & GR' & ->). fold nodes in GF', GD', GR'.
  destruct (tables_scaled nodes t cs tf td tr tf' td' tr' NT GF GD GR GF' GD' GR') as (-> & -> & TD).
  assert (SS' : forall i, supports_of (dof_flags tr) (dof_vector td') i = s i).
  { intros i. unfold s, supports_of. f_equal. f_equal. destruct (Qeq_bool (U0 i) 0) eqn:Z.
    - apply Qeq_bool_iff in Z. apply Qeq_bool_iff. rewrite TD. unfold U0 in Z. rewrite Z. ring.
    - apply Qeq_bool_neq in Z. destruct (Qeq_bool (dof_vector td' i) 0) eqn:Y; [|reflexivity]. exfalso. apply Qeq_bool_iff in Y. rewrite TD in Y. apply Qmult_integral in Y. destruct Y; [contradiction|apply Z; assumption]. }
  destruct (gentle_analysis solve M F (dof_vector td') (dof_flags tr) K (fun i => t * V i) (fun i => t * R i) mi SV EK) as (r & v & q & A1 & A2 & A3 & A4 & A5 & A6); [| |exact G| |exact Hm|].
  - rewrite SZ. apply STB. intros i H. rewrite SS'. apply S0, H.
  - rewrite SZ. split; [|split].
    + intros i Hi. rewrite mulv_scale, (L1 i Hi), (F0 i). ring.
    + intros i Hi H. rewrite SS' in H. rewrite (L2 i Hi H). ring.
    + intros i Hi H. rewrite SS' in H. rewrite (L3 i Hi H). symmetry. apply TD.
  - destruct RN as (i & Hi & NZ). exists i. rewrite SZ. split; [exact Hi|]. rewrite (F0 i). intros X. apply NZ. assert (Y : t * R i == 0) by lra. apply Qmult_integral in Y. destruct Y; [contradiction|assumption].
  - fold F. rewrite A1. cbn [bind]. exists r, v, q. split; [reflexivity|]. split; [exact A2|]. split; [exact A3|]. split; [exact A5|]. rewrite SZ in A4, A6. intros i Hi. split; [apply A4, Hi|apply A6, Hi].
Qed.

Lemma small_displacements : forall rnd ch sort o sections gr wt ys x c p top b m solve ty circ E nu cs, storage rnd -> fair_chance ch -> (forall rows, ascending_of (sort rows) rows) ->
  sound_site o sections gr wt ys x c p top b m -> gentle_moments o ty ys -> solver_ok solve -> 0 < E -> -(3#4) <= nu -> (ty = Timoshenko -> circ = true) ->
  Forall no_load cs -> (on_tz o = false /\ on_qz o = false) \/ Forall asks_nothing_along cs \/ even_along rnd o ys ->
  let nodes := nodes_of m in let l := run cs [] in let n := (3 * length (elements_of m) + 3)%nat in
  holds_at_rest nodes l \/ soil_holds o gr ys m l -> (exists i a d q, In d l /\ sends nodes Displacement i a d q) ->
  exists td V R t0 ks mc st MD tr K, construct rnd ch sort o sections gr wt ys x c = Ok (Some (mkBuilt p m st MD)) /\ usable (springs_of MD) /\ (steady_springs o m (springs_of MD) /\ BalanceProps.no_timoshenko_mt (stiffness_model o p m ks mc (springs_of MD))) /\ elem_matrices ty circ E nu p (elements_of m) = Ok (Some ks) /\
    global_restrained nodes l = Ok tr /\ sound_model (stiffness_model o p m ks mc (springs_of MD)) (fun a => nth a (nodes_of m) 0) /\
    build (stiffness_model o p m ks mc (springs_of MD)) zero Initial = Ok K /\ stable n K (supports_of (dof_flags tr) (dof_vector td)) /\
    linear_state n K (fun _ => 0) (dof_vector td) (supports_of (dof_flags tr) (dof_vector td)) V R /\
    global_disp nodes l = Ok td /\ 0 < t0 /\ (exists i, (i < n)%nat /\ ~ R i == 0) /\
    (forall i a, (i < length nodes)%nat -> (supported nodes l i a -> V (dof i a) == dof_vector td (dof i a)) /\ (~ supported nodes l i a -> R (dof i a) == 0)) /\
    forall t mi, ~ t == 0 -> Qabs t <= t0 -> (1 <= mi)%nat ->
    exists r v q, soil_analysis rnd ch sort solve ty circ E nu o sections gr wt ys x c (map (scaled t) cs) mi = Ok (Some r) /\ o_iter r = 2%nat /\ o_d r = Some v /\ o_Q r = Some q /\
      forall i, (i < n)%nat -> v i == t * V i /\ q i == t * R i.
Proof.
  intros rnd ch sort o sections gr wt ys x c p top b m solve ty circ E nu cs ST FC SO SS NM SV PE PN HT NL AX nodes l n HOLD SE.
  destruct (first_pass rnd ch sort o sections gr wt ys x c p top b m solve ty circ E nu cs ST FC SO SS NM SV PE PN HT NL HOLD SE)
    as (td & V & R & ks & mc & st & MD & tr & K & B1 & US & EVS & SDN & B3 & B4 & B5 & B6 & B7 & B8 & B9 & B10 & B11 & AXV & AN).
  pose proof (proj1 SDN) as SD. set (g := springs_of MD) in *. set (M := stiffness_model o p m ks mc g) in *.
  assert (AXV' : forall W : vec, (forall i, W i == V i \/ W i == - V i) -> (on_tz o = false /\ on_qz o = false) \/ (forall a, (a <= length (elements_of m))%nat -> W (3 * a)%nat <= 0) \/
    (on_qz o = false /\ forall e j, (e < length (elements_of m))%nat -> (j < 2)%nat -> even_start (g_tz g e j))).
  { intros W HW. destruct AX as [A|[A|(A1 & A2 & A3)]]; [left; exact A|right; left|right; right; split; [exact A1|exact (EVS A2 A3)]].
    intros a Ha. pose proof (AXV A a Ha) as Z. destruct (HW (3 * a)%nat) as [-> | ->]; rewrite Z; discriminate. }
  destruct (usable_gentle o p m ks mc g V US SD (AXV' V (fun i => or_introl (Qeq_refl _)))) as (ta & Ta & GV). fold M in GV.
  destruct (usable_gentle o p m ks mc g (fun i => - V i) US SD (AXV' (fun i => - V i) (fun i => or_intror (Qeq_refl _)))) as (tb & Tb & GW). fold M in GW.
  set (t0 := if Qle_bool ta tb then ta else tb).
  assert (T0 : 0 < t0 /\ t0 <= ta /\ t0 <= tb).
  { unfold t0. destruct (Qle_bool ta tb) eqn:B; [apply Qle_bool_iff in B; repeat split; [exact Ta|lra|exact B]|]. assert (tb < ta) by (apply Qnot_le_lt; intros X; apply Qle_bool_iff in X; congruence). repeat split; lra. }
  exists td, V, R, t0, ks, mc, st, MD, tr, K. do 10 (split; [assumption|]). split; [exact (proj1 T0)|]. split; [exact B10|]. split; [exact B11|].
  intros t mi NT TL Hm. apply AN; [exact NT| |exact Hm]. destruct (Qlt_le_dec 0 t) as [TP|TN].
  - rewrite Qabs_pos in TL by lra. apply GV; lra.
  - rewrite Qabs_neg in TL by exact TN. assert (TM : 0 < - t) by (destruct (Qle_lt_or_eq _ _ TN) as [X|X]; [lra|exfalso; apply NT; rewrite X; reflexivity]).
    apply (gentle_comp M (fun i => - t * - V i)); [intros i _; ring|]. apply GW; lra.
Qed.

(** Nothing is loaded, something is moved, and what is not moved holds the pile. *)
Theorem C144_small_displacements_partial : forall rnd ch sort o sections gr wt ys x c p top b m solve ty circ E nu cs, storage rnd -> fair_chance ch -> (forall rows, ascending_of (sort rows) rows) ->
  sound_site o sections gr wt ys x c p top b m -> gentle_moments o ty ys -> solver_ok solve -> 0 < E -> -(3#4) <= nu -> (ty = Timoshenko -> circ = true) ->
  Forall no_load cs -> (on_tz o = false /\ on_qz o = false) \/ Forall asks_nothing_along cs \/ even_along rnd o ys ->
  let nodes := nodes_of m in let l := run cs [] in let n := (3 * length (elements_of m) + 3)%nat in
  holds_at_rest nodes l \/ soil_holds o gr ys m l -> (exists i a d q, In d l /\ sends nodes Displacement i a d q) ->
  exists td V R t0, global_disp nodes l = Ok td /\ 0 < t0 /\ (exists i, (i < n)%nat /\ ~ R i == 0) /\
    (forall i a, (i < length nodes)%nat -> (supported nodes l i a -> V (dof i a) == dof_vector td (dof i a)) /\ (~ supported nodes l i a -> R (dof i a) == 0)) /\
    forall t mi, ~ t == 0 -> Qabs t <= t0 -> (1 <= mi)%nat ->
    exists r v q, soil_analysis rnd ch sort solve ty circ E nu o sections gr wt ys x c (map (scaled t) cs) mi = Ok (Some r) /\ o_iter r = 2%nat /\ o_d r = Some v /\ o_Q r = Some q /\
      forall i, (i < n)%nat -> v i == t * V i /\ q i == t * R i.
Proof.
  intros rnd ch sort o sections gr wt ys x c p top b m solve ty circ E nu cs ST FC SO SS NM SV PE PN HT NL AX nodes l n HOLD SE.
  destruct (small_displacements rnd ch sort o sections gr wt ys x c p top b m solve ty circ E nu cs ST FC SO SS NM SV PE PN HT NL AX HOLD SE)
    as (td & V & R & t0 & ks & mc & st & MD & tr & K & _ & _ & _ & _ & _ & _ & _ & _ & _ & A1 & A2 & A3 & A4 & A5).
  exists td, V, R, t0. auto.
Qed.
Print Assumptions C144_small_displacements_partial.

(** Downwards nothing stands against axial springs, as long as the linear answer moves no node upwards. *)
Theorem C144_pressed_down_partial : forall rnd ch sort o sections gr wt ys x c p top b m solve ty circ E nu cs, storage rnd -> fair_chance ch -> (forall rows, ascending_of (sort rows) rows) ->
  sound_site o sections gr wt ys x c p top b m -> gentle_moments o ty ys -> solver_ok solve -> 0 < E -> -(3#4) <= nu -> (ty = Timoshenko -> circ = true) -> Forall no_load cs ->
  let nodes := nodes_of m in let l := run cs [] in let n := (3 * length (elements_of m) + 3)%nat in
  holds_at_rest nodes l \/ soil_holds o gr ys m l -> (exists i a d q, In d l /\ sends nodes Displacement i a d q) ->
  exists td V R, global_disp nodes l = Ok td /\ (exists i, (i < n)%nat /\ ~ R i == 0) /\
    (forall i a, (i < length nodes)%nat -> (supported nodes l i a -> V (dof i a) == dof_vector td (dof i a)) /\ (~ supported nodes l i a -> R (dof i a) == 0)) /\
    ((forall i, (i < length nodes)%nat -> V (dof i AZ) <= 0) -> exists t0, 0 < t0 /\ forall t mi, 0 < t -> t <= t0 -> (1 <= mi)%nat ->
    exists r v q, soil_analysis rnd ch sort solve ty circ E nu o sections gr wt ys x c (map (scaled t) cs) mi = Ok (Some r) /\ o_iter r = 2%nat /\ o_d r = Some v /\ o_Q r = Some q /\
      forall i, (i < n)%nat -> v i == t * V i /\ q i == t * R i).
Proof.
  intros rnd ch sort o sections gr wt ys x c p top b m solve ty circ E nu cs ST FC SO SS NM SV PE PN HT NL nodes l n HOLD SE.
  destruct (first_pass rnd ch sort o sections gr wt ys x c p top b m solve ty circ E nu cs ST FC SO SS NM SV PE PN HT NL HOLD SE)
    as (td & V & R & ks & mc & st & MD & tr & K & _ & US & _ & [SD _] & _ & _ & _ & _ & _ & _ & B9 & B10 & B11 & _ & AN).
  exists td, V, R. split; [exact B9|]. split; [exact B10|]. split; [exact B11|]. intros DN.
  assert (LN : length nodes = S (length (elements_of m))).
  { pose proof (si_mesh _ _ _ _ _ _ _ _ _ _ _ SS) as MS. destruct (meshed_nonempty _ _ _ _ _ _ _ _ MS) as [NE _]. exact (nodes_elems_count m NE). }
  destruct (usable_gentle o p m ks mc (springs_of MD) V US SD) as (t0 & T0 & GV).
  { right. left. intros a Ha. assert (D : dof a AZ = (3 * a)%nat) by (cbn [dof]; lia). rewrite <- D. apply DN. lia. }
  exists t0. split; [exact T0|]. intros t mi TP TL Hm. apply AN; [lra|exact (GV t TP TL)|exact Hm].
Qed.
Print Assumptions C144_pressed_down_partial.

(** Small loads: a load of less than 1 kN (kNm) is cut off to zero (C06), and the analysis of a pile on which nothing acts gives no numbers (C37). *)
Definition below_one (o : option Q) : Prop := match o with None => True | Some q => Qabs q < 1 end.
Definition faint (c : call) : Prop := match c with SetPointload _ y z x => below_one y /\ below_one z /\ below_one x | SetPointdisplacement _ y z x => none_or_zero y /\ none_or_zero z /\ none_or_zero x | SetSupport _ _ _ _ => True end.
Definition faint_bc (b : bc) : Prop := match bc_kind b with Force => below_one (bc_x b) /\ below_one (bc_y b) /\ below_one (bc_z b) | Displacement => nothing (bc_x b) /\ nothing (bc_y b) /\ nothing (bc_z b) | Fixation => True end.

Lemma exec_faint : forall c l, faint c -> Forall faint_bc l -> Forall faint_bc (exec l c).
Proof.
  intros c l FC HL. assert (FQ : faint_bc (request c)).
  { destruct c as [e y z x|e y z x|e y z x]; unfold faint_bc; cbn [request bc_kind bc_x bc_y bc_z faint] in *; destruct FC as (A & B & C) || exact Logic.I; [tauto|].
    split; [apply nothing_of; exact C|split; apply nothing_of; assumption]. }
  rewrite exec_request. set (q := request c) in *. unfold update_bc. destruct (Nat.eqb _ 1).
  - induction HL as [|b t Hb Ht IH]; [constructor|]. cbn [update_selected]. constructor; [|exact IH]. destruct (selects _ _ b) eqn:E; [|exact Hb].
    unfold selects in E. apply andb_true_iff in E. destruct E as [_ E]. apply kind_eqb_true in E. unfold faint_bc in *. unfold merge_bc. cbn [bc_kind bc_x bc_y bc_z]. rewrite <- E in FQ.
    assert (MB : forall a b0, below_one a -> below_one b0 -> below_one (merge_val a b0)) by (intros [a|] b0; cbn; auto).
    destruct (bc_kind b); [exact Logic.I| |]; destruct Hb as (A & B & C), FQ as (A1 & B1 & C1).
    + split; [|split]; apply merge_nothing; assumption.
    + split; [|split]; apply MB; assumption.
  - apply Forall_app. split; [exact HL|]. constructor; [|constructor]. unfold faint_bc in *. destruct q as [k e x y z]. exact FQ.
Qed.
Lemma run_faint : forall cs l, Forall faint cs -> Forall faint_bc l -> Forall faint_bc (run cs l).
Proof. intros cs l H. unfold run. revert l. induction H as [|c t Hc Ht IH]; intros l HL; [exact HL|]. cbn [fold_left]. apply IH, exec_faint; auto. Qed.

Lemma cast_below : forall q, Qabs q < 1 -> int_cast q == 0.
Proof.
  intros q H. apply Qabs_Qlt_condition in H. destruct H as [A B]. unfold int_cast. destruct (Qle_bool 0 q) eqn:E.
  - apply Qle_bool_iff in E. assert (Z : Qround.Qfloor q = 0%Z).
    { pose proof (Qround.Qfloor_le q) as F1. pose proof (Qround.Qlt_floor q) as F2. rewrite inject_Z_plus in F2. change (inject_Z 1) with 1 in F2.
      assert (X : inject_Z (Qround.Qfloor q) < inject_Z 1) by (change (inject_Z 1) with 1; lra). assert (Y : inject_Z (-1) < inject_Z (Qround.Qfloor q)) by (change (inject_Z (-1)) with (-(1)); lra).
      rewrite <- Zlt_Qlt in X, Y. lia. }
    rewrite Z. reflexivity.
  - assert (L : q < 0) by (destruct (Qlt_le_dec q 0) as [L|L]; [exact L|apply Qle_bool_iff in L; congruence]). assert (Z : Qround.Qceiling q = 0%Z).
    { pose proof (Qround.Qle_ceiling q) as F1. pose proof (Qround.Qceiling_lt q) as F2. unfold Z.sub in F2. rewrite inject_Z_plus in F2. change (inject_Z (-(1))) with (-(1)) in F2.
      assert (X : inject_Z (-1) < inject_Z (Qround.Qceiling q)) by (change (inject_Z (-1)) with (-(1)); lra). assert (Y : inject_Z (Qround.Qceiling q) < inject_Z 1) by (change (inject_Z 1) with 1; lra).
      rewrite <- Zlt_Qlt in X, Y. lia. }
    rewrite Z. reflexivity.
Qed.
Lemma set_still : forall i q c, q == 0 -> column_still c -> column_still (set_nth i q c).
Proof. intros i q c E H. revert i. induction H as [|a c Ha Hc IH]; intros [|i]; cbn; constructor; auto; apply IH. Qed.
Lemma write_below : forall c i o, column_still c -> below_one o -> column_still (write int_cast c i o).
Proof. intros c i [q|] H B; [|exact H]. unfold write, truthy. destruct (Qeq_bool q 0); [exact H|]. apply set_still; [apply cast_below; exact B|exact H]. Qed.
Lemma faint_tables : forall nodes l T, Forall faint_bc l -> table_still true true true T -> table_still true true true (apply_bc int_cast nodes Force l T) /\ table_still true true true (apply_bc (fun q => q) nodes Displacement l T).
Proof.
  intros nodes l T HL HT. unfold apply_bc. split; revert T HT; (induction HL as [|b l Hb Hl IH]; intros T HT; [exact HT|]); cbn [fold_left]; apply IH; unfold apply_one, faint_bc in *;
    destruct (bc_kind b); cbn [kind_eqb]; try exact HT; (destruct (first_close nodes (bc_elev b)) as [i|]; [|exact HT]); destruct Hb as (A & B & C), HT as (X & Y & Z);
    unfold table_still; cbn [col_x col_y col_z]; (split; [|split]); intros _; first [apply write_below|apply write_still]; auto.
Qed.

Theorem C144_small_loads_refuted : forall rnd ch sort o sections gr wt ys x c p top b m solve ty circ E nu cs mi, storage rnd -> fair_chance ch -> (forall rows, ascending_of (sort rows) rows) ->
  sound_site o sections gr wt ys x c p top b m -> (on_mt o = true -> on_py o = true) -> solver_ok solve -> 0 < E -> -(3#4) <= nu -> (ty = Timoshenko -> circ = true) -> ty = EulerBernoulli \/ on_mt o = false ->
  holds_pile (nodes_of m) (run cs []) -> Forall faint cs -> (99 <= mi)%nat ->
  exists r, soil_analysis rnd ch sort solve ty circ E nu o sections gr wt ys x c cs mi = Ok (Some r) /\ o_d r = None /\ o_Q r = None.
Proof.
  intros rnd ch sort o sections gr wt ys x c p top b m solve ty circ E nu cs mi ST FC SO SS PP SV PE PN HT TY HP FA MI.
  destruct (analysis_unfold rnd ch sort o sections gr wt ys x c p top b m ST FC SO SS solve ty circ E nu PE PN HT) as (ks & mc & g & US & _ & KS & SP & SM & AN).
  destruct (SM TY) as [SM' _]. specialize (SM' PP). clear SM. destruct (AN cs mi) as (tf & td & tr & GF & GD & GR & ->).
  set (M := stiffness_model o p m ks mc g) in *. destruct (usable_builds _ (usable_stiffness o p m ks mc g US PP) zero Initial) as (K & EK). fold M in EK.
  assert (LN : length (nodes_of m) = S (w_n M)).
  { pose proof (si_mesh _ _ _ _ _ _ _ _ _ _ _ SS) as MS. destruct (meshed_nonempty _ _ _ _ _ _ _ _ MS) as [NE _]. exact (nodes_elems_count m NE). }
  pose proof (proj2 (held_iff (nodes_of m) (run cs []) (w_n M) td tr LN GD GR) HP) as HL.
  destruct (faint_tables (nodes_of m) (run cs []) (zeros (nodes_of m)) (run_faint cs [] FA (Forall_nil _)) (zeros_still true true true (nodes_of m))) as [T1 T2].
  assert (DZ : forall T, table_still true true true T -> veq (SpringModel.size M) (dof_vector T) zero) by (intros T H i Hi; exact (dof_still (fun _ => true) true true true (fun _ _ => eq_refl) (fun _ _ => eq_refl) (fun _ _ => eq_refl) (SpringModel.size M) T H i Hi eq_refl)).
  unfold global_forces in GF. destruct (validate_bc _ Force); cbn [bind] in GF; [|discriminate GF]. injection GF as GF. rewrite GF in T1.
  unfold global_disp in GD. destruct (validate_bc _ Displacement); cbn [bind] in GD; [|discriminate GD]. injection GD as GD. rewrite GD in T2.
  destruct (WinklerProps.C37_unloaded_nan_refuted solve M (dof_vector tf) (dof_vector td) (dof_flags tr) K mi SV (DZ tf T1) (DZ td T2) EK (system_held M (fun a => nth a (nodes_of m) 0) zero Initial K SM' EK _ HL) MI) as (r & -> & B1 & B2).
  exists r. cbn [bind]. auto.
Qed.
Print Assumptions C144_small_loads_refuted.

(** ** The hypotheses are met on the site of C107: a pile held at its head and moved at the tip, and one whose head is pushed into the soil *)
Definition no_moment : options := {| on_py := true; on_mt := false; on_hb := true; on_mb := true; on_tz := true; on_qz := true |}.
Definition tip_moved : list call := [SetSupport 2 (Some 1) (Some 1) (Some 1); SetPointdisplacement (-8) (Some 1) None None].
Definition head_pushed : list call := [SetPointdisplacement 2 (Some (-1)) None None; SetSupport (-8) None (Some 1) None].
Lemma send_here : forall k i a b q, bc_kind b = k -> first_close (nodes_of mesh1) (bc_elev b) = Some i -> get_axis a b = Some q -> ~ q == 0 -> sends (nodes_of mesh1) k i a b q.
Proof. intros k i a b q A B C D. split; [exact A|]. split; [apply first_close_iff; exact B|]. auto. Qed.
Lemma tip_moved_ok : holds_at_rest (nodes_of mesh1) (run tip_moved []) /\ exists i a d q, In d (run tip_moved []) /\ sends (nodes_of mesh1) Displacement i a d q.
Proof.
  assert (F2 : first_close (nodes_of mesh1) 2 = Some 0%nat) by (vm_compute; reflexivity).
  assert (NZ : forall a, In a [AX; AY; AZ] -> at_rest (nodes_of mesh1) (run tip_moved []) 0 a).
  { intros a Ha. split.
    - exists (mkBC Fixation 2 (Some 1) (Some 1) (Some 1)), 1. split; [left; reflexivity|]. apply send_here; [reflexivity|exact F2|destruct Ha as [<-|[<-|[<-|[]]]]; reflexivity|discriminate].
    - intros (d & q & [<-|[<-|[]]] & K & MT & _); [discriminate K|]. cbn [bc_elev] in MT. apply first_close_iff in MT. vm_compute in MT. discriminate MT. }
  split.
  - split; [exists 0%nat; apply NZ; cbn; auto|]. exists 0%nat. split; [apply NZ; cbn; auto|]. left. exists 0%nat. apply NZ; cbn; auto.
  - destruct (first_close (nodes_of mesh1) (-8)) as [i|] eqn:E; [|vm_compute in E; discriminate E]. exists i, AY, (mkBC Displacement (-8) None (Some 1) None), 1.
    split; [right; left; reflexivity|]. apply send_here; [reflexivity|exact E|reflexivity|discriminate].
Qed.
Lemma head_pushed_ok : soil_holds no_moment 0 FullProps.soil0 mesh1 (run head_pushed []) /\ exists i a d q, In d (run head_pushed []) /\ sends (nodes_of mesh1) Displacement i a d q.
Proof.
  destruct C107_example as (_ & _ & _ & _ & RL & SL & _). split.
  - split; [reflexivity|]. split; [exact RL|]. right. split; [reflexivity|exact SL].
  - destruct (first_close (nodes_of mesh1) 2) as [i|] eqn:E; [|vm_compute in E; discriminate E]. exists i, AY, (mkBC Displacement 2 None (Some (-1)) None), (-1).
    split; [left; reflexivity|]. apply send_here; [reflexivity|exact E|reflexivity|discriminate].
Qed.
Example C144_example : sound_site no_moment ex_l 0 (-1) FullProps.soil0 [-1] 2 ex_p 2 (-8) mesh1 /\ forall cs, cs = tip_moved \/ cs = head_pushed -> Forall no_load cs /\ Forall asks_nothing_along cs /\
  forall solve ty, solver_ok solve -> exists t0, 0 < t0 /\ forall t, ~ t == 0 -> Qabs t <= t0 -> exists r v,
    soil_analysis rnd0 ch0 sort0 solve ty true 210 (3#10) no_moment ex_l 0 (-1) FullProps.soil0 [-1] 2 (map (scaled t) cs) 100 = Ok (Some r) /\ o_iter r = 2%nat /\ o_d r = Some v.
Proof.
  destruct C107_example as (ST & FC & SO & _). pose proof (site_exists no_moment) as SS. split; [exact SS|]. intros cs Hcs.
  assert (A : Forall no_load cs /\ Forall asks_nothing_along cs).
  { destruct Hcs as [-> | ->]; (split; [apply Forall_cons; [exact Logic.I|apply Forall_cons; [exact Logic.I|apply Forall_nil]]|]).
    - exact (Forall_cons (SetSupport 2 (Some 1) (Some 1) (Some 1)) Logic.I (Forall_cons (SetPointdisplacement (-8) (Some 1) None None) (or_introl eq_refl) (Forall_nil asks_nothing_along))).
    - exact (Forall_cons (SetPointdisplacement 2 (Some (-1)) None None) (or_introl eq_refl) (Forall_cons (SetSupport (-8) None (Some 1) None) Logic.I (Forall_nil asks_nothing_along))). }
  split; [apply A|]. split; [apply A|]. intros solve ty SV.
  destruct (C144_small_displacements_partial rnd0 ch0 sort0 no_moment ex_l 0 (-1) FullProps.soil0 [-1] 2 ex_p 2 (-8) mesh1 solve ty true 210 (3#10) cs ST FC SO SS (or_introl eq_refl) SV ltac:(reflexivity) ltac:(discriminate) ltac:(reflexivity) (proj1 A) (or_intror (or_introl (proj2 A))))
    as (td & V & R & t0 & _ & T0 & _ & _ & H).
  - destruct Hcs as [-> | ->]; [left; exact (proj1 tip_moved_ok)|right; exact (proj1 head_pushed_ok)].
  - destruct Hcs as [-> | ->]; [exact (proj2 tip_moved_ok)|exact (proj2 head_pushed_ok)].
  - exists t0. split; [exact T0|]. intros t NT TL. destruct (H t 100%nat NT TL ltac:(lia)) as (r & v & q & A1 & A2 & A3 & _). exists r, v. auto.
Qed.
(** With the moment springs of the site of C107, an API clay with the extension over a custom PISA clay *)
Example C144_moments_example : on_mt all_on = true /\ gentle_moments all_on EulerBernoulli FullProps.soil0 /\ forall cs, cs = tip_moved \/ cs = head_pushed ->
  forall solve, solver_ok solve -> exists t0, 0 < t0 /\ forall t, ~ t == 0 -> Qabs t <= t0 -> exists r v,
    soil_analysis rnd0 ch0 sort0 solve EulerBernoulli true 210 (3#10) all_on ex_l 0 (-1) FullProps.soil0 [-1] 2 (map (scaled t) cs) 100 = Ok (Some r) /\ o_iter r = 2%nat /\ o_d r = Some v.
Proof.
  destruct C107_example as (ST & FC & SO & _ & RL & SL & _). pose proof (site_exists all_on) as SS. split; [reflexivity|].
  assert (GM : gentle_moments all_on EulerBernoulli FullProps.soil0).
  { right. split; [reflexivity|]. split; [reflexivity|]. intros y md [<-|[<-|[]]] E; cbn [y_lat] in E; [assert (md = lower0) by congruence|assert (md = upper0) by congruence]; subst md; exact Logic.I. }
  split; [exact GM|]. intros cs Hcs solve SV. destruct (proj2 C144_example cs Hcs) as (A1 & A2 & _).
  destruct (C144_small_displacements_partial rnd0 ch0 sort0 all_on ex_l 0 (-1) FullProps.soil0 [-1] 2 ex_p 2 (-8) mesh1 solve EulerBernoulli true 210 (3#10) cs ST FC SO SS GM SV ltac:(reflexivity) ltac:(discriminate) ltac:(reflexivity) A1 (or_intror (or_introl A2)))
    as (td & V & R & t0 & _ & T0 & _ & _ & H).
  - destruct Hcs as [-> | ->]; [left; exact (proj1 tip_moved_ok)|right; split; [reflexivity|split; [exact RL|right; split; [reflexivity|exact SL]]]].
  - destruct Hcs as [-> | ->]; [exact (proj2 tip_moved_ok)|exact (proj2 head_pushed_ok)].
  - exists t0. split; [exact T0|]. intros t NT TL. destruct (H t 100%nat NT TL ltac:(lia)) as (r & v & q & B1 & B2 & B3 & _). exists r, v. auto.
Qed.
(** The loads of the refutation: half a kilonewton on a pile held at its head *)
Example C144_faint_example : holds_pile (nodes_of mesh1) (run [SetSupport 2 (Some 1) (Some 1) (Some 1); SetPointload (-8) (Some (1#2)) None None] []) /\ Forall faint [SetSupport 2 (Some 1) (Some 1) (Some 1); SetPointload (-8) (Some (1#2)) None None].
Proof.
  split.
  - assert (SN : forall a, In a [AX; AY; AZ] -> supported (nodes_of mesh1) (run [SetSupport 2 (Some 1) (Some 1) (Some 1); SetPointload (-8) (Some (1#2)) None None] []) 0 a).
    { intros a Ha. exists (mkBC Fixation 2 (Some 1) (Some 1) (Some 1)), 1. split; [left; reflexivity|]. left. apply send_here; [reflexivity|vm_compute; reflexivity|destruct Ha as [<-|[<-|[<-|[]]]]; reflexivity|discriminate]. }
    split; [exists 0%nat; apply SN; cbn; auto|]. exists 0%nat. split; [apply SN; cbn; auto|]. left. exists 0%nat. apply SN. cbn; auto.
  - constructor; [exact Logic.I|]. constructor; [|constructor]. cbn. split; [reflexivity|split; exact Logic.I].
Qed.

(** Every node of the site of C107 pressed down by the same amount, with axial springs along the shaft and at the tip. *)
Definition all_pressed : list call := map (fun z => SetPointdisplacement z None (Some (-1)) None) (nodes_of mesh1).
Example C144_pressed_example : on_tz no_moment = true /\ on_qz no_moment = true /\ Forall no_load all_pressed /\ ~ Forall asks_nothing_along all_pressed /\ forall solve ty, solver_ok solve -> exists t0, 0 < t0 /\ forall t, 0 < t -> t <= t0 -> exists r v,
    soil_analysis rnd0 ch0 sort0 solve ty true 210 (3#10) no_moment ex_l 0 (-1) FullProps.soil0 [-1] 2 (map (scaled t) all_pressed) 100 = Ok (Some r) /\ o_iter r = 2%nat /\ o_d r = Some v /\ forall i, (i < 7)%nat -> v (dof i AZ) == - t.
Proof.
  destruct C107_example as (ST & FC & SO & _ & RL & SL & _). pose proof (site_exists no_moment) as SS. split; [reflexivity|]. split; [reflexivity|].
  assert (NL : Forall no_load all_pressed) by (unfold all_pressed; apply Forall_forall; intros c I; apply in_map_iff in I; destruct I as (z & <- & _); exact Logic.I).
  split; [exact NL|]. assert (LN : length (nodes_of mesh1) = 7%nat) by (vm_compute; reflexivity).
  split.
  { intros H. rewrite Forall_forall in H. specialize (H (SetPointdisplacement (nth 0 (nodes_of mesh1) 0) None (Some (-1)) None)). assert (I2 : In (SetPointdisplacement (nth 0 (nodes_of mesh1) 0) None (Some (-1)) None) all_pressed) by (apply (in_map (fun z => SetPointdisplacement z None (Some (-1)) None)), nth_In; rewrite LN; lia).
    specialize (H I2). cbn [asks_nothing_along] in H. destruct H as [H|(q & H & Z)]; [discriminate H|]. assert (W : q = -1) by congruence. subst q. discriminate Z. }
  intros solve ty SV.
  destruct (C144_pressed_down_partial rnd0 ch0 sort0 no_moment ex_l 0 (-1) FullProps.soil0 [-1] 2 ex_p 2 (-8) mesh1 solve ty true 210 (3#10) all_pressed ST FC SO SS (or_introl eq_refl) SV ltac:(reflexivity) ltac:(discriminate) ltac:(reflexivity) NL)
    as (td & V & R & GD & _ & SU & PR).
  - right. split; [reflexivity|]. split; [exact RL|]. right. split; [reflexivity|exact SL].
  - exists 0%nat, AZ, (mkBC Displacement (nth 0 (nodes_of mesh1) 0) None None (Some (-1))), (-1).
    split; [vm_compute; repeat (first [left; reflexivity|right])|]. apply send_here; [reflexivity|vm_compute; reflexivity|reflexivity|discriminate].
  - assert (VZ : forall i, (i < 7)%nat -> V (dof i AZ) == -1).
    { intros i Hi. rewrite LN in SU. destruct (SU i AZ Hi) as [S1 _]. rewrite S1.
      - vm_compute in GD. assert (ET : exists t, Ok t = Ok td /\ forall i, (i < 7)%nat -> dof_vector t (dof i AZ) == -1).
        { eexists. split; [exact GD|]. intros k Hk. do 7 (destruct k as [|k]; [vm_compute; reflexivity|]). lia. }
        destruct ET as (t & ET & H). assert (t = td) by congruence. subst t. apply H, Hi.
      - assert (IS : forall k, (k < 7)%nat -> exists b, In b (run all_pressed []) /\ sends (nodes_of mesh1) Displacement k AZ b (-1)).
        { intros k Hk. exists (mkBC Displacement (nth k (nodes_of mesh1) 0) None None (Some (-1))).
          do 7 (destruct k as [|k]; [split; [vm_compute; repeat (first [left; reflexivity|right])|apply send_here; [reflexivity|vm_compute; reflexivity|reflexivity|discriminate]]|]). lia. }
        destruct (IS i Hi) as (b & I & S2). exists b, (-1). split; [exact I|right; exact S2]. }
    destruct PR as (t0 & T0 & H). { intros i Hi. rewrite LN in Hi. rewrite (VZ i Hi). discriminate. }
    exists t0. split; [exact T0|]. intros t TP TL. destruct (H t 100%nat TP TL ltac:(lia)) as (r & v & q & A1 & A2 & A3 & _ & A5). exists r, v. split; [exact A1|]. split; [exact A2|]. split; [exact A3|].
    intros i Hi. destruct (A5 (dof i AZ)) as [B _]; [assert (NE : length (elements_of mesh1) = 6%nat) by (vm_compute; reflexivity); rewrite NE; cbn [dof]; lia|]. rewrite B, (VZ i Hi). ring.
Qed.
(** Pulled out of the ground: without the spring at the tip the head is moved upwards along the pile, and then pushed down. *)
Definition no_tip : options := {| on_py := true; on_mt := true; on_hb := true; on_mb := true; on_tz := true; on_qz := false |}.
Definition head_pulled : list call := [SetPointdisplacement 2 None (Some 1) None; SetSupport (-8) None (Some 1) None].
Lemma odd32 : odd_storage LiveWitness.rnd32.
Proof.
  intros x. unfold LiveWitness.rnd32. destruct (Rlt_dec 0 x) as [P|NP], (Rlt_dec x 0) as [N|NN], (Rlt_dec 0 (- x)) as [P'|NP'], (Rlt_dec (- x) 0) as [N'|NN']; try (exfalso; Lra.lra).
  - rewrite Ropp_involutive. reflexivity.
  - ring.
  - reflexivity.
Qed.
Example C144_pulled_example : even_along LiveWitness.rnd32 no_tip FullProps.soil0 /\ ~ Forall asks_nothing_along head_pulled /\
  forall solve, solver_ok solve -> exists t0, 0 < t0 /\ forall t, ~ t == 0 -> Qabs t <= t0 -> exists r v,
    soil_analysis LiveWitness.rnd32 ch0 sort0 solve EulerBernoulli true 210 (3#10) no_tip ex_l 0 (-1) FullProps.soil0 [-1] 2 (map (scaled t) head_pulled) 100 = Ok (Some r) /\ o_iter r = 2%nat /\ o_d r = Some v /\ v 0%nat == t.
Proof.
  destruct C107_example as (_ & FC & SO & _ & RL & SL & _). pose proof (site_exists no_tip) as SS.
  assert (EA : even_along LiveWitness.rnd32 no_tip FullProps.soil0).
  { split; [reflexivity|]. split; [exact odd32|]. intros y ax [<-|[<-|[]]] E; cbn [y_ax] in E; [|discriminate E]. assert (ax = CapacityModel.Clay CapacityProps.clay_w) by congruence. subst ax. reflexivity. }
  split; [exact EA|]. split; [intros F; inversion F as [|c0 l0 A _]; subst; destruct A as [A|(q & A & B)]; [discriminate A|]; assert (q = 1) by congruence; subst q; discriminate B|].
  intros solve SV. destruct C144_moments_example as (_ & GM0 & _). destruct GM0 as [W|GM]; [discriminate W|].
  assert (FC2 : first_close (nodes_of mesh1) 2 = Some 0%nat) by (vm_compute; reflexivity).
  assert (IN : In (mkBC Displacement 2 None None (Some 1)) (run head_pulled [])) by (left; reflexivity).
  assert (SE : sends (nodes_of mesh1) Displacement 0 AZ (mkBC Displacement 2 None None (Some 1)) 1) by (apply send_here; [reflexivity|exact FC2|reflexivity|discriminate]).
  destruct (C144_small_displacements_partial LiveWitness.rnd32 ch0 sort0 no_tip ex_l 0 (-1) FullProps.soil0 [-1] 2 ex_p 2 (-8) mesh1 solve EulerBernoulli true 210 (3#10) head_pulled LiveWitness.storage32 FC SO SS (or_intror (conj eq_refl (proj2 GM))) SV ltac:(reflexivity) ltac:(discriminate) ltac:(reflexivity))
    as (td & V & R & t0 & GD & T0 & _ & SU & H).
  - apply Forall_cons; [exact Logic.I|apply Forall_cons; [exact Logic.I|apply Forall_nil]].
  - right. right. exact EA.
  - right. split; [reflexivity|]. split; [exact RL|]. right. split; [reflexivity|exact SL].
  - exists 0%nat, AZ, (mkBC Displacement 2 None None (Some 1)), 1. split; [exact IN|exact SE].
  - exists t0. split; [exact T0|]. intros t NT TL. destruct (H t 100%nat NT TL ltac:(lia)) as (r & v & q & A1 & A2 & A3 & _ & A5). exists r, v. split; [exact A1|]. split; [exact A2|]. split; [exact A3|].
    destruct (A5 0%nat ltac:(lia)) as [B _]. rewrite B. destruct (SU 0%nat AZ ltac:(vm_compute; lia)) as [C _]. change (dof 0 AZ) with 0%nat in C. rewrite C by (exists (mkBC Displacement 2 None None (Some 1)), 1; split; [exact IN|right; exact SE]).
    assert (D : dof_vector td 0%nat == 1) by (vm_compute in GD; match type of GD with Ok ?t = _ => assert (W : t = td) by congruence; rewrite <- W; reflexivity end). rewrite D. ring.
Qed.
