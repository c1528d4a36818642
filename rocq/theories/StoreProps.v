(** Property C149 for the program: models of one site whose spring arrays are kept with different precision answer alike. *)
From Coq Require Import Reals Qreals List Bool Arith ZArith QArith Qabs Lia Lqa Setoid.
From Coq Require Lra.
From Verif Require Import Base LinAlg BCModel BCSpec BCProofs PileModel MeshModel StressModel StressSpec StressProps BeamModel SolveModel SolveSpec SolveProofs SpringModel SpringSpec SpringProofs SpringProper SoilProofs WinklerModel WinklerSpec
  WholeModel WholeSpec WholeProofs CreateProps ElasticSpec ElasticProofs FullModel FullSpec AnalysisProofs FullProps ApartSpec ApartProofs ApartCalls StillProofs StillProps GentleProofs GentleCalls EvenProofs GentleProps NearSpec NearProofs StoreSpec StoreProofs.
From Verif Require LiveSpec LiveWitness BalanceProps.
Import ListNotations.
Local Open Scope Q_scope.

Lemma model_energy : forall d o p m ks mc mc' g g' z z' K K' v, 0 <= d -> d < 1 -> usable g -> usable g' -> steady_springs o m g -> steady_springs o m g' ->
  BalanceProps.no_timoshenko_mt (stiffness_model o p m ks mc g) -> BalanceProps.no_timoshenko_mt (stiffness_model o p m ks mc' g') -> (forall e j, Forall2 (close_points d) (g_mt g e j) (g_mt g' e j)) ->
  (forall e j, close_points d (g_py g e j) (g_py g' e j)) -> (forall e j, close_points d (g_tz g e j) (g_tz g' e j)) -> close_points d (g_hb g) (g_hb g') -> close_points d (g_mb g) (g_mb g') -> close_points d (g_qz g) (g_qz g') ->
  sound_model (stiffness_model o p m ks mc g) z -> sound_model (stiffness_model o p m ks mc' g') z' ->
  build (stiffness_model o p m ks mc g) zero Initial = Ok K -> build (stiffness_model o p m ks mc' g') zero Initial = Ok K' ->
  energy (3 * length (elements_of m) + 3) K v <= (1 + d) / (1 - d) * energy (3 * length (elements_of m) + 3) K' v.
Proof.
  intros d o p m ks mc mc' g g' z z' K K' v D0 D1 US US' SD SD' NT NT' C3 C1 C2 C4 C5 C6 SM SM' HB HB'. pose proof (usable_turns o m g US SD) as TU. pose proof (usable_turns o m g' US' SD') as TU'. destruct US as (U1 & U2 & _ & U4 & U5 & U6). destruct US' as (U1' & U2' & _ & U4' & U5' & U6').
  apply (first_energy d D0 D1 _ _ z z' K K' v SM SM'); try exact NT; try exact NT'; try exact HB; try exact HB'; unfold stiffness_model, soil_model, when_on; cbn [w_n w_L w_mech w_mt w_py w_tz w_hb w_mb w_qz]; try reflexivity.
  - destruct (on_mt o) eqn:OM; cbn [close_option]; [|exact Logic.I]. destruct TU as [A|[ON TU]]; [discriminate A|]. destruct TU' as [A|[_ TU']]; [discriminate A|].
    exists (g_py g), (g_py g'). rewrite ON. split; [reflexivity|]. split; [reflexivity|]. intros e j He Hj. split; [apply TU; assumption|]. split; [apply TU'; assumption|apply C3].
  - destruct (on_py o); cbn [close_option]; [|exact Logic.I]. intros e j. split; [apply U1|split; [apply U1'|apply C1]].
  - destruct (on_tz o); cbn [close_option]; [|exact Logic.I]. intros e j. split; [apply U2|split; [apply U2'|apply C2]].
  - destruct (on_hb o); cbn [close_option]; [|exact Logic.I]. split; [apply U4|split; [apply U4'|apply C4]].
  - destruct (on_mb o); cbn [close_option]; [|exact Logic.I]. split; [apply U5|split; [apply U5'|apply C5]].
  - destruct (on_qz o); cbn [close_option]; [|exact Logic.I]. split; [apply U6|split; [apply U6'|apply C6]].
Qed.

Lemma dof_of : forall n j, (j < 3 * n + 3)%nat -> exists i a, (i < S n)%nat /\ j = dof i a.
Proof.
  intros n j Hj. pose proof (Nat.div_mod j 3 ltac:(lia)) as D. pose proof (Nat.mod_upper_bound j 3 ltac:(lia)) as B. exists (j / 3)%nat.
  destruct (j mod 3)%nat as [|[|[|k]]] eqn:E; [exists AZ|exists AY|exists AX|lia]; (split; [lia|cbn [dof]; lia]).
Qed.
Lemma dof_inj : forall i a i' a', dof i a = dof i' a' -> i = i' /\ a = a'.
Proof. intros i a i' a' H. destruct a, a'; cbn [dof] in H; split; first [reflexivity|lia]. Qed.

(** [G i] is what a unit load at [i] does to the first pile. *)
Theorem C149_storage_partial : forall rnd ch sort o sections gr wt ys x c p top b m solve ty circ E nu cs, storage rnd -> fair_chance ch -> (forall rows, ascending_of (sort rows) rows) ->
  sound_site o sections gr wt ys x c p top b m -> gentle_moments o ty ys -> solver_ok solve -> 0 < E -> -(3#4) <= nu -> (ty = Timoshenko -> circ = true) ->
  Forall no_load cs -> (on_tz o = false /\ on_qz o = false) \/ Forall asks_nothing_along cs \/ even_along rnd o ys ->
  let nodes := nodes_of m in let l := run cs [] in let n := (3 * length (elements_of m) + 3)%nat in
  holds_at_rest nodes l \/ soil_holds o gr ys m l -> (exists i a d q, In d l /\ sends nodes Displacement i a d q) ->
  exists G, (forall i, (i < n)%nat -> 0 <= G i) /\
    forall d rnd' solve', 0 <= d -> 7 * d < 1 -> LiveSpec.accurate (Q2R d) rnd -> LiveSpec.accurate (Q2R d) rnd' -> storage rnd' -> (odd_storage rnd -> odd_storage rnd') -> solver_ok solve' ->
    let eps := precision_error d in
    exists t0, 0 < t0 /\ forall t mi mi', ~ t == 0 -> Qabs t <= t0 -> (1 <= mi)%nat -> (1 <= mi')%nat ->
    exists r v q r' v' q',
      soil_analysis rnd ch sort solve ty circ E nu o sections gr wt ys x c (map (scaled t) cs) mi = Ok (Some r) /\ o_d r = Some v /\ o_Q r = Some q /\
      soil_analysis rnd' ch sort solve' ty circ E nu o sections gr wt ys x c (map (scaled t) cs) mi' = Ok (Some r') /\ o_d r' = Some v' /\ o_Q r' = Some q' /\
      dot n q' v' <= (1 + eps) * dot n q v /\ dot n q v <= (1 + eps) * dot n q' v' /\
      (forall i, (i < n)%nat -> (1 - eps) * (1 - eps) * ((v' i - v i) * (v' i - v i)) <= eps * eps * (G i * dot n q v)) /\
      (forall i a, moved_alone nodes l i a -> Qabs (q' (dof i a)) <= (1 + eps) * Qabs (q (dof i a)) /\ Qabs (q (dof i a)) <= (1 + eps) * Qabs (q' (dof i a)) /\ 0 <= q (dof i a) * q' (dof i a)).
Proof.
  intros rnd ch sort o sections gr wt ys x c p top b m solve ty circ E nu cs ST FC SO SS NM SV PE PN HT NL AX nodes l n HOLD MV.
  destruct (small_displacements rnd ch sort o sections gr wt ys x c p top b m solve ty circ E nu cs ST FC SO SS NM SV PE PN HT NL AX HOLD MV)
    as (td & V & R & t1 & ks & mc & st & MD & tr & K & CB & US & [SDN NTM] & KS & GR & SM & BK & STB & LS & GD & T1 & _ & SU & RUN).
  fold nodes in SM, SU, GR, GD. fold l in GR, GD, SU. fold n in STB, LS, RUN.
  assert (LN : length nodes = S (length (elements_of m))).
  { pose proof (si_mesh _ _ _ _ _ _ _ _ _ _ _ SS) as MS. destruct (meshed_nonempty _ _ _ _ _ _ _ _ MS) as [NE _]. exact (nodes_elems_count m NE). }
  pose proof (system_symmetric _ _ zero Initial K SM BK) as SY. pose proof (system_psd _ _ zero Initial K SM BK) as PS. change (size (stiffness_model o p m ks mc (springs_of MD))) with n in SY, PS.
  set (s := supports_of (dof_flags tr) (dof_vector td)) in *. set (unit := fun i j : nat => if Nat.eqb j i then 1 else 0).
  set (G := fun i => match solve_equations solve n K (unit i) (fun _ => 0) s with Some (g, _) => g i | None => 0 end).
  assert (GU : forall i, (i < n)%nat -> exists g, G i = g i /\ (forall j, (j < n)%nat -> s j = true -> g j == 0) /\ (forall j, (j < n)%nat -> s j = false -> mulv n K g j == unit i j)).
  { intros i Hi. destruct (proj2 (solve_equations_succeeds solve n K (unit i) (fun _ => 0) s SV) STB) as [[g q] SE]. exists g. split; [unfold G; rewrite SE; reflexivity|].
    destruct (solve_equations_sound _ _ _ _ _ _ _ _ SV SE) as (A1 & A2 & A3). split; [intros j Hj Z; rewrite (A3 j Hj Z); reflexivity|]. intros j Hj Z. rewrite (A1 j Hj), (A2 j Hj Z). ring. }
  exists G. split.
  { intros i Hi. destruct (GU i Hi) as (g & -> & GZ & GF). destruct (two_states n K K (dof_vector td) s V R V R 0 SY SY PS PS ltac:(lra) ltac:(lra)) as (_ & _ & _ & _ & H); [intros w; pose proof (PS w); lra|intros w; pose proof (PS w); lra|exact LS|exact LS|].
    exact (proj1 (H i g Hi GZ GF)). }
  intros d rnd' solve' D0 D7 AC AC' ST' ODD SV' eps.
  assert (AX' : (on_tz o = false /\ on_qz o = false) \/ Forall asks_nothing_along cs \/ even_along rnd' o ys) by (destruct AX as [A|[A|(A1 & A2 & A3)]]; [left; exact A|right; left; exact A|right; right; split; [exact A1|split; [exact (ODD A2)|exact A3]]]).
  destruct (small_displacements rnd' ch sort o sections gr wt ys x c p top b m solve' ty circ E nu cs ST' FC SO SS NM SV' PE PN HT NL AX' HOLD MV)
    as (td' & V' & R' & t2 & ks' & mc' & st' & MD' & tr' & K' & CB' & US' & [SDN' NTM'] & KS' & GR' & SM' & BK' & _ & LS' & GD' & T2 & _ & SU' & RUN').
  fold nodes in SM', SU', GR', GD'. fold l in GR', GD', SU'. fold n in LS', RUN'.
  assert (td' = td) by congruence. subst td'. assert (tr' = tr) by congruence. subst tr'. assert (ks' = ks) by congruence. subst ks'. fold s in LS'.
  pose proof (system_symmetric _ _ zero Initial K' SM' BK') as SY'. pose proof (system_psd _ _ zero Initial K' SM' BK') as PS'. change (size (stiffness_model o p m ks mc' (springs_of MD'))) with n in SY', PS'.
  destruct (eps_of d D0 D7) as (E0 & E1 & EE & P0 & P1). fold eps in EE, P0, P1.
  pose proof (stored_close d rnd rnd' D0 ltac:(lra) AC AC') as CL.
  pose proof (constructs_close _ rnd rnd' ch sort o sections gr wt ys x c _ _ E0 CL CB CB') as CM. cbn [b_made] in CM. destruct CM as [M1 M2 M3 M4 M5 M6].
  assert (Q1 : forall e j, close_points (pair_error d) (g_py (springs_of MD) e j) (g_py (springs_of MD') e j)) by (intros e j; cbn [g_py springs_of]; apply curve_close; [exact E0|apply M1]).
  assert (Q2 : forall e j, Forall2 (close_points (pair_error d)) (g_mt (springs_of MD) e j) (g_mt (springs_of MD') e j)) by (intros e j; cbn [g_mt springs_of]; apply columns_close; [exact E0|apply M2]).
  assert (Q3 : forall e j, close_points (pair_error d) (g_tz (springs_of MD) e j) (g_tz (springs_of MD') e j)) by (intros e j; cbn [g_tz springs_of]; apply curve_close; [exact E0|apply M3]).
  assert (Q4 : close_points (pair_error d) (g_hb (springs_of MD)) (g_hb (springs_of MD'))) by (cbn [g_hb springs_of]; apply curve_close; [exact E0|exact M4]).
  assert (Q5 : close_points (pair_error d) (g_mb (springs_of MD)) (g_mb (springs_of MD'))) by (cbn [g_mb springs_of]; apply curve_close; [exact E0|exact M5]).
  assert (Q6 : close_points (pair_error d) (g_qz (springs_of MD)) (g_qz (springs_of MD'))) by (cbn [g_qz springs_of]; apply curve_close; [exact E0|exact M6]).
  assert (N1 : forall w, energy n K w <= (1 + eps) * energy n K' w).
  { intros w. rewrite <- EE. exact (model_energy _ o p m ks mc mc' _ _ _ _ K K' w E0 E1 US US' SDN SDN' NTM NTM' Q2 Q1 Q3 Q4 Q5 Q6 SM SM' BK BK'). }
  assert (N2 : forall w, energy n K' w <= (1 + eps) * energy n K w).
  { intros w. rewrite <- EE. refine (model_energy _ o p m ks mc' mc _ _ _ _ K' K w E0 E1 US' US SDN' SDN NTM' NTM _ _ _ _ _ _ SM' SM BK' BK); try (intros e j; assert (FS : forall a b, Forall2 (close_points (pair_error d)) a b -> Forall2 (close_points (pair_error d)) b a) by (intros a0 b0 FF; induction FF; constructor; [apply close_points_sym; assumption|assumption]); exact (FS _ _ (Q2 e j))); try (intros e j); apply close_points_sym; auto. }
  destruct (two_states n K K' (dof_vector td) s V R V' R' eps SY SY' PS PS' P0 P1 N1 N2 LS LS') as (W0 & W0' & W1 & W2 & PT).
  exists (if Qle_bool t1 t2 then t1 else t2). split; [destruct (Qle_bool t1 t2); assumption|]. intros t mi mi' NT TL Hm Hm'.
  assert (TL1 : Qabs t <= t1 /\ Qabs t <= t2).
  { destruct (Qle_bool t1 t2) eqn:B; [apply Qle_bool_iff in B; split; [exact TL|lra]|]. assert (t2 < t1) by (apply Qnot_le_lt; intros X; apply Qle_bool_iff in X; congruence). split; [lra|exact TL]. }
  destruct (RUN t mi NT (proj1 TL1) Hm) as (r & v & q & A1 & _ & A3 & A4 & A5). destruct (RUN' t mi' NT (proj2 TL1) Hm') as (r' & v' & q' & B1 & _ & B3 & B4 & B5).
  exists r, v, q, r', v', q'. do 6 (split; [assumption|]).
  assert (D : dot n q v == t * t * dot n R V) by (unfold dot; rewrite <- sum_scale; apply sum_ext; intros i Hi; destruct (A5 i Hi) as [-> ->]; ring).
  assert (D' : dot n q' v' == t * t * dot n R' V') by (unfold dot; rewrite <- sum_scale; apply sum_ext; intros i Hi; destruct (B5 i Hi) as [-> ->]; ring).
  assert (TT : 0 <= t * t) by nra.
  assert (C1 : dot n q' v' <= (1 + eps) * dot n q v) by (rewrite D, D'; pose proof (Qmult_le_compat_r _ _ _ W1 TT); lra).
  assert (C2 : dot n q v <= (1 + eps) * dot n q' v') by (rewrite D, D'; pose proof (Qmult_le_compat_r _ _ _ W2 TT); lra).
  assert (C0 : 0 <= dot n q v /\ 0 <= dot n q' v') by (rewrite D, D'; split; apply Qmult_le_0_compat; assumption).
  split; [exact C1|]. split; [exact C2|]. split.
  { intros i Hi. destruct (GU i Hi) as (g & -> & GZ & GF). destruct (PT i g Hi GZ GF) as [_ H]. rewrite D. destruct (A5 i Hi) as [-> _]. destruct (B5 i Hi) as [-> _]. pose proof (Qmult_le_compat_r _ _ _ H TT). lra. }
  intros i a [(bm & qm & IM & SEm) AL]. assert (Hi : (i < length nodes)%nat) by (destruct SEm as (_ & MT & _); exact (maps_to_bound _ _ _ MT)).
  assert (Di : (dof i a < n)%nat) by (unfold n; destruct a; cbn [dof]; lia).
  assert (ZR : forall (Vx Rx : vec), linear_state n (fun _ _ => 0) (fun _ => 0) (fun _ => 0) (fun _ => true) Vx Rx -> True) by (intros; exact Logic.I).
  assert (OT : forall (KK : mat) (Vx Rx : vec), linear_state n KK (fun _ => 0) (dof_vector td) s Vx Rx -> forall j, (j < n)%nat -> j <> dof i a -> Rx j * Vx j == 0).
  { intros KK Vx Rx (_ & X2 & X3) j Hj NJ. destruct (s j) eqn:SJ; [|rewrite (X2 j Hj SJ); ring]. rewrite (X3 j Hj SJ). destruct (dof_of (length (elements_of m)) j Hj) as (i' & a' & Hi' & EJ).
    destruct (Qeq_dec (dof_vector td j) 0) as [Z|NZ]; [rewrite Z; ring|]. exfalso. apply NJ. rewrite EJ in NZ |- *. rewrite <- LN in Hi'. apply (proj2 (rest_flags nodes l td tr i' a' Hi' GD GR)) in NZ. destruct (AL i' a' NZ) as [-> ->]. reflexivity. }
  clear ZR. set (k := dof i a) in *.
  assert (NU : ~ dof_vector td k == 0) by (apply (proj2 (rest_flags nodes l td tr i a Hi GD GR)); exists bm, qm; split; assumption).
  assert (SK : s k = true) by (apply (support_flags nodes l td tr i a Hi GD GR); exists bm, qm; split; [exact IM|right; exact SEm]).
  assert (ON : forall (KK : mat) (Vx Rx : vec), linear_state n KK (fun _ => 0) (dof_vector td) s Vx Rx -> dot n Rx Vx == dof_vector td k * Rx k).
  { intros KK Vx Rx LX. pose proof (OT KK Vx Rx LX) as Z. destruct LX as (_ & _ & X3). unfold dot. rewrite <- (sum_delta n k (fun j => dof_vector td k * Rx j) Di). apply sum_ext. intros j Hj.
    destruct (Nat.eqb_spec j k) as [->|NJ]; [rewrite (X3 k Hj SK); ring|rewrite (Z j Hj NJ); ring]. }
  rewrite (ON K V R LS) in W0, W1, W2. rewrite (ON K' V' R' LS') in W0', W1, W2.
  destruct (A5 k Di) as [_ QA]. destruct (B5 k Di) as [_ QB]. rewrite QA, QB. set (u := dof_vector td k) in *. set (ra := R k) in *. set (rb := R' k) in *.
  assert (PU : 0 < Qabs u) by (apply Qabs_pos_iff; exact NU). assert (AT : 0 <= Qabs t) by apply Qabs_nonneg.
  assert (S1 : forall y, 0 <= u * y -> Qabs u * Qabs y == u * y) by (intros y Y; rewrite <- Qabs_Qmult; apply Qabs_pos, Y).
  pose proof (S1 _ W0) as X1. pose proof (S1 _ W0') as X2.
  assert (Y1 : Qabs u * ((1 + eps) * Qabs ra) == (1 + eps) * (u * ra)) by (rewrite <- X1; ring). assert (Y2 : Qabs u * ((1 + eps) * Qabs rb) == (1 + eps) * (u * rb)) by (rewrite <- X2; ring).
  assert (R1 : Qabs rb <= (1 + eps) * Qabs ra) by (apply (Qmult_le_l _ _ _ PU); rewrite Y1, X2; exact W1). assert (R2 : Qabs ra <= (1 + eps) * Qabs rb) by (apply (Qmult_le_l _ _ _ PU); rewrite Y2, X1; exact W2).
  rewrite !Qabs_Qmult. split; [pose proof (Qmult_le_compat_r _ _ _ R1 AT); lra|]. split; [pose proof (Qmult_le_compat_r _ _ _ R2 AT); lra|].
  assert (RR : 0 <= ra * rb).
  { assert (X : 0 <= u * ra * (u * rb)) by (apply Qmult_le_0_compat; assumption). assert (UU : 0 < u * u) by (destruct (Qlt_le_dec u 0) as [L|L]; [nra|destruct (Qle_lt_or_eq _ _ L) as [Y|Y]; [nra|exfalso; apply NU; rewrite <- Y; reflexivity]]).
    apply (Qmult_le_l _ _ _ UU). lra. }
  assert (TR : 0 <= t * t * (ra * rb)) by (apply Qmult_le_0_compat; assumption). lra.
Qed.
Print Assumptions C149_storage_partial.

(** Single precision, and the same a little larger *)
Definition grown (x : R) : Q := Qred ((16777217 # 16777216) * LiveWitness.rnd32 x).
Lemma grown_is : forall x, grown x == (16777217 # 16777216) * LiveWitness.rnd32 x.
Proof. intros x. apply Qred_correct. Qed.
Lemma grown_storage : storage grown.
Proof.
  destruct LiveWitness.storage32 as (A & B & C & D). split; [|split; [|split]].
  - intros x y H. rewrite !grown_is. apply Qmult_le_l; [reflexivity|apply A, H].
  - unfold grown. rewrite B. reflexivity.
  - intros x H. rewrite grown_is. specialize (C x H). lra.
  - intros x H. rewrite grown_is. specialize (D x H). lra.
Qed.
Lemma grown_odd : odd_storage grown.
Proof. intros x. rewrite !grown_is. rewrite (odd32 x). ring. Qed.
Definition two22 : Q := 1 # 4194304.
Lemma near32 : LiveSpec.accurate (Q2R two22) LiveWitness.rnd32 /\ LiveSpec.accurate (Q2R two22) grown.
Proof.
  pose proof LiveWitness.accurate32 as A. assert (P23 : powerRZ 2 (-23) = (1 / 8388608)%R) by (unfold powerRZ; change (Pos.to_nat 23) with 23%nat; replace (2 ^ 23)%R with 8388608%R by (simpl; Lra.lra); Lra.lra). assert (P22 : Q2R two22 = (1 / 4194304)%R) by (unfold Q2R, two22; cbn; Lra.lra).
  split; intros x; specialize (A x); rewrite P23 in A; rewrite P22; pose proof (Rabs_pos x) as X.
  - Lra.lra.
  - rewrite (Qeq_eqR _ _ (grown_is x)), Q2R_mult. replace (Q2R (16777217 # 16777216)) with (1 + 1 / 16777216)%R by (unfold Q2R; cbn; Lra.lra). set (r := Q2R (LiveWitness.rnd32 x)) in *.
    replace ((1 + 1 / 16777216) * r - x)%R with ((1 + 1 / 16777216) * (r - x) + 1 / 16777216 * x)%R by Lra.lra. eapply Rle_trans; [apply Rabs_triang|].
    rewrite !Rabs_mult, (Rabs_pos_eq (1 + 1 / 16777216)) by Lra.lra. rewrite (Rabs_pos_eq (1 / 16777216)) by Lra.lra. Lra.lra.
Qed.

(** The pile of C144, its tip moved by one metre times [t], or its head pushed back: the reaction there is the same up to a millionth. *)
Example C149_storage_case : storage LiveWitness.rnd32 /\ storage grown /\ odd_storage grown /\ LiveSpec.accurate (Q2R two22) LiveWitness.rnd32 /\ LiveSpec.accurate (Q2R two22) grown /\ ~ LiveWitness.rnd32 1 == grown 1 /\
  7 * two22 < 1 /\ precision_error two22 < 1 # 1000000 /\ moved_alone (nodes_of mesh1) (run tip_moved []) 6 AY /\
  sound_site no_moment ex_l 0 (-1) FullProps.soil0 [-1] 2 ex_p 2 (-8) mesh1 /\ Forall no_load tip_moved /\ Forall asks_nothing_along tip_moved /\
  holds_at_rest (nodes_of mesh1) (run tip_moved []).
Proof.
  split; [exact LiveWitness.storage32|]. split; [exact grown_storage|]. split; [exact grown_odd|]. split; [apply near32|]. split; [apply near32|].
  split. { intros H. rewrite grown_is in H. destruct LiveWitness.storage32 as (_ & _ & C & _). specialize (C 1%R ltac:(Lra.lra)). lra. }
  split; [reflexivity|]. split; [reflexivity|]. split.
  { split.
    - exists (mkBC Displacement (-8) None (Some 1) None), 1. split; [right; left; reflexivity|]. apply send_here; [reflexivity|vm_compute; reflexivity|reflexivity|discriminate].
    - intros i' a' (b & q & I & SE). destruct I as [<-|[<-|[]]]; [destruct SE as (X & _); discriminate X|]. destruct SE as (_ & MT & GA & _). destruct a'; try discriminate GA. split; [|reflexivity].
      cbn [bc_elev] in MT. apply first_close_iff in MT. vm_compute in MT. congruence. }
  destruct C144_example as [SS H]. split; [exact SS|]. destruct (H tip_moved (or_introl eq_refl)) as (A & B & _). split; [exact A|]. split; [exact B|]. exact (proj1 tip_moved_ok).
Qed.
(** With every spring of the site switched on, moment springs too: the same two ways of storing them *)
Example C149_moments_case : on_mt all_on = true /\ sound_site all_on ex_l 0 (-1) FullProps.soil0 [-1] 2 ex_p 2 (-8) mesh1 /\ gentle_moments all_on EulerBernoulli FullProps.soil0 /\
  forall solve, solver_ok solve -> exists t0, 0 < t0 /\ forall t, ~ t == 0 -> Qabs t <= t0 -> exists r q r' q',
    soil_analysis LiveWitness.rnd32 ch0 sort0 solve EulerBernoulli true 210 (3#10) all_on ex_l 0 (-1) FullProps.soil0 [-1] 2 (map (scaled t) tip_moved) 100 = Ok (Some r) /\ o_Q r = Some q /\
    soil_analysis grown ch0 sort0 solve EulerBernoulli true 210 (3#10) all_on ex_l 0 (-1) FullProps.soil0 [-1] 2 (map (scaled t) tip_moved) 100 = Ok (Some r') /\ o_Q r' = Some q' /\
    Qabs (q' (dof 6 AY)) <= (1000001 # 1000000) * Qabs (q (dof 6 AY)).
Proof.
  destruct C144_moments_example as (ON & GM & _). destruct C107_example as (_ & FC & SO & _). pose proof (site_exists all_on) as SS. split; [exact ON|]. split; [exact SS|]. split; [exact GM|]. intros solve SV.
  destruct C149_storage_case as (_ & _ & _ & AC & AC' & _ & D7 & PE & MA & _ & NL & AL & HO).
  destruct (C149_storage_partial LiveWitness.rnd32 ch0 sort0 all_on ex_l 0 (-1) FullProps.soil0 [-1] 2 ex_p 2 (-8) mesh1 solve EulerBernoulli true 210 (3#10) tip_moved LiveWitness.storage32 FC SO SS GM SV ltac:(reflexivity) ltac:(discriminate) ltac:(reflexivity) NL (or_intror (or_introl AL)) (or_introl HO) (proj2 tip_moved_ok))
    as (G & _ & H).
  destruct (H two22 grown solve ltac:(discriminate) D7 AC AC' grown_storage (fun _ => grown_odd) SV) as (t0 & T0 & H'). exists t0. split; [exact T0|]. intros t NT TL.
  destruct (H' t 100%nat 100%nat NT TL ltac:(lia) ltac:(lia)) as (r & v & q & r' & v' & q' & A1 & _ & A3 & B1 & _ & B3 & _ & _ & _ & R).
  exists r, q, r', q'. do 4 (split; [assumption|]). destruct (R 6%nat AY MA) as (X & _). eapply Qle_trans; [exact X|]. apply Qmult_le_compat_r; [|apply Qabs_nonneg]. revert PE. generalize (precision_error two22). intros e W. lra.
Qed.
