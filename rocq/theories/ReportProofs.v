(** Shaft and tip resistance reported for a pile in soil. *)
From Coq Require Import List Bool Arith ZArith QArith Qabs Qminmax Reals Qreals Lia Lqa Lra.
From Verif Require Import CreateProofs Base PileModel PileSpec PileProofs MeshModel MeshSpec StressModel StressSpec StressProofs StressProps ShaftProofs SpringModel
  CreateModel WholeModel WholeSpec WholeProofs ResultModel GetterModel GetterProofs SessionModel SessionSpec SessionProofs SolveModel
  AxialModel AxialSpec AxialProofs AxialProps CapacityModel CapacitySpec CapacityProofs FullModel FullSpec FullProofs SiteProofs AnalysisProofs LiveModel LiveSpec LiveProofs.
Import ListNotations.
Local Open Scope R_scope.

(** ** Extremes of rationals *)
Lemma qmin_spec : forall l, l <> [] -> In (qmin l) l /\ forall v, In v l -> (qmin l <= v)%Q.
Proof.
  induction l as [|a t IH]; intros N; [congruence|]. destruct t as [|b t]; [cbn; split; [auto|intros v [<-|[]]; apply Qle_refl]|].
  destruct (IH ltac:(discriminate)) as [I B]. change (qmin (a :: b :: t)) with (Qmin a (qmin (b :: t))). split.
  - destruct (Q.min_dec a (qmin (b :: t))) as [X|X]; revert X; unfold Qmin, GenericMinMax.gmin; destruct (a ?= qmin (b :: t))%Q; intros; try (left; reflexivity); right; exact I.
  - intros v [<-|V]; [apply Q.le_min_l|]. eapply Qle_trans; [apply Q.le_min_r|apply B; auto].
Qed.
Lemma qmax_spec : forall l, l <> [] -> In (qmax l) l /\ forall v, In v l -> (v <= qmax l)%Q.
Proof.
  induction l as [|a t IH]; intros N; [congruence|]. destruct t as [|b t]; [cbn; split; [auto|intros v [<-|[]]; apply Qle_refl]|].
  destruct (IH ltac:(discriminate)) as [I B]. change (qmax (a :: b :: t)) with (Qmax a (qmax (b :: t))). split.
  - unfold Qmax, GenericMinMax.gmax. destruct (a ?= qmax (b :: t))%Q; try (left; reflexivity); right; exact I.
  - intros v [<-|V]; [apply Q.le_max_l|]. eapply Qle_trans; [apply B; auto|apply Q.le_max_r].
Qed.

(** Resistances of an axial spring are the stored forces with the other sign *)
Lemma stored_extremes : forall rnd c t hi lo, storage rnd -> length c = 15%nat -> length t = 15%nat -> (forall i, (i < 15)%nat -> (snd (xy c i) == - rnd (nth i t 0%R))%Q) ->
  is_max hi t -> (qmin (map snd c) == - rnd hi)%Q /\ (is_min lo t -> (qmax (map snd c) == - rnd lo)%Q).
Proof.
  intros rnd c t hi lo (MO & _) LC LT P [H1 H2].
  assert (NE : map snd c <> []) by (destruct c; [discriminate LC|discriminate]).
  assert (VAL : forall v, In v (map snd c) -> exists i, (i < 15)%nat /\ (v == - rnd (nth i t 0%R))%Q).
  { intros v I. apply in_map_iff in I. destruct I as (q & <- & I). destruct (In_nth _ _ (0, 0)%Q I) as (i & Hi & <-). exists i. rewrite LC in Hi. auto. }
  assert (HAS : forall i, (i < 15)%nat -> In (snd (xy c i)) (map snd c)) by (intros i Hi; apply in_map, nth_In; lia).
  split; [|intros [L1 L2]].
  - destruct (qmin_spec _ NE) as [A B]. apply Qle_antisym.
    + destruct (In_nth _ _ 0 H1) as (i & Hi & <-). rewrite LT in Hi. rewrite <- P by auto. apply B, HAS; auto.
    + destruct (VAL _ A) as (i & Hi & ->). assert (rnd (nth i t 0%R) <= rnd hi)%Q by (apply MO, H2, nth_In; lia). Lqa.lra.
  - destruct (qmax_spec _ NE) as [A B]. apply Qle_antisym.
    + destruct (VAL _ A) as (i & Hi & ->). assert (rnd lo <= rnd (nth i t 0%R))%Q by (apply MO, L2, nth_In; lia). Lqa.lra.
    + destruct (In_nth _ _ 0 L1) as (i & Hi & <-). rewrite LT in Hi. rewrite <- P by auto. apply B, HAS; auto.
Qed.

(** ** Sums *)
Lemma Q2R_abs : forall q, Q2R (Qabs q) = Rabs (Q2R q).
Proof.
  intros q. destruct (Qlt_le_dec q 0) as [L|L].
  - rewrite (Qeq_eqR _ _ (Qabs_neg q ltac:(apply Qlt_le_weak; auto))), Q2R_opp. rewrite Rabs_left1; [reflexivity|]. rewrite <- Q2R_0. apply Qle_Rle. apply Qlt_le_weak; auto.
  - rewrite (Qeq_eqR _ _ (Qabs_pos q L)). rewrite Rabs_pos_eq; [reflexivity|]. apply Q2R_nn; auto.
Qed.

Lemma shaft_wsum : forall (g : nat -> nat -> Q) (f : nat -> nat -> R) n infl i, length infl = S n -> (forall v, In v infl -> (0 <= v)%Q) ->
  (forall e, (i <= e < i + n)%nat -> ((g e 0%nat <= 0)%Q /\ (g e 1%nat <= 0)%Q \/ (0 <= g e 0%nat)%Q /\ (0 <= g e 1%nat)%Q) /\ f e 0%nat = Rabs (Q2R (g e 0%nat)) /\ f e 1%nat = Rabs (Q2R (g e 1%nat))) ->
  Q2R (shaft_sum (map (fun e => (g e 0%nat, g e 1%nat)) (seq i n)) infl) = wsum f i infl.
Proof.
  intros g f. induction n as [|n IH]; intros infl i L P H.
  - destruct infl as [|it [|ib r]]; cbn [length] in L; try lia. cbn. apply Q2R_0.
  - destruct infl as [|it [|ib r]]; cbn [length] in L; try lia. cbn [seq map]. rewrite (Qeq_eqR _ _ (shaft_cons _ _ _ it ib r)), Q2R_plus, Q2R_abs, Q2R_plus, !Q2R_mult.
    rewrite IH; [|cbn [length]; lia|intros; apply P; right; auto|intros e He; apply H; lia].
    change (wsum f i (it :: ib :: r)) with (Q2R it * f i 0%nat + Q2R ib * f i 1%nat + wsum f (S i) (ib :: r)). f_equal.
    destruct (H i ltac:(lia)) as (SG & -> & ->). pose proof (Q2R_nn it (P it (or_introl eq_refl))) as P0. pose proof (Q2R_nn ib (P ib (or_intror (or_introl eq_refl)))) as P1.
    destruct SG as [[A B]|[A B]]; apply Qle_Rle in A, B; rewrite Q2R_0 in A, B.
    + rewrite (Rabs_left1 (Q2R (g i 0%nat))), (Rabs_left1 (Q2R (g i 1%nat))) by auto. rewrite Rabs_left1; [ring|].
      assert (0 <= - Q2R (g i 0%nat) * Q2R it) by (apply Rmult_le_pos; lra). assert (0 <= - Q2R (g i 1%nat) * Q2R ib) by (apply Rmult_le_pos; lra). lra.
    + rewrite (Rabs_pos_eq (Q2R (g i 0%nat))), (Rabs_pos_eq (Q2R (g i 1%nat))) by auto. rewrite Rabs_pos_eq; [ring|].
      assert (0 <= Q2R (g i 0%nat) * Q2R it) by (apply Rmult_le_pos; lra). assert (0 <= Q2R (g i 1%nat) * Q2R ib) by (apply Rmult_le_pos; lra). lra.
Qed.

Lemma wsum_close : forall eps (f cap : nat -> nat -> R) infl i, (forall v, In v infl -> (0 <= v)%Q) -> (forall e j, (i <= e < i + (length infl - 1))%nat -> (j < 2)%nat -> close eps (f e j) (cap e j)) ->
  close eps (wsum f i infl) (wsum cap i infl).
Proof.
  intros eps f cap infl. induction infl as [|it r IH]; intros i P H; [unfold close; cbn; rewrite Rminus_0_r, Rabs_R0; lra|].
  destruct r as [|ib r]; [unfold close; cbn; rewrite Rminus_0_r, Rabs_R0; lra|]. cbn [length Nat.sub] in *.
  specialize (IH (S i) ltac:(intros; apply P; right; auto) ltac:(intros e j He Hj; apply H; lia)).
  pose proof (H i 0%nat ltac:(lia) ltac:(lia)) as A. pose proof (H i 1%nat ltac:(lia) ltac:(lia)) as B. unfold close in *.
  change (wsum f i (it :: ib :: r)) with (Q2R it * f i 0%nat + Q2R ib * f i 1%nat + wsum f (S i) (ib :: r)).
  change (wsum cap i (it :: ib :: r)) with (Q2R it * cap i 0%nat + Q2R ib * cap i 1%nat + wsum cap (S i) (ib :: r)).
  pose proof (Q2R_nn it (P it (or_introl eq_refl))) as P0. pose proof (Q2R_nn ib (P ib (or_intror (or_introl eq_refl)))) as P1.
  set (w := wsum f (S i) (ib :: r)) in *. set (w' := wsum cap (S i) (ib :: r)) in *.
  replace (Q2R it * f i 0%nat + Q2R ib * f i 1%nat + w - (Q2R it * cap i 0%nat + Q2R ib * cap i 1%nat + w')) with (Q2R it * (f i 0%nat - cap i 0%nat) + Q2R ib * (f i 1%nat - cap i 1%nat) + (w - w')) by ring.
  eapply Rle_trans; [apply Rabs_triang|]. eapply Rle_trans; [apply Rplus_le_compat_r, Rabs_triang|]. rewrite !Rabs_mult, (Rabs_pos_eq (Q2R it)), (Rabs_pos_eq (Q2R ib)) by auto.
  apply Rmult_le_compat_l with (r := Q2R it) in A; auto. apply Rmult_le_compat_l with (r := Q2R ib) in B; auto. lra.
Qed.

Lemma wsum_ends : forall z cap infl, (2 <= length z)%nat -> (forall e, In e (pairs z) -> (snd e < fst e)%Q) -> StressModel.influence z = Some infl ->
  wsum cap 0 infl = trapezoids cap (pairs z) + steps cap (pairs z) /\ length infl = length z /\ forall v, In v infl -> (0 <= v)%Q.
Proof.
  intros z cap infl L P E. destruct z as [|a [|b r]]; cbn [length] in L; try lia. rewrite influence_eq in E. assert (EI : infl = (Qabs (b - a) / 2)%Q :: infl_from (a :: b :: r)) by congruence. subst infl. split; [|split].
  - rewrite weighted_sum by auto. rewrite tsum_trapezoids, esum_steps. rewrite (Qeq_eqR _ _ (half_abs a b (P (a, b) (or_introl eq_refl)))), Q2R_half. lra.
  - cbn [length]. rewrite infl_length. reflexivity.
  - intros v [<-|I]; [apply half_nn|eapply infl_nn; eauto].
Qed.

(** ** The tip spring *)
Lemma tip_extremes : forall d ta fp m a sig D, fair_tip d -> CapacitySpec.admissible m -> a_sig a = Some sig -> a_D a = Some D -> (0 <= sig)%Q -> (0 < D)%Q -> (0 <= ta)%Q -> (0 <= fp)%Q ->
  (0 < a_height a)%Q -> (0 <= a_depth a)%Q -> (a_depth a <= a_height a)%Q ->
  exists w q, qz_curve d ta fp m a = Ok (Some (w, q)) /\
    is_max (unit_bearing m (Q2R sig) (Q2R (a_depth a / a_height a)) * bearing_factor m * Q2R (if plugged true (soil_plug m) then fp else ta)) q /\
    0 <= unit_bearing m (Q2R sig) (Q2R (a_depth a / a_height a)) * bearing_factor m * Q2R (if plugged true (soil_plug m) then fp else ta).
Proof.
  intros d ta fp m a sig D FD A ES ED S0 D0 TA FP H0 P0 P1. unfold qz_curve. rewrite ES, ED.
  destruct (FD m a) as [FU FA]. destruct (d m a) as [u idx]. cbn [fst snd] in FU, FA.
  assert (HN : Q2R (a_height a) <> 0) by (apply Q2R_pos in H0; lra).
  assert (FR : Q2R (a_depth a / a_height a) = Q2R (a_depth a) / Q2R (a_height a)) by (apply Q2R_div; Lqa.lra).
  assert (F01 : 0 <= Q2R (a_depth a / a_height a) <= 1).
  { split.
    - apply Q2R_nn. apply Qle_shift_div_l; auto. Lqa.lra.
    - replace 1 with (Q2R 1) by (unfold Q2R; cbn; lra). apply Qle_Rle. apply Qle_shift_div_r; auto. Lqa.lra. }
  assert (BE : forall t b0, t + (b0 - t) * Q2R (a_depth a) / Q2R (a_height a) = CapacitySpec.between t b0 (Q2R (a_depth a / a_height a))) by (intros; rewrite FR; unfold CapacitySpec.between, Rdiv; ring).
  apply Q2R_nn in S0. apply Q2R_pos in D0. pose proof (Q2R_nn _ TA) as TR. pose proof (Q2R_nn _ FP) as FPR.
  assert (PE : forall pl, Q2R (if plugged true pl then fp else ta) = if in_compression pl then Q2R fp else Q2R ta) by (intros []; reflexivity).
  rewrite PE. assert (AR : 0 <= (if in_compression (soil_plug m) then Q2R fp else Q2R ta)) by (destruct (in_compression (soil_plug m)); auto).
  destruct m as [cl|sa]; cbn [CapacitySpec.admissible soil_plug unit_bearing bearing_factor] in *.
  - destruct A as (_ & _ & _ & St & Sb & QM & WM). pose proof (between_pos _ _ _ F01 St Sb) as SP.
    destruct (C51_tip_area cl u idx (Q2R ta) (Q2R fp) (Q2R (a_height a)) (Q2R (a_depth a)) (Q2R D) 15 (CapacitySpec.between (ca_Su_top cl) (ca_Su_bottom cl) (Q2R (a_depth a / a_height a)))) as (w & q & E & _ & _ & X1); auto; try lra.
    rewrite E. exists w, q. split; [reflexivity|]. split; [exact X1|]. repeat apply Rmult_le_pos; auto; lra.
  - destruct A as (_ & _ & _ & Dt & Db & QM & WM).
    destruct (C51_tip_area_sand sa u idx (Q2R ta) (Q2R fp) (Q2R sig) (Q2R (a_height a)) (Q2R (a_depth a)) (Q2R D) 15 (CapacitySpec.between (sa_delta_top sa) (sa_delta_bottom sa) (Q2R (a_depth a / a_height a)))) as (w & q & E & _ & _ & X1); auto; try lra.
    rewrite E. exists w, q. split; [reflexivity|]. split; [exact X1|]. repeat apply Rmult_le_pos; auto. apply C50_end_bearing; auto.
Qed.

Section Report.
Variables (rnd : R -> Q) (ch : chance) (o : options) (sections : list section) (gr wt : Q) (ys : list soil_layer) (x : list Q) (c : Q) (p : list section) (t b : Q) (m : list Q) (g : FullModel.springs).
Hypothesis ST : storage rnd.
Hypothesis FC : fair_chance ch.
Hypothesis SS : sound_site o sections gr wt ys x c p t b m.

Lemma no_spring_extremes : forall c0 : SpringModel.curve, no_spring c0 -> (qmin (map snd c0) == 0)%Q /\ (qmax (map snd c0) == 0)%Q.
Proof using.
  intros c0 [L H]. assert (NE : map snd c0 <> []) by (destruct c0; [discriminate L|discriminate]).
  assert (Z : forall v, In v (map snd c0) -> v = 0%Q) by (intros v I; apply in_map_iff in I; destruct I as (q & <- & I); rewrite (H q I); reflexivity).
  rewrite (Z _ (proj1 (qmin_spec _ NE))), (Z _ (proj1 (qmax_spec _ NE))). split; reflexivity.
Qed.

Lemma weights_nn : forall z, (0 <= overburden (map y_layer ys) wt z)%Q.
Proof using SS.
  intros z. apply (C20_overburden_grows_with_depth _ wt z z); [|apply Qle_refl]. intros l I. apply in_map_iff in I. destruct I as (y & <- & I). apply (si_weight _ _ _ _ _ _ _ _ _ _ _ SS y I).
Qed.

Lemma friction_at : forall i j, (i < length (elements_of m))%nat -> (j < 2)%nat -> own_springs rnd ch o sections gr wt b ys m g i j ->
  exists vc vt, end_friction o sections gr wt ys m true i j vc /\ end_friction o sections gr wt ys m false i j vt /\ 0 <= vc /\ 0 <= vt /\
    (qmin (map snd (FullModel.g_tz g i j)) == - rnd vc)%Q /\ (qmax (map snd (FullModel.g_tz g i j)) == - rnd (- vt)%R)%Q.
Proof using ST FC SS.
  intros i j Hi Hj OW. pose proof ST as (_ & R0 & _). set (e := nth i (elements_of m) (0, 0)%Q) in *. pose proof (si_mesh _ _ _ _ _ _ _ _ _ _ _ SS) as MS.
  assert (NE : nth_error (elements_of m) i = Some e) by (apply nth_error_nth'; auto). destruct (meshed_sections _ _ _ _ _ _ _ _ MS i e NE) as [LE _].
  unfold own_springs in OW. fold e in OW. cbv zeta in OW. unfold end_friction. fold e. cbv zeta. set (z := if Nat.eqb j 0 then fst e else snd e) in *.
  assert (ZZ : (snd e <= z)%Q /\ (z <= fst e)%Q) by (unfold z; destruct (Nat.eqb j 0); split; Lqa.lra). destruct ZZ as [Z1 Z2].
  assert (NO : no_spring (FullModel.g_tz g i j) -> 0 <= 0 /\ 0 <= 0 /\ (qmin (map snd (FullModel.g_tz g i j)) == - rnd 0%R)%Q /\ (qmax (map snd (FullModel.g_tz g i j)) == - rnd (- 0)%R)%Q).
  { intros H. destruct (no_spring_extremes _ H) as [E1 E2]. rewrite Ropp_0, R0. split; [lra|]. split; [lra|]. split; [rewrite E1|rewrite E2]; reflexivity. }
  destruct OW as [(AB & _ & _ & TZ)|(BE & y & s & OWN & NB & _ & _ & TZ)].
  - exists 0, 0. split; [left; auto|]. split; [left; auto|]. apply NO; auto.
  - destruct (proj2 (OWN y) eq_refl) as (IY & LB & LT). assert (IS : In s sections) by apply NB. unfold given in TZ. rewrite andb_true_r in TZ.
    destruct (y_ax y) as [md|] eqn:EM; [destruct (on_tz o) eqn:OT|].
    + destruct TZ as (a & ((sig & S1 & S2) & _ & DD & HH & ED & EO & EI) & zz & tt' & E & L15 & PT).
      destruct (si_outer _ _ _ _ _ _ _ _ _ _ _ SS s IS) as [PO _]. destruct (md_stiff _ _ _ _ _ _ _ _ MS s IS) as (_ & _ & _ & PW).
      pose proof (so_ax _ _ _ _ _ _ (si_soil _ _ _ _ _ _ _ _ _ _ _ SS) y md IY EM) as AD.
      assert (H0 : (0 < a_height a)%Q) by (rewrite HH; Lqa.lra). assert (D0 : (0 <= a_depth a)%Q) by (rewrite DD; Lqa.lra). assert (D1 : (a_depth a <= a_height a)%Q) by (rewrite HH, DD; Lqa.lra).
      assert (SP : (0 <= sig)%Q) by (rewrite S2; apply weights_nn).
      destruct (curve_extremes (c_tz ch) md a sig (s_width s) (s_outer s) (proj1 (proj2 (proj2 FC))) AD S1 ED EO EI SP PW PO H0 D0 D1) as (z1 & t1 & E1 & X1 & X2).
      destruct (tz_start (c_tz ch) md a sig (s_width s) (s_outer s) (s_outer s) (proj1 (proj2 (proj2 FC))) AD S1 ED EO EI PW PO PO H0) as (z2 & t2 & E2 & (_ & LT2 & _) & _).
      assert (t1 = tt') by congruence. assert (t2 = tt') by congruence. subst t1 t2.
      assert (FR : Q2R (a_depth a / a_height a) = Q2R ((l_top (y_layer y) - z) / (l_top (y_layer y) - l_bottom (y_layer y)))) by (apply Qeq_eqR; rewrite DD, HH; reflexivity).
      rewrite FR, (Qeq_eqR _ _ S2) in X1, X2.
      pose proof (fun lo => stored_extremes rnd (FullModel.g_tz g i j) tt' _ lo ST L15 LT2 (fun k K => proj2 (PT k K)) X1) as QE. pose proof (proj1 (QE 0)) as Q1. pose proof (proj2 (QE _) X2) as Q2. clear QE.
      assert (F01 : 0 <= Q2R ((l_top (y_layer y) - z) / (l_top (y_layer y) - l_bottom (y_layer y))) <= 1).
      { assert (HP : (0 < l_top (y_layer y) - l_bottom (y_layer y))%Q) by Lqa.lra. split.
        - apply Q2R_nn. apply Qle_shift_div_l; auto. Lqa.lra.
        - replace 1 with (Q2R 1) by (unfold Q2R; cbn; lra). apply Qle_Rle. apply Qle_shift_div_r; auto. Lqa.lra. }
      assert (CP : 0 <= Q2R (s_outer s)) by (apply Q2R_pos in PO; lra).
      eexists _, _. split; [right; split; [exact BE|]; exists y, s; split; [exact OWN|]; split; [exact NB|]; rewrite ?OT, EM; reflexivity|].
      split; [right; split; [exact BE|]; exists y, s; split; [exact OWN|]; split; [exact NB|]; rewrite ?OT, EM; reflexivity|].
      split; [|split; [|split; [exact Q1|exact Q2]]]; apply line_nonneg; auto; apply Q2R_nn, weights_nn.
    + exists 0, 0. split; [right; split; [exact BE|]; exists y, s; rewrite ?OT; auto|]. split; [right; split; [exact BE|]; exists y, s; rewrite ?OT; auto|]. apply NO; auto.
    + exists 0, 0. split; [right; split; [exact BE|]; exists y, s; rewrite EM; destruct (on_tz o); auto|]. split; [right; split; [exact BE|]; exists y, s; rewrite EM; destruct (on_tz o); auto|]. apply NO; auto.
Qed.

Lemma last_at_tip : (snd (last (elements_of m) (0, 0)) == b)%Q /\ (snd (last (elements_of m) (0, 0)) < fst (last (elements_of m) (0, 0)))%Q.
Proof using SS.
  pose proof SS as SS'. destruct SS' as [[S1 S2 S3 S4 S5 S6 S7 S8 S9] FI (d & PD & ES & SB) TI WE WA OU SL].
  set (f := fun l : layer => (Build_slayer l None None : @slayer stored_value)). assert (PM : forall l, map s_layer (map f l) = l) by (intros l; rewrite map_map; apply map_id).
  assert (ND : d <> []) by (intros ->; cbn in SB; Lqa.lra).
  destruct (mesh_layers sections p b (map f (map y_layer ys)) (map f d) gr x c m) as (_ & _ & NE & LT & EL); rewrite ?PM; auto.
  - intros s I. apply (S1 s I).
  - apply Permutation.Permutation_map. exact PD.
  - intros N. apply map_eq_nil in N. auto.
  - intros y I. apply (S9 y I).
  - split; [exact LT|]. apply EL. destruct (exists_last NE) as (l0 & e0 & ->). rewrite last_last. apply in_or_app. right. left. reflexivity.
Qed.

Lemma last_section_in : forall s, last_section p = Ok s -> In s sections.
Proof using SS.
  intros s E. pose proof (si_mesh _ _ _ _ _ _ _ _ _ _ _ SS) as MS. pose proof (md_pile _ _ _ _ _ _ _ _ MS) as MP. apply make_pile_ok in MP. destruct MP as (_ & EP & _).
  apply (Permutation.Permutation_in s (Permutation.Permutation_sym (sort_perm (fun x0 => (- s_top x0)%Q) sections))). rewrite <- EP.
  unfold last_section in E. destruct (rev p) as [|s0 r] eqn:R; [discriminate|]. assert (s0 = s) by congruence. subst s0. apply in_rev. rewrite R. left. reflexivity.
Qed.

Lemma bearing_at : forall s0, last_section p = Ok s0 -> own_base rnd ch o sections gr wt b (s_area s0) (s_footprint s0) ys m g ->
  exists v, tip_bearing_of o p wt b ys m v /\ 0 <= v /\ (qmin (map snd (FullModel.g_qz g)) == - rnd v)%Q.
Proof using ST FC SS.
  intros s0 LS (y & s & OWN & NB & _ & _ & QZ). pose proof ST as (_ & R0 & _). pose proof (si_mesh _ _ _ _ _ _ _ _ _ _ _ SS) as MS.
  unfold tip_bearing_of. cbv zeta. set (e := last (elements_of m) (0, 0)%Q) in *. unfold given in QZ. rewrite andb_true_r in QZ.
  assert (NO : no_spring (FullModel.g_qz g) -> 0 <= 0 /\ (qmin (map snd (FullModel.g_qz g)) == - rnd 0%R)%Q).
  { intros H. destruct (no_spring_extremes _ H) as [E1 _]. rewrite R0. split; [lra|]. rewrite E1. reflexivity. }
  destruct (y_ax y) as [md|] eqn:EM; [destruct (on_qz o) eqn:OQ|].
  - destruct QZ as (a & (sig & S1 & S2) & DD & HH & ED & zz & tt' & E & L15 & PT).
    destruct (proj2 (OWN y) eq_refl) as (IY & LB & LT). assert (IS : In s sections) by apply NB. pose proof (last_section_in s0 LS) as IS0.
    destruct (md_stiff _ _ _ _ _ _ _ _ MS s IS) as (_ & _ & _ & PW). destruct (md_stiff _ _ _ _ _ _ _ _ MS s0 IS0) as (_ & _ & PA & _). destruct (si_outer _ _ _ _ _ _ _ _ _ _ _ SS s0 IS0) as [_ PF].
    pose proof (so_ax _ _ _ _ _ _ (si_soil _ _ _ _ _ _ _ _ _ _ _ SS) y md IY EM) as AD. pose proof (so_tip _ _ _ _ _ _ (si_soil _ _ _ _ _ _ _ _ _ _ _ SS) y md OQ IY EM) as WP.
    assert (TB : (snd e == b)%Q /\ (snd e < fst e)%Q) by exact last_at_tip. destruct TB as [TB LE].
    assert (H0 : (0 < a_height a)%Q) by (rewrite HH; Lqa.lra). assert (D0 : (0 <= a_depth a)%Q) by (rewrite DD; Lqa.lra). assert (D1 : (a_depth a <= a_height a)%Q) by (rewrite HH, DD; Lqa.lra).
    assert (SP : (0 <= sig)%Q) by (rewrite S2; apply weights_nn).
    destruct (tip_extremes (c_qz ch) (s_area s0) (s_footprint s0) md a sig (s_width s) (proj2 (proj2 (proj2 FC))) AD S1 ED SP PW ltac:(Lqa.lra) PF H0 D0 D1) as (z1 & t1 & E1 & X1 & X0).
    destruct (qz_start (c_qz ch) (s_area s0) (s_footprint s0) md a sig (s_width s) (proj2 (proj2 (proj2 FC))) WP S1 ED PW H0) as (z2 & t2 & E2 & (_ & LT2 & _) & _).
    assert (t1 = tt') by congruence. assert (t2 = tt') by congruence. subst t1 t2.
    assert (FR : Q2R (a_depth a / a_height a) = Q2R ((l_top (y_layer y) - b) / (l_top (y_layer y) - l_bottom (y_layer y)))) by (apply Qeq_eqR; rewrite DD, HH; reflexivity).
    rewrite FR, (Qeq_eqR _ _ S2) in X1, X0.
    destruct (stored_extremes rnd (FullModel.g_qz g) tt' _ 0 ST L15 LT2 (fun k K => proj2 (PT k K)) X1) as [Q1 _].
    eexists. split; [exists y, s0; split; [exact OWN|]; split; [exact LS|]; rewrite ?OQ, EM; reflexivity|]. split; [exact X0|exact Q1].
  - exists 0. split; [|apply NO; auto]. exists y, s0. rewrite ?OQ. auto.
  - exists 0. split; [|apply NO; auto]. exists y, s0. rewrite EM. destruct (on_qz o); auto.
Qed.

Lemma accurate_close : forall eps v, accurate eps rnd -> 0 <= v -> close eps (Rabs (Q2R (- rnd v))) v.
Proof using ST.
  intros eps v A V. pose proof ST as (_ & _ & _ & _). unfold close. rewrite Q2R_opp, Rabs_Ropp. specialize (A v). rewrite (Rabs_pos_eq v V) in A.
  eapply Rle_trans; [|exact A]. pose proof (Rabs_triang_inv2 (Q2R (rnd v)) v) as T. rewrite (Rabs_pos_eq v V) in T. exact T.
Qed.
Lemma accurate_close_neg : forall eps v, accurate eps rnd -> 0 <= v -> close eps (Rabs (Q2R (- rnd (- v)))) v.
Proof using.
  intros eps v A V. unfold close. rewrite Q2R_opp, Rabs_Ropp. specialize (A (- v)). rewrite Rabs_Ropp, (Rabs_pos_eq v V) in A.
  eapply Rle_trans; [|exact A]. pose proof (Rabs_triang_inv2 (Q2R (rnd (- v))) (- v)) as T. rewrite Rabs_Ropp, (Rabs_pos_eq v V) in T. exact T.
Qed.

Lemma shaft_close : forall eps infl, accurate eps rnd -> (forall i j, (i < length (elements_of m))%nat -> (j < 2)%nat -> own_springs rnd ch o sections gr wt b ys m g i j) ->
  StressModel.influence (nodes_of m) = Some infl ->
  exists cc ct, (forall i j, (i < length (elements_of m))%nat -> (j < 2)%nat -> end_friction o sections gr wt ys m true i j (cc i j) /\ end_friction o sections gr wt ys m false i j (ct i j)) /\
    let ext f := map (fun e => (f (map snd (FullModel.g_tz g e 0%nat)), f (map snd (FullModel.g_tz g e 1%nat)))) (seq 0 (length (elements_of m))) in
    close eps (Q2R (shaft_sum (ext qmin) infl)) (trapezoids cc (elements_of m) + steps cc (elements_of m)) /\
    close eps (Q2R (shaft_sum (ext qmax) infl)) (trapezoids ct (elements_of m) + steps ct (elements_of m)).
Proof using ST FC SS.
  intros eps infl AC OW EI. set (N := length (elements_of m)) in *. pose proof ST as (MO & R0 & _).
  assert (CH : exists cv : nat -> nat -> R * R, forall i j, (i < N)%nat -> (j < 2)%nat -> let '(vc, vt) := cv i j in
     end_friction o sections gr wt ys m true i j vc /\ end_friction o sections gr wt ys m false i j vt /\ 0 <= vc /\ 0 <= vt /\
    (qmin (map snd (FullModel.g_tz g i j)) == - rnd vc)%Q /\ (qmax (map snd (FullModel.g_tz g i j)) == - rnd (- vt)%R)%Q).
  { assert (B2 : forall i, exists f : nat -> R * R, forall j, (i < N)%nat -> (j < 2)%nat -> let '(vc, vt) := f j in
      end_friction o sections gr wt ys m true i j vc /\ end_friction o sections gr wt ys m false i j vt /\ 0 <= vc /\ 0 <= vt /\
      (qmin (map snd (FullModel.g_tz g i j)) == - rnd vc)%Q /\ (qmax (map snd (FullModel.g_tz g i j)) == - rnd (- vt)%R)%Q).
    { intros i. destruct (lt_dec i N) as [L|L]; [|exists (fun _ => (0, 0)); intros; lia].
      destruct (friction_at i 0 L ltac:(lia) (OW i 0%nat L ltac:(lia))) as (a0 & b0 & H0). destruct (friction_at i 1 L ltac:(lia) (OW i 1%nat L ltac:(lia))) as (a1 & b1 & H1).
      exists (fun j => if Nat.eqb j 0 then (a0, b0) else (a1, b1)). intros [|[|j]] _ J; [exact H0|exact H1|lia]. }
    assert (B3 : forall n, exists cv : nat -> nat -> R * R, forall i j, (i < n)%nat -> (i < N)%nat -> (j < 2)%nat -> let '(vc, vt) := cv i j in
      end_friction o sections gr wt ys m true i j vc /\ end_friction o sections gr wt ys m false i j vt /\ 0 <= vc /\ 0 <= vt /\
      (qmin (map snd (FullModel.g_tz g i j)) == - rnd vc)%Q /\ (qmax (map snd (FullModel.g_tz g i j)) == - rnd (- vt)%R)%Q).
    { induction n as [|n (cv & IH)]; [exists (fun _ _ => (0, 0)); intros; lia|]. destruct (B2 n) as (f & F). exists (fun i j => if Nat.eqb i n then f j else cv i j). intros i j L1 L2 J.
      destruct (Nat.eqb_spec i n) as [->|NE]; [apply F; auto|apply IH; auto; lia]. }
    destruct (B3 N) as (cv & H). exists cv. intros i j L J. apply H; auto. }
  destruct CH as (cv & CV). exists (fun i j => fst (cv i j)), (fun i j => snd (cv i j)).
  split. { intros i j Hi Hj. pose proof (CV i j Hi Hj) as H. destruct (cv i j) as [vc vt]. cbn [fst snd]. split; apply H. }
  cbv zeta. pose proof (si_mesh _ _ _ _ _ _ _ _ _ _ _ SS) as MS. destruct (meshed_nonempty _ _ _ _ _ _ _ _ MS) as [NE NZ]. pose proof (nodes_elems_count m NE) as NC. fold N in NC, NZ.
  assert (PO : forall e, In e (pairs (nodes_of m)) -> (snd e < fst e)%Q).
  { rewrite <- elements_pairs. intros e I. destruct (In_nth_error _ _ I) as (i & Ei). apply (meshed_sections _ _ _ _ _ _ _ _ MS i e Ei). }
  assert (WE : forall cap, wsum cap 0 infl = trapezoids cap (elements_of m) + steps cap (elements_of m) /\ length infl = length (nodes_of m) /\ forall v, In v infl -> (0 <= v)%Q).
  { intros cap. rewrite elements_pairs. apply wsum_ends; auto. lia. }
  destruct (WE (fun _ _ => 0)) as (_ & LI & PI).
  split.
  - rewrite <- (proj1 (WE _)).
    rewrite (shaft_wsum (fun e j => qmin (map snd (FullModel.g_tz g e j))) (fun e j => Rabs (Q2R (qmin (map snd (FullModel.g_tz g e j))))) N infl 0); [|lia|exact PI|].
    + apply wsum_close; [exact PI|]. intros e j He Hj. assert (L : (e < N)%nat) by lia. pose proof (CV e j L Hj) as H. destruct (cv e j) as [vc vt]. cbn [fst snd]. destruct H as (_ & _ & V & _ & Q1 & _).
      rewrite (Qeq_eqR _ _ Q1). apply accurate_close; auto.
    + intros e He. split; [|split; reflexivity]. left. assert (G : forall j, (j < 2)%nat -> (qmin (map snd (FullModel.g_tz g e j)) <= 0)%Q).
      { intros j Hj. assert (L : (e < N)%nat) by lia. pose proof (CV e j L Hj) as H. destruct (cv e j) as [vc vt]. destruct H as (_ & _ & V & _ & Q1 & _). rewrite Q1. pose proof (MO 0 vc V) as M. rewrite R0 in M. Lqa.lra. }
      split; apply G; lia.
  - rewrite <- (proj1 (WE _)).
    rewrite (shaft_wsum (fun e j => qmax (map snd (FullModel.g_tz g e j))) (fun e j => Rabs (Q2R (qmax (map snd (FullModel.g_tz g e j))))) N infl 0); [|lia|exact PI|].
    + apply wsum_close; [exact PI|]. intros e j He Hj. assert (L : (e < N)%nat) by lia. pose proof (CV e j L Hj) as H. destruct (cv e j) as [vc vt]. cbn [fst snd]. destruct H as (_ & _ & _ & V & _ & Q1).
      rewrite (Qeq_eqR _ _ Q1). apply accurate_close_neg; auto.
    + intros e He. split; [|split; reflexivity]. right. assert (G : forall j, (j < 2)%nat -> (0 <= qmax (map snd (FullModel.g_tz g e j)))%Q).
      { intros j Hj. assert (L : (e < N)%nat) by lia. pose proof (CV e j L Hj) as H. destruct (cv e j) as [vc vt]. destruct H as (_ & _ & _ & V & _ & Q1). rewrite Q1. pose proof (MO (- vt) 0 ltac:(lra)) as M. rewrite R0 in M. Lqa.lra. }
      split; apply G; lia.
Qed.
End Report.

(** Tables of lateral springs leave the axial springs alone *)
Lemma calls_keep_axial : forall n dim z l s, touched Axial l = O -> GetterModel.g_tz (snd (calls n dim z l s)) = GetterModel.g_tz s.
Proof.
  intros n dim z. induction l as [|[g k] l IH]; intros s T; [reflexivity|]. cbn [calls]. destruct (GetterModel.call n dim z g k s) as [r s1] eqn:E.
  assert (T1 : touched Axial l = O /\ GetterModel.g_tz s1 = GetterModel.g_tz s).
  { destruct g, k; cbn in T, E |- *; try discriminate T; injection E as <- <-; cbn; auto. }
  destruct T1 as [T1 E1]. specialize (IH s1 T1). destruct (calls n dim z l s1). cbn [snd] in *. congruence.
Qed.
