(** Construction of a pile in soil. *)
From Coq Require Import List Bool Arith ZArith QArith Qabs Qminmax Reals Qreals Permutation Lia Lqa Lra.
From Verif Require Import Base LinAlg BCModel PileModel PileSpec PileProofs PileProps MeshModel MeshSpec ConicSpec PisaModel StressModel StressSpec StressProofs StressProps ShaftProofs GridProofs BeamModel SolveModel SpringModel WinklerModel
  CreateModel CreateProofs CreateProps WholeModel WholeSpec WholeProofs AxialModel AxialSpec AxialProofs AxialProps LateralModel LateralSpec LateralProofs LateralProps MomentProofs StartProofs
  CapacityModel CapacitySpec CapacityProofs FullModel FullSpec FullProofs CallProofs.
Import ListNotations.
Local Open Scope Q_scope.

(** ** The profile *)
Lemma stack_tops : forall d g, exact_stack g d -> forall i a, nth_error d i = Some a -> l_top a <= g /\ ((0 < i)%nat -> l_top a < g).
Proof.
  induction d as [|y t IH]; intros g H i a E; [destruct i; discriminate|]. cbn [exact_stack] in H. destruct H as (A & B & C).
  destruct i as [|i]; [cbn in E; injection E as <-; split; [Lqa.lra|lia]|]. cbn in E. destruct (IH _ C i a E) as [D _]. split; [Lqa.lra|intros _; Lqa.lra].
Qed.
Lemma stack_strict : forall d g, exact_stack g d -> forall i j a b, (i < j)%nat -> nth_error d i = Some a -> nth_error d j = Some b -> l_top b < l_top a.
Proof.
  induction d as [|y t IH]; intros g H i j a b L E1 E2; [destruct i; discriminate|]. cbn [exact_stack] in H. destruct H as (A & B & C).
  destruct j as [|j]; [lia|]. cbn in E2. destruct i as [|i].
  - cbn in E1. injection E1 as <-. destruct (stack_tops _ _ C j b E2) as [D _]. Lqa.lra.
  - cbn in E1. apply (IH _ C i j); auto. lia.
Qed.
Lemma stack_distinct : forall d g, exact_stack g d -> distinct_tops d.
Proof.
  intros d g H i j a b E1 E2 EQ. destruct (lt_eq_lt_dec i j) as [[L|L]|L]; auto; exfalso.
  - pose proof (stack_strict d g H i j a b L E1 E2). Lqa.lra.
  - pose proof (stack_strict d g H j i b a L E2 E1). Lqa.lra.
Qed.
Lemma stack_follow : forall d g, exact_stack g d -> follow d.
Proof.
  induction d as [|y t IH]; intros g H i a b E1 E2; [destruct i; discriminate|]. cbn [exact_stack] in H. destruct H as (A & B & C).
  destruct i as [|i]; [|cbn in E1, E2; exact (IH _ C i a b E1 E2)]. cbn in E1, E2. injection E1 as <-. destruct t as [|z t]; [discriminate|]. cbn in E2. injection E2 as <-. destruct C as [C _].
  left. assert (Z : l_top z - l_bottom y == 0) by Lqa.lra. rewrite Z. cbn. discriminate.
Qed.
Lemma stack_profile : forall g l d, d <> [] -> Permutation l d -> exact_stack g d -> make_profile g l = Ok l.
Proof.
  intros g l d N P H. assert (D : distinct_tops l) by (apply (distinct_perm d); [apply Permutation_sym; auto|eapply stack_distinct; eauto]).
  assert (E : exists r, make_profile g l = Ok r).
  { apply (profile_accepted_iff g l D). exists d. split; [auto|]. split; [|split].
    - intros i j a b L E1 E2. apply Qlt_le_weak. exact (stack_strict d g H i j a b L E1 E2).
    - eapply stack_follow; eauto.
    - destruct d as [|a t]; [congruence|]. exists a, t. split; [auto|]. apply H. }
  destruct E as (r & E). destruct (profile_sound _ _ _ E) as [-> _]. exact E.
Qed.
Lemma Qsum_perm : forall l l', Permutation l l' -> Qsum l == Qsum l'.
Proof. intros l l' P. unfold Qsum. induction P; cbn [fold_right]; [reflexivity|rewrite IHP; reflexivity|Lqa.lra|Lqa.lra]. Qed.
Lemma stack_heights : forall d g, exact_stack g d -> g - Qsum (map (fun x => Qabs (l_top x - l_bottom x)) d) == stack_bottom g d.
Proof.
  induction d as [|y t IH]; intros g H; [cbn; Lqa.lra|]. cbn [exact_stack] in H. destruct H as (A & B & C). specialize (IH _ C). cbn [map stack_bottom]. unfold Qsum in *. cbn [fold_right].
  rewrite Qabs_pos by Lqa.lra. rewrite <- IH. Lqa.lra.
Qed.
Lemma stack_depth : forall g l d, Permutation l d -> exact_stack g d -> profile_bottom g l == stack_bottom g d.
Proof. intros g l d P H. unfold profile_bottom. rewrite <- (stack_heights d g H). rewrite (Qsum_perm _ _ (Permutation_map (fun x => Qabs (l_top x - l_bottom x)) P)). Lqa.lra. Qed.
Lemma profile_depth_nn : forall g l, 0 <= g - profile_bottom g l.
Proof.
  intros g l. unfold profile_bottom. assert (H : 0 <= Qsum (map (fun x => Qabs (l_top x - l_bottom x)) l)).
  { induction l as [|y t IH]; [cbn; discriminate|]. cbn [map]. unfold Qsum in *. cbn [fold_right]. pose proof (Qabs_nonneg (l_top y - l_bottom y)). Lqa.lra. }
  Lqa.lra.
Qed.

(** ** Usable springs *)
Lemma nth_no_points : forall i, nth i no_points (0, 0) = (0, 0).
Proof. intros i. unfold no_points. destruct (le_lt_dec 15 i); [apply nth_overflow; cbn; lia|apply nth_repeat]. Qed.
Lemma in_no_points : forall q, In q no_points -> q = (0, 0).
Proof. intros q I. unfold no_points in I. apply repeat_spec in I. exact I. Qed.
Lemma no_lateral : lateral_shape no_points.
Proof.
  unfold lateral_shape. split; [reflexivity|]. split; [reflexivity|]. split; [reflexivity|]. split; [intros i j _; rewrite !nth_no_points; discriminate|].
  intros q I. rewrite (in_no_points q I). discriminate.
Qed.
Lemma no_axial : axial_shape no_points.
Proof. unfold axial_shape. split; [reflexivity|]. split; [reflexivity|]. split; [reflexivity|]. intros i j _; rewrite !nth_no_points; discriminate. Qed.
Lemma no_springs : usable_py no_points /\ usable_base no_points /\ usable_tz no_points /\ usable_qz no_points /\ usable_mt (repeat no_points 15).
Proof.
  assert (Z1 : forall q, In q no_points -> fst q == 0) by (intros q I; rewrite (in_no_points q I); reflexivity).
  assert (Z2 : forall q, In q no_points -> snd q == 0) by (intros q I; rewrite (in_no_points q I); reflexivity).
  pose proof no_lateral. pose proof no_axial. repeat (split; [split; [auto|left; auto]|]).
  unfold usable_mt. split; [reflexivity|]. split; [|split; [|split]].
  - intros c I. apply repeat_spec in I. subst c. split; [reflexivity|]. intros q I. rewrite (in_no_points q I). split; discriminate.
  - intros i j k H1. assert (E : forall n, (n < 15)%nat -> nth n (repeat no_points 15) [] = no_points).
    { intros n Hn. rewrite (nth_indep _ [] no_points) by (rewrite repeat_length; auto). apply nth_repeat. }
    rewrite !E by lia. apply Qle_refl.
  - intros q I. cbn [repeat nth] in I. auto.
  - left. intros c q I J. apply repeat_spec in I. subst c. auto.
Qed.
Definition good (P : list (Q * Q) -> Prop) (v : stored_value) : Prop := exists c, v = Ok (Some [c]) /\ P c.
Definition good_columns (v : stored_value) : Prop := exists c, v = Ok (Some c) /\ usable_mt c.

Lemma curve_of_good : forall (P : list (Q * Q) -> Prop) o, P no_points -> (forall v, o = Some v -> good P v) -> exists c, curve_of o = Some c /\ P c.
Proof. intros P [v|] N H; [|exists no_points; auto]. destruct (H v eq_refl) as (c & -> & C). exists c. auto. Qed.
Lemma columns_of_good : forall o, (forall v, o = Some v -> good_columns v) -> exists c, columns_of o = Some c /\ usable_mt c.
Proof. intros [v|] H; [|exists (repeat no_points 15); split; [reflexivity|apply no_springs]]. destruct (H v eq_refl) as (c & -> & C). exists c. split; auto. Qed.

Section Site.
Variables (rnd : R -> Q) (ch : chance) (sort : list (Q * section) -> list (Q * section)) (o : options) (sections : list section) (gr wt : Q) (ys : list soil_layer)
  (x : list Q) (c : Q) (p : list section) (t b : Q) (m : list Q).
Hypothesis ST : storage rnd.
Hypothesis FC : fair_chance ch.
Hypothesis SO : forall rows, ascending_of (sort rows) rows.
Hypothesis SS : sound_site o sections gr wt ys x c p t b m.
Notation ls := (map y_layer ys).
Notation layers ta fp := (map (slayer_of rnd ch ta fp) ys).
Notation st sg := (setting_of o p b (sort (data_rows p)) gr wt ls m sg).

Lemma slayers_of : forall ta fp, map s_layer (layers ta fp) = ls.
Proof using. intros. rewrite map_map. reflexivity. Qed.

Lemma site_fits : forall ta fp, exists sd sg, fits sections p b (layers ta fp) sd (st sg) x c m /\ stress ls gr wt (elements_of m) = Ok sg.
Proof using SS.
  intros ta fp. destruct SS as [[S1 S2 S3 S4 S5 S6 S7 S8 S9] FI (d & PD & ES & SB) TI WE WA OU SL].
  assert (ND : d <> []) by (intros ->; cbn in SB; Lqa.lra).
  assert (PR : proper sections) by (intros s I; apply (S1 s I)).
  rewrite <- (slayers_of ta fp) in PD. destruct (Permutation_map_inv s_layer (layers ta fp) (Permutation_sym PD)) as (sd & -> & PS).
  assert (X : forall y, In y x -> b <= y) by (intros y I; apply (S9 y I)).
  destruct (C20_stress_is_overburden sections p b ls (map s_layer sd) gr wt x c m PR S2 S4) as (above & e0 & below & tops & bots & _ & _ & _ & E & _); auto.
  { rewrite <- (slayers_of ta fp). apply Permutation_map. exact PS. }
  exists sd, (tops, bots). split; [|exact E]. unfold fits. rewrite slayers_of. cbn [tip ground elems setting_of].
  do 4 (split; [auto; fail|]). split; [exact PS|]. do 3 (split; [auto; fail|]). split; [intros ->; apply ND; reflexivity|]. auto 10.
Qed.

Lemma site_section : forall sg i, (i < length (elements_of m))%nat -> exists s, In s sections /\ nearby sections s (nth i (elements_of m) (0, 0)) /\ width (st sg) i = Some (s_width s) /\ outer (st sg) i = Some (s_outer s) /\ 0 < s_width s /\ 0 < s_outer s.
Proof using SS SO.
  intros sg i L. destruct SS as [MS FI _ TI WE WA OU SL]. destruct (nth_error (elements_of m) i) as [y|] eqn:E; [|apply nth_error_None in E; lia].
  destruct (meshed_sections _ _ _ _ _ _ _ _ MS i y E) as [A (q & IQ & IN & _)]. pose proof IN as (B1 & B2 & B3). pose proof MS as [S1 S2 _ _ _ _ _ _ _].
  assert (PR : proper sections) by (intros s I; apply (S1 s I)).
  pose proof S2 as MP. apply make_pile_ok in MP. destruct MP as (_ & EP & _).
  assert (PP : Permutation sections p) by (rewrite EP; apply sort_perm).
  destruct (C19_own_or_adjacent_partial sections p (sort (data_rows p)) q (fst y) PR S2 (SO _)) as (s & AS & IS & NB); [eapply Permutation_in; eauto|Lqa.lra|auto|].
  apply (Permutation_in s (Permutation_sym PP)) in IS. exists s. split; [exact IS|]. split. { rewrite (nth_error_nth _ _ (0, 0) E). split; [exact IS|]. destruct NB as [->|NB]; [left; exact IN|right; exists q; auto]. } cbn [width outer setting_of]. unfold element_property. rewrite (nth_error_nth _ _ (0, 0) E), AS.
  split; [reflexivity|]. split; [reflexivity|]. split; [apply (S1 s IS)|apply (OU s IS)].
Qed.

Lemma site_overburden : forall z, 0 <= overburden ls wt z.
Proof using SS.
  intros z. apply (C20_overburden_grows_with_depth _ wt z z); [|apply Qle_refl]. intros l0 I0. apply in_map_iff in I0. destruct I0 as (y0 & <- & I0). apply (si_weight _ _ _ _ _ _ _ _ _ _ _ SS y0 I0).
Qed.

Section Called.
Variables (ta fp : Q) (sd : list (@slayer stored_value)) (sg : list nanQ * list nanQ).
Hypothesis F : fits sections p b (layers ta fp) sd (st sg) x c m.
Hypothesis SG : stress ls gr wt (elements_of m) = Ok sg.

Lemma work_layer : forall sl i, In (sl, i) (work (st sg) (layers ta fp)) -> exists y, In y ys /\ sl = slayer_of rnd ch ta fp y.
Proof using F.
  intros sl i I. destruct (site_work sections p b (layers ta fp) sd (st sg) x c m F sl i I) as (IL & _). apply in_map_iff in IL. destruct IL as (y & <- & IY). eauto.
Qed.

Lemma called_shaft : forall y i j, In y ys -> In (slayer_of rnd ch ta fp y, i) (work (st sg) (layers ta fp)) -> exists s, In s sections /\ nearby sections s (nth i (elements_of m) (0, 0)) /\
  let z := end_of (st sg) i j in within (y_layer y) z /\ b <= z /\
  (let a := shaft_args (st sg) (y_layer y) i j in axial_place ls gr wt (y_layer y) z s a /\ a_perim_in a = Some (s_outer s) /\ 0 < s_width s /\ 0 < s_outer s /\ 0 < a_height a /\
   let q := spot ls gr wt b (y_layer y) z (gr - z) (s_width s) in good_place q /\
   forall A (f : place -> res A) store, at_place a f store = store (f q)).
Proof using SS SO F SG.
  intros y i j IY I. assert (WA := si_water _ _ _ _ _ _ _ _ _ _ _ SS).
  destruct (site_work sections p b (layers ta fp) sd (st sg) x c m F _ i I) as (IL & L & _).
  destruct (site_section sg i L) as (s & IS & NB & EW & EO & PW & PO).
  pose proof (site_shaft sections p b (layers ta fp) sd (st sg) x c m F) as SH. cbn [ground water elems sig_top sig_bottom setting_of] in SH. rewrite slayers_of in SH.
  specialize (SH ltac:(rewrite SG; destruct sg; reflexivity) WA _ i j I). cbv zeta in SH. set (z := end_of (st sg) i j) in *. cbn [s_layer slayer_of] in SH.
  destruct SH as ((sig & S1 & S2) & XX & HH & DD & WT & Z1 & Z2 & Z3 & Z4 & Z5).
  exists s. split; [exact IS|]. split; [exact NB|]. cbv zeta. split; [split; auto|]. split; [exact Z3|].
  split. { unfold axial_place. split; [exists sig; auto|]. split; [exact XX|]. rewrite DD, HH. split; [reflexivity|]. split; [reflexivity|]. split; [exact EW|split; exact EO]. }
  split; [exact EO|]. split; [auto|]. split; [auto|]. split; [rewrite HH; Lqa.lra|].
  split.
  - constructor; cbn [spot q_height q_depth q_D q_sig q_X].
    + apply Q2R_pos. Lqa.lra.
    + split; [apply Q2R_nn; Lqa.lra|apply Qle_Rle; Lqa.lra].
    + apply Q2R_pos. auto.
    + apply Q2R_nn, site_overburden.
    + apply Q2R_nn. Lqa.lra.
  - intros A f store. unfold at_place. change (a_D (shaft_args (st sg) (y_layer y) i j)) with (width (st sg) i). rewrite S1, EW, HH, DD, WT. unfold spot. rewrite (Qeq_eqR _ _ S2), (Qeq_eqR _ _ XX). reflexivity.
Qed.

Lemma called_base : forall y i, In y ys -> In (slayer_of rnd ch ta fp y, i) (work (st sg) (layers ta fp)) -> tip_in (st sg) (y_layer y) = true ->
  exists s, In s sections /\ nearby sections s (nth i (elements_of m) (0, 0)) /\ within (y_layer y) b /\
  (let a := base_args (st sg) (y_layer y) i in
   (exists sig, a_sig a = Some sig /\ sig == overburden ls wt b) /\ a_D a = Some (s_width s) /\ 0 < s_width s /\ 0 < a_height a /\
   let q := spot ls gr wt b (y_layer y) b (gr - profile_bottom gr ls) (s_width s) in good_place q /\
   forall A (f : place -> res A) store, at_place a f store = store (f q)).
Proof using SS SO F SG.
  intros y i IY I TI. assert (WW : forall y, In y (layers ta fp) -> 10 < l_weight (s_layer y)).
  { intros y0 I0. apply in_map_iff in I0. destruct I0 as (y1 & <- & I0). cbn [s_layer slayer_of]. apply (si_weight _ _ _ _ _ _ _ _ _ _ _ SS y1 I0). }
  assert (WA := si_water _ _ _ _ _ _ _ _ _ _ _ SS).
  destruct (site_work sections p b (layers ta fp) sd (st sg) x c m F _ i I) as (IL & L & _).
  destruct (site_section sg i L) as (s & IS & NB & EW & EO & PW & PO).
  pose proof (site_base sections p b (layers ta fp) sd (st sg) x c m F WW) as SH. cbn [ground water elems sig_top sig_bottom tip setting_of] in SH. rewrite slayers_of in SH.
  specialize (SH ltac:(rewrite SG; destruct sg; reflexivity) WA _ i I TI). cbv zeta in SH. cbn [s_layer slayer_of] in SH.
  destruct SH as ((sig & S1 & S2) & Z1 & Z2 & _ & Z5).
  exists s. split; [exact IS|]. split; [exact NB|]. split; [split; auto|]. cbv zeta.
  split; [exists sig; auto|]. split; [exact EW|]. split; [auto|]. split; [cbn [base_args a_height]; Lqa.lra|].
  split.
  - constructor; cbn [spot q_height q_depth q_D q_sig q_X].
    + apply Q2R_pos. Lqa.lra.
    + split; [apply Q2R_nn; Lqa.lra|apply Qle_Rle; Lqa.lra].
    + apply Q2R_pos. auto.
    + apply Q2R_nn, site_overburden.
    + apply Q2R_nn, profile_depth_nn.
  - intros A f store. unfold at_place. change (a_D (base_args (st sg) (y_layer y) i)) with (width (st sg) i). rewrite S1, EW. unfold spot. rewrite (Qeq_eqR _ _ S2). reflexivity.
Qed.

(** ** The calls *)
Notation W := (work (st sg) (layers ta fp)).
Lemma py_value : forall y i j md, In y ys -> In (slayer_of rnd ch ta fp y, i) W -> y_lat y = Some md -> on_py o = true ->
  let a := shaft_args (st sg) (y_layer y) i j in let z := end_of (st sg) i j in exists s yy pp, nearby sections s (nth i (elements_of m) (0, 0)) /\ axial_place ls gr wt (y_layer y) z s a /\
  let u := c_py ch md a in py_spring_fct md u (spot ls gr wt b (y_layer y) z (gr - z) (s_width s)) 0 15 = Ok (yy, map Some pp) /\ (forall i, (0 <= u i < 1)%R) /\
  f_py (lateral_of rnd ch md) a = Ok (Some [points rnd yy pp]) /\ usable_py (points rnd yy pp) /\ spring_curve 15 yy pp.
Proof using SS SO F SG ST FC.
  intros y i j md IY I EM ON a z. destruct (called_shaft y i j IY I) as (s & IS & NB & WI & BZ & AP & _ & _ & _ & _ & G & AT). fold z in WI, BZ, AP, G, AT. fold a in AP, AT.
  destruct (so_py _ _ _ _ _ _ (si_soil _ _ _ _ _ _ _ _ _ _ _ SS) y md s z ON IY EM IS WI BZ) as (A1 & A2 & A3).
  assert (U := proj1 FC md a). destruct (C68_py_springs_partial md (c_py ch md a) _ 0 15 U G A1 ltac:(lra) ltac:(lia) A2 A3) as (yy & pp & E & C & _).
  exists s, yy, pp. split; [exact NB|]. split; [exact AP|]. cbv zeta. split; [exact E|]. split; [exact U|]. cbn [f_py lateral_of]. rewrite AT, E, store_curve_ok by auto. split; [reflexivity|].
  split; [|exact C]. apply py_points; auto. exact (py_spring_moves md _ _ yy _ U G A1 A3 E).
Qed.
Lemma mt_value : forall y i j md, In y ys -> In (slayer_of rnd ch ta fp y, i) W -> y_lat y = Some md -> nth 2 (spring_signature md) false = true -> on_mt o = true ->
  let a := shaft_args (st sg) (y_layer y) i j in let z := end_of (st sg) i j in exists s T M, nearby sections s (nth i (elements_of m) (0, 0)) /\ axial_place ls gr wt (y_layer y) z s a /\
  let u := fst (c_mt ch md a) in mt_spring_fct md u (snd (c_mt ch md a)) (spot ls gr wt b (y_layer y) z (gr - z) (s_width s)) 0 15 = Ok (T, map (map Some) M) /\ (forall i, (0 <= u i < 1)%R) /\
  f_mt (lateral_of rnd ch md) a = Ok (Some (moment_points rnd T M)) /\ usable_mt (moment_points rnd T M) /\ length T = 15%nat /\ length M = 15%nat.
Proof using SS SO F SG ST FC.
  intros y i j md IY I EM HA ON a z. destruct (called_shaft y i j IY I) as (s & IS & NB & WI & BZ & AP & _ & _ & _ & _ & G & AT). fold z in WI, BZ, AP, G, AT. fold a in AP, AT.
  destruct (so_mt _ _ _ _ _ _ (si_soil _ _ _ _ _ _ _ _ _ _ _ SS) y md s z ON HA IY EM IS WI BZ) as (A1 & A2 & A3 & A4).
  destruct (proj1 (proj2 FC) md a) as [U SD]. destruct (moment_springs md (fst (c_mt ch md a)) (snd (c_mt ch md a)) _ U G A1 SD A2 A3 A4) as (T & M & E & L1 & L2 & C & RM).
  exists s, T, M. split; [exact NB|]. split; [exact AP|]. cbv zeta. split; [exact E|]. split; [exact U|]. cbn [f_mt lateral_of]. rewrite AT, E, store_curves_ok by auto. split; [reflexivity|].
  split; [apply mt_points; auto|auto].
Qed.
Lemma tz_value : forall y i j md, In y ys -> In (slayer_of rnd ch ta fp y, i) W -> y_ax y = Some md ->
  let a := shaft_args (st sg) (y_layer y) i j in let z := end_of (st sg) i j in exists s zz tt', nearby sections s (nth i (elements_of m) (0, 0)) /\ axial_place ls gr wt (y_layer y) z s a /\
  tz_curve (c_tz ch) md a = Ok (Some (zz, tt')) /\ f_tz (axial_of rnd ch ta fp md) a = Ok (Some [turned (points rnd zz tt')]) /\ usable_tz (turned (points rnd zz tt')) /\ centred zz tt'.
Proof using SS SO F SG ST FC.
  intros y i j md IY I EM a z. destruct (called_shaft y i j IY I) as (s & IS & NB & WI & BZ & AP & EI & PW & PO & PH & _). fold z in WI, BZ, AP. fold a in AP, EI, PH.
  pose proof AP as ((sig & S1 & _) & _ & _ & _ & ED & EO & _).
  pose proof (so_ax _ _ _ _ _ _ (si_soil _ _ _ _ _ _ _ _ _ _ _ SS) y md IY EM) as AD. destruct FC as (_ & _ & FT & _).
  destruct (tz_start (c_tz ch) md _ sig _ _ _ FT AD S1 ED EO EI PW PO PO PH) as (zz & tt' & E & C & S0). exists s, zz, tt'. split; [exact NB|]. split; [exact AP|]. split; [exact E|].
  cbn [f_tz axial_of]. rewrite E, store_axial_ok by auto. split; [reflexivity|]. split; [apply tz_points; auto|exact C].
Qed.
Lemma base_value : forall y i md, In y ys -> In (slayer_of rnd ch ta fp y, i) W -> tip_in (st sg) (y_layer y) = true -> y_lat y = Some md ->
  let a := base_args (st sg) (y_layer y) i in exists s, nearby sections s (nth i (elements_of m) (0, 0)) /\ let q := spot ls gr wt b (y_layer y) b (gr - profile_bottom gr ls) (s_width s) in
  a_D a = Some (s_width s) /\
  (on_hb o && nth 1 (spring_signature md) false = true -> exists yy pp, Hb_spring_fct md q 0 15 = Ok (yy, map Some pp) /\ f_hb (lateral_of rnd ch md) a = Ok (Some [points rnd yy pp]) /\ usable_base (points rnd yy pp) /\ spring_curve 15 yy pp) /\
  (on_mb o && nth 3 (spring_signature md) false = true -> exists yy pp, Mb_spring_fct md q 0 15 = Ok (yy, map Some pp) /\ f_mb (lateral_of rnd ch md) a = Ok (Some [points rnd yy pp]) /\ usable_base (points rnd yy pp) /\ spring_curve 15 yy pp).
Proof using SS SO F SG ST FC.
  intros y i md IY I TI EM a. destruct (called_base y i IY I TI) as (s & IS & NB & WI & _ & AD & _ & _ & G & AT). fold a in AT, AD.
  pose proof (so_base _ _ _ _ _ _ (si_soil _ _ _ _ _ _ _ _ _ _ _ SS) y md s) as BA.
  exists s. split; [exact NB|]. cbv zeta. cbn [f_hb f_mb lateral_of]. rewrite !AT. split; [exact AD|].
  split; intros H; (specialize (BA ltac:(auto) IY EM IS WI); destruct (C68_base_springs_partial md _ 0 15 G BA ltac:(lia)) as [(y1 & p1 & E1 & C1 & _) (y2 & p2 & E2 & C2 & _)]; destruct (base_start md _ 0 G BA) as [B1 B2]).
  - exists y1, p1. rewrite E1, store_curve_ok by auto. split; [reflexivity|]. split; [reflexivity|]. split; [|exact C1]. apply base_points; [auto|auto|exact (B1 _ _ E1)].
  - exists y2, p2. rewrite E2, store_curve_ok by auto. split; [reflexivity|]. split; [reflexivity|]. split; [|exact C2]. apply base_points; [auto|auto|exact (B2 _ _ E2)].
Qed.
Lemma qz_value : forall y i md, In y ys -> In (slayer_of rnd ch ta fp y, i) W -> tip_in (st sg) (y_layer y) = true -> y_ax y = Some md -> on_qz o = true ->
  let a := base_args (st sg) (y_layer y) i in exists s zz tt', nearby sections s (nth i (elements_of m) (0, 0)) /\ (exists sig, a_sig a = Some sig /\ sig == overburden ls wt b) /\ a_D a = Some (s_width s) /\
  qz_curve (c_qz ch) ta fp md a = Ok (Some (zz, tt')) /\ f_qz (axial_of rnd ch ta fp md) a = Ok (Some [turned (points rnd zz tt')]) /\ usable_qz (turned (points rnd zz tt')) /\ centred zz tt'.
Proof using SS SO F SG ST FC.
  intros y i md IY I TI EM ON a. destruct (called_base y i IY I TI) as (s & IS & NB & WI & SI & ED & PW & PH & _). fold a in SI, ED, PH.
  pose proof SI as (sig & S1 & _).
  pose proof (so_tip _ _ _ _ _ _ (si_soil _ _ _ _ _ _ _ _ _ _ _ SS) y md ON IY EM) as AD. destruct FC as (_ & _ & _ & FT).
  destruct (qz_start (c_qz ch) ta fp md _ sig _ FT AD S1 ED PW PH) as (zz & tt' & E & C & S0). exists s, zz, tt'. split; [exact NB|]. split; [exact SI|]. split; [exact ED|]. split; [exact E|].
  cbn [f_qz axial_of]. rewrite E, store_axial_ok by auto. split; [reflexivity|]. split; [apply qz_points; auto|exact C].
Qed.

Lemma lateral_is : forall y la, s_lat (slayer_of rnd ch ta fp y) = Some la -> exists md, y_lat y = Some md /\ la = lateral_of rnd ch md.
Proof using. intros y la LA. cbn [s_lat slayer_of] in LA. destruct (y_lat y) as [md|]; [|discriminate]. cbn in LA. exists md. split; congruence. Qed.
Lemma axial_is : forall y ax, s_ax (slayer_of rnd ch ta fp y) = Some ax -> exists md, y_ax y = Some md /\ ax = axial_of rnd ch ta fp md.
Proof using. intros y la LA. cbn [s_ax slayer_of] in LA. destruct (y_ax y) as [md|]; [|discriminate]. cbn in LA. exists md. split; congruence. Qed.

Lemma py_call : forall sl i j la, In (sl, i) W -> s_lat sl = Some la -> on_py o = true -> good usable_py (f_py la (shaft_args (st sg) (s_layer sl) i j)).
Proof using SS SO F SG ST FC.
  intros sl i j la I LA ON. destruct (work_layer sl i I) as (y & IY & ->). destruct (lateral_is y la LA) as (md & EM & ->).
  destruct (py_value y i j md IY I EM ON) as (s & yy & pp & _ & _ & _ & _ & E & U & _). exists (points rnd yy pp). auto.
Qed.
Lemma mt_call : forall sl i j la, In (sl, i) W -> s_lat sl = Some la -> has_mt la = true -> on_mt o = true -> good_columns (f_mt la (shaft_args (st sg) (s_layer sl) i j)).
Proof using SS SO F SG ST FC.
  intros sl i j la I LA HA ON. destruct (work_layer sl i I) as (y & IY & ->). destruct (lateral_is y la LA) as (md & EM & ->).
  destruct (mt_value y i j md IY I EM HA ON) as (s & T & M & _ & _ & _ & _ & E & U & _). exists (moment_points rnd T M). auto.
Qed.
Lemma tz_call : forall sl i j ax, In (sl, i) W -> s_ax sl = Some ax -> good usable_tz (f_tz ax (shaft_args (st sg) (s_layer sl) i j)).
Proof using SS SO F SG ST FC.
  intros sl i j ax I AX. destruct (work_layer sl i I) as (y & IY & ->). destruct (axial_is y ax AX) as (md & EM & ->).
  destruct (tz_value y i j md IY I EM) as (s & zz & tt' & _ & _ & _ & E & U & _). exists (turned (points rnd zz tt')). auto.
Qed.
Lemma base_call : forall sl i la, In (sl, i) W -> tip_in (st sg) (s_layer sl) = true -> s_lat sl = Some la ->
  (has_hb la && on_hb o = true -> good usable_base (f_hb la (base_args (st sg) (s_layer sl) i))) /\ (has_mb la && on_mb o = true -> good usable_base (f_mb la (base_args (st sg) (s_layer sl) i))).
Proof using SS SO F SG ST FC.
  intros sl i la I TI LA. destruct (work_layer sl i I) as (y & IY & ->). destruct (lateral_is y la LA) as (md & EM & ->).
  destruct (base_value y i md IY I TI EM) as (s & _ & _ & HB & MB). split; intros H; rewrite andb_comm in H.
  - destruct (HB H) as (yy & pp & _ & E & U & _). exists (points rnd yy pp). auto.
  - destruct (MB H) as (yy & pp & _ & E & U & _). exists (points rnd yy pp). auto.
Qed.
Lemma qz_call : forall sl i ax, In (sl, i) W -> tip_in (st sg) (s_layer sl) = true -> s_ax sl = Some ax -> on_qz o = true -> good usable_qz (f_qz ax (base_args (st sg) (s_layer sl) i)).
Proof using SS SO F SG ST FC.
  intros sl i ax I TI AX ON. destruct (work_layer sl i I) as (y & IY & ->). destruct (axial_is y ax AX) as (md & EM & ->).
  destruct (qz_value y i md IY I TI EM ON) as (s & zz & tt' & _ & _ & _ & _ & E & U & _). exists (turned (points rnd zz tt')). auto.
Qed.

(** ** The springs *)
Lemma calls_good : forall v, In v (flat_map (calls_of (st sg)) W) -> exists r, v = Ok r.
Proof using SS SO F SG ST FC.
  intros v I. apply in_flat_map in I. destruct I as ([sl i] & IW & I). unfold calls_of in I. apply in_app_or in I. destruct I as [I|I].
  - destruct (s_ax sl) as [ax|] eqn:AX; [|contradiction]. apply in_app_or in I. destruct I as [I|I].
    + destruct (distributed_axial (st sg)); [|contradiction]. destruct I as [<-|[<-|[]]]; destruct (tz_call sl i 0 ax IW AX) as (c1 & E1 & _); destruct (tz_call sl i 1 ax IW AX) as (c2 & E2 & _); eauto.
    + destruct (tip_in (st sg) (s_layer sl) && base_axial (st sg)) eqn:D; [|contradiction]. apply andb_prop in D. destruct D as [D1 D2]. destruct I as [<-|[]]. destruct (qz_call sl i ax IW D1 AX D2) as (c1 & E1 & _). eauto.
  - destruct (s_lat sl) as [la|] eqn:LA; [|contradiction]. apply in_app_or in I. destruct I as [I|I]; [|apply in_app_or in I; destruct I as [I|I]; [|apply in_app_or in I; destruct I as [I|I]]].
    + destruct (has_py la && distributed_lateral (st sg)) eqn:D; [|contradiction]. apply andb_prop in D. destruct D as [D1 D2].
      destruct I as [<-|[<-|[]]]; destruct (py_call sl i 0 la IW LA D2) as (c1 & E1 & _); destruct (py_call sl i 1 la IW LA D2) as (c2 & E2 & _); eauto.
    + destruct (has_mt la && distributed_moment (st sg)) eqn:D; [|contradiction]. apply andb_prop in D. destruct D as [D1 D2].
      destruct I as [<-|[<-|[]]]; destruct (mt_call sl i 0 la IW LA D1 D2) as (c1 & E1 & _); destruct (mt_call sl i 1 la IW LA D1 D2) as (c2 & E2 & _); eauto.
    + destruct (tip_in (st sg) (s_layer sl) && _) eqn:D in I; [|contradiction]. apply andb_prop in D. destruct D as [D1 D2]. destruct I as [<-|[]]. destruct (proj1 (base_call sl i la IW D1 LA) D2) as (c1 & E1 & _). eauto.
    + destruct (tip_in (st sg) (s_layer sl) && _) eqn:D in I; [|contradiction]. apply andb_prop in D. destruct D as [D1 D2]. destruct I as [<-|[]]. destruct (proj2 (base_call sl i la IW D1 LA) D2) as (c1 & E1 & _). eauto.
Qed.

Lemma no_error : forall l : list stored_value, (forall v, In v l -> exists r, v = Ok r) -> first_error l = None.
Proof using.
  induction l as [|v l IH]; intros H; [reflexivity|]. destruct (H v (or_introl eq_refl)) as (r & ->). cbn [first_error]. apply IH. intros; apply H; right; auto.
Qed.

Notation M := (create_springs (st sg) (layers ta fp)).
Lemma shaft_good : (forall e j v, m_py M e j = Some v -> good usable_py v) /\ (forall e j v, m_mt M e j = Some v -> good_columns v) /\ (forall e j v, m_tz M e j = Some v -> good usable_tz v) /\
  (forall v, m_hb M = Some v -> good usable_base v) /\ (forall v, m_mb M = Some v -> good usable_base v) /\ (forall v, m_qz M = Some v -> good usable_qz v).
Proof using SS SO F SG ST FC.
  destruct (springs_filled (layers ta fp) (st sg)) as [A1 A2 A3 A4 A5 A6].
  split; [|split; [|split; [|split; [|split]]]].
  - intros e j v E. destruct (A1 e j v E) as (sl & i & k & IW & _ & [(la & h & LA & H & ->)|(ax & h & _ & H & _)]); [|discriminate]. unfold if_lat in H.
    destruct (has_py la && _) eqn:D in H; [|discriminate]. apply andb_prop in D. destruct D as [D1 D2]. injection H as <-. exact (py_call sl i k la IW LA D2).
  - intros e j v E. destruct (A2 e j v E) as (sl & i & k & IW & _ & [(la & h & LA & H & ->)|(ax & h & _ & H & _)]); [|discriminate]. unfold if_lat in H.
    destruct (has_mt la && _) eqn:D in H; [|discriminate]. apply andb_prop in D. destruct D as [D1 D2]. injection H as <-. exact (mt_call sl i k la IW LA D1 D2).
  - intros e j v E. destruct (A3 e j v E) as (sl & i & k & IW & _ & [(la & h & LA & H & _)|(ax & h & AX & H & ->)]); [discriminate|]. unfold if_lat in H.
    destruct (distributed_axial (st sg)); [|discriminate]. injection H as <-. exact (tz_call sl i k ax IW AX).
  - intros v E. destruct (A4 v E) as (sl & i & IW & TI & [(la & h & LA & H & ->)|(ax & h & _ & H & _)]); [|discriminate]. unfold if_lat in H.
    destruct (has_hb la && _) eqn:D in H; [|discriminate]. injection H as <-. exact (proj1 (base_call sl i la IW TI LA) D).
  - intros v E. destruct (A5 v E) as (sl & i & IW & TI & [(la & h & LA & H & ->)|(ax & h & _ & H & _)]); [|discriminate]. unfold if_lat in H.
    destruct (has_mb la && _) eqn:D in H; [|discriminate]. injection H as <-. exact (proj2 (base_call sl i la IW TI LA) D).
  - intros v E. destruct (A6 v E) as (sl & i & IW & TI & [(la & h & LA & H & _)|(ax & h & AX & H & ->)]); [discriminate|]. unfold if_lat in H.
    destruct (base_axial (st sg)) eqn:D; [|discriminate]. injection H as <-. exact (qz_call sl i ax IW TI AX D).
Qed.

Lemma made_ok : make_springs (st sg) (layers ta fp) = Ok M /\ (forall n, nan_free n M = true) /\ usable (springs_of M).
Proof using SS SO F SG ST FC.
  destruct shaft_good as (A1 & A2 & A3 & A4 & A5 & A6). destruct no_springs as (N1 & N2 & N3 & N4 & _).
  assert (B1 : forall e j, exists c, curve_of (m_py M e j) = Some c /\ usable_py c) by (intros; apply curve_of_good; eauto).
  assert (B2 : forall e j, exists c, columns_of (m_mt M e j) = Some c /\ usable_mt c) by (intros; apply columns_of_good; eauto).
  assert (B3 : forall e j, exists c, curve_of (m_tz M e j) = Some c /\ usable_tz c) by (intros; apply curve_of_good; eauto).
  assert (B4 : exists c, curve_of (m_hb M) = Some c /\ usable_base c) by (intros; apply curve_of_good; eauto).
  assert (B5 : exists c, curve_of (m_mb M) = Some c /\ usable_base c) by (intros; apply curve_of_good; eauto).
  assert (B6 : exists c, curve_of (m_qz M) = Some c /\ usable_qz c) by (intros; apply curve_of_good; eauto).
  split; [|split].
  - unfold make_springs. rewrite no_error by exact calls_good. reflexivity.
  - intros n. unfold nan_free. destruct B4 as (c4 & -> & _). destruct B5 as (c5 & -> & _). destruct B6 as (c6 & -> & _). cbn [known]. rewrite !andb_true_r.
    apply forallb_forall. intros e _. apply forallb_forall. intros j _. destruct (B1 e j) as (c1 & -> & _). destruct (B2 e j) as (c2 & -> & _). destruct (B3 e j) as (c3 & -> & _). reflexivity.
  - unfold usable, springs_of. cbn [g_py g_tz g_mt g_hb g_mb g_qz]. split; [|split; [|split; [|split; [|split]]]].
    + intros e j. destruct (B1 e j) as (c1 & -> & U). exact U.
    + intros e j. destruct (B3 e j) as (c1 & -> & U). exact U.
    + intros e j. destruct (B2 e j) as (c1 & -> & U). exact U.
    + destruct B4 as (c4 & -> & U). exact U.
    + destruct B5 as (c4 & -> & U). exact U.
    + destruct B6 as (c4 & -> & U). exact U.
Qed.

(** ** Each element and the tip have the springs of their own layer *)
Notation G := (springs_of M).
Lemma layer_unique : forall y y', In y ys -> In y' ys -> slayer_of rnd ch ta fp y = slayer_of rnd ch ta fp y' -> y = y'.
Proof using F.
  intros y y' I I' E. pose proof (layers_nodup sections p b (layers ta fp) sd (st sg) x c m F) as ND. revert ND I I' E. generalize (slayer_of rnd ch ta fp) as f. clear.
  intros f. induction ys as [|h t IH]; intros ND I I' E; [contradiction|]. cbn [map] in ND. apply NoDup_cons_iff in ND. destruct ND as [N ND].
  destruct I as [->|I], I' as [->|I']; auto; exfalso; apply N; [rewrite E|rewrite <- E]; apply in_map; auto.
Qed.

Lemma holds_points : forall yy pp, spring_curve 15 yy pp -> length (points rnd yy pp) = 15%nat /\ forall i, (i < 15)%nat -> xy (points rnd yy pp) i = (rnd (nth i yy 0%R), rnd (nth i pp 0%R)).
Proof using ST. intros yy pp (L1 & L2 & _). split; [rewrite points_length; [exact L1|congruence]|]. intros i _. apply nth_points; [exact ST|congruence]. Qed.
Lemma holds_turned : forall zz tt', centred zz tt' -> length (turned (points rnd zz tt')) = 15%nat /\
  forall i, (i < 15)%nat -> fst (xy (turned (points rnd zz tt')) i) == - rnd (nth i zz 0%R) /\ snd (xy (turned (points rnd zz tt')) i) == - rnd (nth i tt' 0%R).
Proof using ST.
  intros zz tt' (L1 & L2 & _). split; [unfold turned; rewrite map_length, points_length; [exact L1|congruence]|]. intros i _. rewrite nth_turned. rewrite (nth_points rnd ST) by congruence. cbn [fst snd]. split; ring.
Qed.
Lemma holds_moment : forall T M0, length T = 15%nat -> length M0 = 15%nat -> length (moment_points rnd T M0) = 15%nat /\
  forall k i, (k < 15)%nat -> (i < 15)%nat -> xy (nth k (moment_points rnd T M0) []) i = (rnd (nth k (nth i T []) 0%R), rnd (nth k (nth i M0 []) 0%R)).
Proof using ST.
  intros T M0 L1 L2. split; [unfold moment_points; rewrite map_length, combine_length, !columns_length; reflexivity|].
  intros k i Hk Hi. rewrite nth_moment_points by auto. rewrite (nth_points rnd ST) by (rewrite !map_length; congruence).
  assert (X : forall R0 : list (list R), length R0 = 15%nat -> nth i (map (fun r => nth k r 0%R) R0) 0%R = nth k (nth i R0 []) 0%R).
  { intros R0 L0. rewrite (nth_indep _ 0%R (nth k [] 0%R)) by (rewrite map_length; lia). exact (map_nth (fun r => nth k r 0%R) R0 [] i). }
  rewrite !X by auto. reflexivity.
Qed.
Lemma none_at_all : no_spring no_points. Proof using. split; [reflexivity|exact in_no_points]. Qed.
Lemma none_columns : forall col, In col (repeat no_points 15) -> no_spring col. Proof using. intros col I. apply repeat_spec in I. subst col. exact none_at_all. Qed.

Lemma element_springs : forall i j, (i < length (elements_of m))%nat -> (j < 2)%nat -> own_springs rnd ch o sections gr wt b ys m G i j.
Proof using SS SO F SG ST FC.
  intros i j Hi Hj. unfold own_springs. cbv zeta. set (e := nth i (elements_of m) (0, 0)). cbn [springs_of g_py g_mt g_tz].
  destruct (shaft_owner sections p b (layers ta fp) sd (st sg) x c m F i j Hi Hj) as [(A & -> & -> & ->)|(A & sl & U & IW & P1 & P2 & P3)].
  { left. split; [exact A|]. split; [exact none_at_all|]. split; [exact none_columns|exact none_at_all]. }
  right. split; [exact A|]. destruct (work_layer sl i IW) as (y & IY & ->). destruct (called_shaft y i j IY IW) as (s & IS & NB & WI & BZ & AP & _).
  exists y, s. split.
  { intros y'. split.
    - intros (I' & B1 & B2). apply layer_unique; auto. apply U. split; [apply in_map; exact I'|]. auto.
    - intros ->. split; [exact IY|]. destruct (proj2 (U _) eq_refl) as (_ & B1 & B2). auto. }
  split; [exact NB|]. rewrite P1, P2, P3. clear P1 P2 P3. set (a := shaft_args (st sg) (y_layer y) i j) in *. cbn [s_layer slayer_of s_lat s_ax]. fold a.
  assert (EZ : end_of (st sg) i j = if Nat.eqb j 0 then fst e else snd e) by reflexivity.
  pose proof AP as (_ & _ & _ & _ & ED & _).
  split; [|split].
  - destruct (y_lat y) as [md|] eqn:EM; cbn [option_map given]; [|exact none_at_all]. cbn [has_py lateral_of]. change (distributed_lateral (st sg)) with (on_py o). rewrite (andb_comm (nth 0 (spring_signature md) false)).
    destruct (on_py o && nth 0 (spring_signature md) false) eqn:D; [|exact none_at_all]. apply andb_prop in D. destruct D as [D1 D2].
    destruct (py_value y i j md IY IW EM D1) as (s' & yy & pp & _ & AP' & E & FU & V & _ & C). fold a in AP', E, FU, V. rewrite V. cbn [curve_of or_else].
    destruct AP' as (_ & _ & _ & _ & ED' & _). assert (W0 : s_width s' = s_width s) by congruence. rewrite W0, EZ in E. exists (c_py ch md a). split; [exact FU|]. exists yy, pp. split; [exact E|]. apply holds_points. exact C.
  - destruct (y_lat y) as [md|] eqn:EM; cbn [option_map given]; [|exact none_columns]. cbn [has_mt lateral_of]. change (distributed_moment (st sg)) with (on_mt o). rewrite (andb_comm (nth 2 (spring_signature md) false)).
    destruct (on_mt o && nth 2 (spring_signature md) false) eqn:D; [|exact none_columns]. apply andb_prop in D. destruct D as [D1 D2].
    destruct (mt_value y i j md IY IW EM D2 D1) as (s' & T & M0 & _ & AP' & E & FU & V & _ & L1 & L2). fold a in AP', E, FU, V. rewrite V. cbn [columns_of or_else].
    destruct AP' as (_ & _ & _ & _ & ED' & _). assert (W0 : s_width s' = s_width s) by congruence. rewrite W0, EZ in E. exists (fst (c_mt ch md a)), (snd (c_mt ch md a)). split; [exact FU|]. exists T, M0. split; [exact E|]. apply holds_moment; auto.
  - destruct (y_ax y) as [md|] eqn:EM; cbn [option_map given]; [|exact none_at_all]. change (distributed_axial (st sg)) with (on_tz o). rewrite andb_true_r.
    destruct (on_tz o) eqn:D; [|exact none_at_all].
    destruct (tz_value y i j md IY IW EM) as (s' & zz & tt' & _ & _ & E & V & _ & C). fold a in E, V. rewrite V. cbn [curve_of or_else].
    exists a. split; [rewrite EZ in AP; exact AP|]. exists zz, tt'. split; [exact E|]. apply holds_turned. exact C.
Qed.

Lemma tip_springs : own_base rnd ch o sections gr wt b ta fp ys m G.
Proof using SS SO F SG ST FC.
  unfold own_base. destruct (base_owner sections p b (layers ta fp) sd (st sg) x c m F) as (EN & sl & U & IW & TI & P1 & P2 & P3).
  destruct (work_layer sl _ IW) as (y & IY & ->). cbn [elems setting_of] in EN, U, IW. destruct (called_base y _ IY IW TI) as (s & IS & NB & WI & SI & ED & _).
  exists y, s. split.
  { intros y'. split.
    - intros (I' & B1 & B2). apply layer_unique; auto. apply U. split; [apply in_map; exact I'|]. auto.
    - intros ->. split; [exact IY|]. destruct (proj2 (U _) eq_refl) as (_ & B1 & B2). auto. }
  split; [rewrite EN; exact NB|]. cbv zeta. cbn [springs_of g_hb g_mb g_qz]. rewrite P1, P2, P3. clear P1 P2 P3. cbn [s_layer slayer_of s_lat s_ax elems setting_of]. set (n := (length (elements_of m) - 1)%nat) in *. set (a := base_args (st sg) (y_layer y) n) in *.
  split; [|split].
  - destruct (y_lat y) as [md|] eqn:EM; cbn [option_map given]; [|exact none_at_all]. cbn [has_hb lateral_of]. change (base_shear (st sg)) with (on_hb o). rewrite (andb_comm (nth 1 (spring_signature md) false)).
    destruct (on_hb o && nth 1 (spring_signature md) false) eqn:D; [|exact none_at_all].
    destruct (base_value y n md IY IW TI EM) as (s' & _ & ED' & HB & _). fold a in ED', HB. destruct (HB D) as (yy & pp & E & V & _ & C). rewrite V. cbn [curve_of or_else].
    assert (W0 : s_width s' = s_width s) by congruence. rewrite W0 in E. exists yy, pp. split; [exact E|]. apply holds_points. exact C.
  - destruct (y_lat y) as [md|] eqn:EM; cbn [option_map given]; [|exact none_at_all]. cbn [has_mb lateral_of]. change (base_moment (st sg)) with (on_mb o). rewrite (andb_comm (nth 3 (spring_signature md) false)).
    destruct (on_mb o && nth 3 (spring_signature md) false) eqn:D; [|exact none_at_all].
    destruct (base_value y n md IY IW TI EM) as (s' & _ & ED' & _ & MB). fold a in ED', MB. destruct (MB D) as (yy & pp & E & V & _ & C). rewrite V. cbn [curve_of or_else].
    assert (W0 : s_width s' = s_width s) by congruence. rewrite W0 in E. exists yy, pp. split; [exact E|]. apply holds_points. exact C.
  - destruct (y_ax y) as [md|] eqn:EM; cbn [option_map given]; [|exact none_at_all]. change (base_axial (st sg)) with (on_qz o). rewrite andb_true_r.
    destruct (on_qz o) eqn:D; [|exact none_at_all].
    destruct (qz_value y n md IY IW TI EM D) as (s' & zz & tt' & _ & _ & _ & E & V & _ & C). fold a in E, V. rewrite V. cbn [curve_of or_else].
    exists a. split; [exact SI|]. split; [reflexivity|]. split; [reflexivity|]. split; [exact ED|]. exists zz, tt'. split; [exact E|]. apply holds_turned. exact C.
Qed.
End Called.

Lemma constructed : exists sg M, construct rnd ch sort o sections gr wt ys x c = Ok (Some (mkBuilt p m (st sg) M)) /\ stress ls gr wt (elements_of m) = Ok sg /\
  (forall n, nan_free n M = true) /\ usable (springs_of M) /\
  (forall i j, (i < length (elements_of m))%nat -> (j < 2)%nat -> own_springs rnd ch o sections gr wt b ys m (springs_of M) i j) /\
  exists s, last_section p = Ok s /\ own_base rnd ch o sections gr wt b (s_area s) (s_footprint s) ys m (springs_of M).
Proof using SS SO ST FC.
  pose proof SS as [[S1 S2 S3 S4 S5 S6 S7 S8 S9] FI (d & PD & ES & SB) TI WE WA OU SL].
  assert (ND : d <> []) by (intros ->; cbn in SB; Lqa.lra).
  assert (LS : exists s, last_section p = Ok s). { unfold pile_bottom in S4. destruct (last_section p) as [s|]; [eauto|discriminate]. }
  destruct LS as (s & LS). assert (TA : tip_area p = Ok (s_area s)) by (unfold tip_area; rewrite LS; reflexivity). assert (FP : tip_footprint p = Ok (s_footprint s)) by (unfold tip_footprint; rewrite LS; reflexivity).
  destruct (site_fits (s_area s) (s_footprint s)) as (sd & sg & F & SG). destruct (made_ok (s_area s) (s_footprint s) sd sg F SG) as (MS & NF & US).
  exists sg, (create_springs (st sg) (layers (s_area s) (s_footprint s))). split; [|split; [exact SG|split; [exact NF|split; [exact US|split; [exact (element_springs _ _ sd sg F SG)|exists s; split; [exact LS|exact (tip_springs _ _ sd sg F SG)]]]]]].
  unfold construct. rewrite S2. cbn [bind]. rewrite (stack_profile gr ls d ND PD ES). cbn [bind]. unfold pile_length. rewrite S3, S4. cbn [bind].
  assert (AC : accept_model (t - b) c b (Some (profile_bottom gr ls)) = Ok tt).
  { apply accept_iff. split; [exact S5|]. split; [exact FI|]. intros b' E. injection E as <-. rewrite (stack_depth gr ls d PD ES). exact SB. }
  rewrite AC. cbn [bind]. rewrite S6, SG. cbn [bind]. rewrite TA, FP. cbn [bind]. rewrite MS. reflexivity.
Qed.
End Site.
