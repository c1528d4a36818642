(** Lemmas for the analysis of a pile in soil. *)
From Coq Require Import List Bool Arith ZArith QArith Qabs Qminmax Reals Qreals Permutation Lia Lqa Lra.
From Verif Require Import Base LinAlg BCModel PileModel PileSpec PileProofs PileProps MeshModel MeshSpec ConicSpec PisaModel StressModel StressSpec StressProofs StressProps ShaftProofs GridProofs BeamModel SolveModel SpringModel WinklerModel
  CreateModel CreateProofs CreateProps WholeModel WholeSpec WholeProofs AxialModel AxialSpec AxialProofs AxialProps LateralModel LateralSpec LateralProofs LateralProps MomentProofs StartProofs
  CapacityModel CapacitySpec CapacityProofs FullModel FullSpec.
Import ListNotations.
Local Open Scope R_scope.

(** ** Axial curves *)
(** 15 points in order, the middle one at the origin *)
Definition centred (z t : list R) : Prop := length z = 15%nat /\ length t = 15%nat /\ nth 7 z 0 = 0 /\ nth 7 t 0 = 0 /\ ConicSpec.nondecreasing z.

Lemma nth_scaled : forall c l i, nth i (scale c l) 0 = nth i l 0 * c.
Proof. intros c l i. unfold scale. replace 0 with (0 * c) at 1 by ring. apply (map_nth (fun v => v * c)). Qed.
Lemma centred_scale : forall c d z t, 0 <= c -> centred z t -> centred (scale c z) (scale d t).
Proof.
  intros c d z t C (A & B & E & F & G). unfold centred. rewrite !scale_length, !nth_scaled, E, F. do 2 (split; [auto|]). do 2 (split; [ring|]). apply scale_nd; auto.
Qed.
Lemma scale_zero : forall l v, In v (scale 0 l) -> v = 0.
Proof. intros l v I. unfold scale in I. apply in_map_iff in I. destruct I as (w & <- & _). ring. Qed.

Lemma clay_centred : forall u idx residual tf, (forall i, 0 <= u i < 1) -> argsort (clay_backbone_z u 15) idx ->
  centred (clay_backbone_z u 15) (clay_backbone_t residual tf 15 idx) /\ nth 8 (clay_backbone_z u 15) 0 = 0.0016 /\ nth 6 (clay_backbone_z u 15) 0 = -0.0016.
Proof.
  intros u idx residual tf U A. unfold centred. rewrite (clay_z_length u 15), (clay_t_length u residual tf 15 idx U A), (clay_z_eq u 15 U), (clay_t_eq u residual tf 15 idx U A).
  rewrite !app_nth1 by (cbn; lia). split; [|split; cbn; lra]. split; [reflexivity|]. split; [reflexivity|]. split; [cbn; lra|]. split; [cbn; lra|]. rewrite <- (clay_z_eq u 15 U). apply clay_z_sorted.
Qed.
Lemma sand_centred : forall u idx tf, (forall i, 0 <= u i < 1) -> argsort (sand_backbone_z u 15) idx ->
  centred (sand_backbone_z u 15) (sand_backbone_t tf 15 idx) /\ nth 8 (sand_backbone_z u 15) 0 = 0.0254 /\ nth 6 (sand_backbone_z u 15) 0 = -0.0254.
Proof.
  intros u idx tf U A. unfold centred. rewrite (sand_z_length u 15), (sand_t_length u tf 15 idx U A), (sand_z_eq u 15 U), (sand_t_eq u tf 15 idx U A).
  rewrite !app_nth1 by (cbn; lia). split; [|split; cbn; lra]. split; [reflexivity|]. split; [reflexivity|]. split; [cbn; lra|]. split; [cbn; lra|]. rewrite <- (sand_z_eq u 15 U). apply sand_z_sorted.
Qed.
Lemma tip_centred : forall u idx, (forall i, 0 <= u i < 1) -> argsort (tip_backbone_z u 15) idx ->
  centred (tip_backbone_z u 15) (tip_backbone_Q 15 idx) /\ nth 8 (tip_backbone_z u 15) 0 = 0.002 /\ nth 6 (tip_backbone_z u 15) 0 = -0.002.
Proof.
  intros u idx U A. unfold centred. rewrite (tip_z_length u 15), (tip_Q_eq u 15 idx U A), (tip_z_eq u 15 U).
  rewrite !app_nth1 by (cbn; lia). split; [|split; cbn; lra]. split; [reflexivity|]. split; [rewrite app_length, repeat_length; reflexivity|]. split; [cbn; lra|]. split; [cbn; lra|]. rewrite <- (tip_z_eq u 15 U). apply tip_z_sorted.
Qed.

Lemma plug_ok : forall p tm ci co, 0 < co -> 0 < ci -> exists total tens, plug_factors p tm ci co = Ok (total, tens).
Proof. intros p tm ci co C I. destruct p; cbn [plug_factors]; unfold PisaModel.nonzero; try (destruct (Req_EM_T _ 0); [lra|]); eauto. Qed.

Definition starts (z : list R) : Prop := (forall v, In v z -> v = 0) \/ (0 < nth 8 z 0 /\ nth 6 z 0 < 0).
Lemma starts_scale : forall c z, 0 <= c -> 0 < nth 8 z 0 -> nth 6 z 0 < 0 -> starts (scale c z).
Proof. intros c z [C|<-] H H6; [right|left; apply scale_zero]. rewrite !nth_scaled. split; [apply Rmult_lt_0_compat; auto|]. pose proof (Rmult_lt_0_compat (- nth 6 z 0) c ltac:(lra) C). lra. Qed.

Lemma tz_start : forall d m a sig D co ci, fair d -> CapacitySpec.admissible m -> a_sig a = Some sig -> a_D a = Some D -> a_perim a = Some co -> a_perim_in a = Some ci ->
  (0 < D)%Q -> (0 < co)%Q -> (0 < ci)%Q -> (0 < a_height a)%Q -> exists z t, tz_curve d m a = Ok (Some (z, t)) /\ centred z t /\ starts z.
Proof.
  intros d m a sig D co ci FD A ES ED EC EI D0 C0 I0 H0. unfold tz_curve. rewrite ES, ED, EC, EI.
  destruct (FD m a) as [FU FA]. destruct (d m a) as [u idx]. cbn [fst snd] in FU, FA. apply Q2R_pos in D0, C0, I0, H0. assert (HN : Q2R (a_height a) <> 0) by lra.
  destruct m as [c|s]; cbn [CapacitySpec.admissible] in A.
  - destruct A as ((tm & zm & ET & EZ & T0 & Z0) & _). unfold clay_tz. rewrite at_depth_ok by auto. cbn [bind].
    destruct (plug_ok (ca_plug c) (ca_tension c) (Q2R ci) (Q2R co) C0 I0) as (total & tens & ->). cbn [bind]. unfold tz_api_clay. rewrite ET, EZ. cbn [times bind some_values]. eexists _, _. split; [reflexivity|].
    destruct (clay_centred u idx (ca_residual c) tens FU FA) as (CC & C8 & C6). split.
    + apply centred_scale with (c := zm) (d := total) in CC; [|auto]. unfold scale in *. destruct CC as (X1 & X2 & X3 & X4 & X5). 
      pose proof (clay_centred u idx (ca_residual c) tens FU FA) as [CD _]. 
      pose proof (centred_scale (Q2R D) (fmax_api_clay (Q2R sig) (ca_Su_top c + (ca_Su_bottom c - ca_Su_top c) * Q2R (a_depth a) / Q2R (a_height a)) 1) _ _ ltac:(lra) CD) as C1.
      pose proof (centred_scale zm tm _ _ Z0 C1) as C2. pose proof (centred_scale 1 total _ _ ltac:(lra) C2) as C3. unfold scale in C3. rewrite (map_ext (fun v => v * 1) (fun v => v)) in C3 by (intros; ring). rewrite map_id in C3. exact C3.
    + apply starts_scale; [auto| |]; rewrite nth_scaled; [rewrite C8; apply Rmult_lt_0_compat; lra|rewrite C6; pose proof (Rmult_lt_0_compat 0.0016 (Q2R D) ltac:(lra) D0); lra].
  - destruct A as ((tm & zm & ET & EZ & T0 & Z0) & _). unfold sand_tz. rewrite at_depth_ok by auto. cbn [bind].
    destruct (plug_ok (sa_plug s) (sa_tension s) (Q2R ci) (Q2R co) C0 I0) as (total & tens & ->). cbn [bind]. unfold tz_api_sand. rewrite ET, EZ. cbn [times bind some_values]. eexists _, _. split; [reflexivity|].
    destruct (sand_centred u idx tens FU FA) as (CC & C8 & C6). split.
    + pose proof (centred_scale 1 (fmax_api_sand (Q2R sig) (sa_delta_top s + (sa_delta_bottom s - sa_delta_top s) * Q2R (a_depth a) / Q2R (a_height a)) (sa_K s)) _ _ ltac:(lra) CC) as C1.
      pose proof (centred_scale zm tm _ _ Z0 C1) as C2. pose proof (centred_scale 1 total _ _ ltac:(lra) C2) as C3. unfold scale in *. rewrite !(map_ext (fun v => v * 1) (fun v => v)) in C3 by (intros; ring). rewrite !map_id in C3. exact C3.
    + apply starts_scale; [auto|rewrite C8; lra|rewrite C6; lra].
Qed.

Lemma qz_start : forall d ta fp m a sig D, fair_tip d -> (0 < match m with Clay c => ca_wm c | Sand c => sa_wm c end) -> a_sig a = Some sig -> a_D a = Some D ->
  (0 < D)%Q -> (0 < a_height a)%Q -> exists z t, qz_curve d ta fp m a = Ok (Some (z, t)) /\ centred z t /\ 0 < nth 8 z 0 /\ nth 6 z 0 < 0.
Proof.
  intros d ta fp m a sig D FD W ES ED D0 H0. unfold qz_curve. rewrite ES, ED.
  destruct (FD m a) as [FU FA]. destruct (d m a) as [u idx]. cbn [fst snd] in FU, FA. apply Q2R_pos in D0, H0. assert (HN : Q2R (a_height a) <> 0) by lra.
  destruct (tip_centred u idx FU FA) as (CC & C8 & C6).
  assert (G : forall wm q1 q2 q3, 0 < wm -> centred (scale wm (scale (Q2R D) (tip_backbone_z u 15))) (scale q3 (scale q2 (scale q1 (tip_backbone_Q 15 idx)))) /\ 0 < nth 8 (scale wm (scale (Q2R D) (tip_backbone_z u 15))) 0 /\ nth 6 (scale wm (scale (Q2R D) (tip_backbone_z u 15))) 0 < 0).
  { intros wm q1 q2 q3 W0. split.
    - pose proof (centred_scale (Q2R D) q1 _ _ ltac:(lra) CC) as C1. pose proof (centred_scale wm q2 _ _ ltac:(lra) C1) as C2. pose proof (centred_scale 1 q3 _ _ ltac:(lra) C2) as C3.
      unfold scale in *. rewrite (map_ext (fun v => v * 1) (fun v => v)) in C3 by (intros; ring). rewrite map_id in C3. exact C3.
    - rewrite !nth_scaled, C8, C6. split; [apply Rmult_lt_0_compat; [apply Rmult_lt_0_compat; lra|auto]|]. pose proof (Rmult_lt_0_compat (0.002 * Q2R D) wm ltac:(apply Rmult_lt_0_compat; lra) W0). lra. }
  destruct m as [c|s].
  - unfold clay_Qz. rewrite at_depth_ok by auto. cbn [bind]. unfold qz_api_clay. cbn [some_values]. eexists _, _. split; [reflexivity|]. apply G; auto.
  - unfold sand_Qz. rewrite at_depth_ok by auto. cbn [bind]. unfold qz_api_sand. cbn [some_values]. eexists _, _. split; [reflexivity|]. apply G; auto.
Qed.

(** ** Storing *)
Section Storing.
Variable rnd : R -> Q.
Hypothesis ST : storage rnd.

Lemma rnd_le : forall x y, x <= y -> (rnd x <= rnd y)%Q. Proof using ST. apply ST. Qed.
Lemma rnd_0 : rnd 0 = 0%Q. Proof using ST. apply ST. Qed.
Lemma rnd_pos : forall x, 0 < x -> (0 < rnd x)%Q. Proof using ST. apply ST. Qed.
Lemma rnd_neg : forall x, x < 0 -> (rnd x < 0)%Q. Proof using ST. apply ST. Qed.
Lemma rnd_nn : forall x, 0 <= x -> (0 <= rnd x)%Q. Proof using ST. intros x H. rewrite <- rnd_0. apply rnd_le; auto. Qed.

Lemma nth_points : forall y p i, length y = length p -> nth i (points rnd y p) (0, 0)%Q = (rnd (nth i y 0), rnd (nth i p 0)).
Proof using ST.
  intros y p i L. unfold points. replace (0, 0)%Q with (rnd 0, rnd 0) by (rewrite rnd_0; reflexivity). rewrite combine_nth by (rewrite !map_length; auto). rewrite !map_nth. reflexivity.
Qed.
Lemma in_points : forall y p q, In q (points rnd y p) -> exists a b, In a y /\ In b p /\ q = (rnd a, rnd b).
Proof using.
  intros y p [a b] I. unfold points in I. pose proof (in_combine_l _ _ _ _ I) as A. pose proof (in_combine_r _ _ _ _ I) as B.
  apply in_map_iff in A, B. destruct A as (a' & <- & A). destruct B as (b' & <- & B). eauto 6.
Qed.
Lemma points_length : forall y p, length y = length p -> length (points rnd y p) = length y.
Proof using. intros y p L. unfold points. rewrite combine_length, !map_length. lia. Qed.

Lemma lateral_points : forall y p, spring_curve 15 y p -> lateral_shape (points rnd y p).
Proof using ST.
  intros y p (LY & LP & Y0 & P0 & N & P). unfold lateral_shape. rewrite !nth_points by congruence. rewrite points_length, Y0, P0 by congruence. cbn [fst snd]. rewrite rnd_0.
  split; [auto|]. split; [reflexivity|]. split; [reflexivity|]. split.
  - intros i j H. rewrite !nth_points by congruence. cbn [fst]. apply rnd_le, N; lia.
  - intros q I. apply in_points in I. destruct I as (a & b & _ & B & ->). apply rnd_nn, P, B.
Qed.

Lemma all_some_map : forall A (l : list A), all_some (map Some l) = Some l.
Proof using. intros A. induction l as [|a t IH]; [reflexivity|]. cbn [map all_some]. rewrite IH. reflexivity. Qed.

Lemma store_curve_ok : forall y p, spring_curve 15 y p -> store_curve rnd (Ok (y, map Some p)) = Ok (Some [points rnd y p]).
Proof using. intros y p (LY & LP & _). unfold store_curve. cbn [bind]. rewrite map_length, LY, LP. cbn [Nat.eqb andb]. rewrite all_some_map. reflexivity. Qed.

Lemma py_points : forall y p, spring_curve 15 y p -> moves y -> usable_py (points rnd y p).
Proof using ST.
  intros y p C H. split; [apply lateral_points; auto|]. destruct C as (LY & LP & _). destruct H as [H|H]; [left|right].
  - intros q I. apply in_points in I. destruct I as (a & b & A & _ & ->). cbn [fst]. rewrite (H a A), rnd_0. reflexivity.
  - rewrite nth_points by congruence. apply rnd_pos; auto.
Qed.
Lemma base_points : forall y p, spring_curve 15 y p -> (forall v, In v p -> v = 0) \/ 0 < nth 1 y 0 -> usable_base (points rnd y p).
Proof using ST.
  intros y p C H. split; [apply lateral_points; auto|]. destruct C as (LY & LP & _). destruct H as [H|H]; [left|right].
  - intros q I. apply in_points in I. destruct I as (a & b & _ & B & ->). cbn [snd]. rewrite (H b B), rnd_0. reflexivity.
  - rewrite nth_points by congruence. apply rnd_pos; auto.
Qed.

Lemma nth_turned : forall c i, nth i (turned c) (0, 0)%Q = (fst (nth i c (0, 0)) * (-1), snd (nth i c (0, 0)) * (-1))%Q.
Proof using. intros c i. unfold turned. exact (map_nth (fun q : Q * Q => (fst q * (-1), snd q * (-1))%Q) c (0, 0)%Q i). Qed.

Lemma axial_points : forall z t, centred z t -> axial_shape (turned (points rnd z t)).
Proof using ST.
  intros z t (LZ & LT & Z7 & T7 & N). unfold axial_shape. rewrite !nth_turned, !nth_points by congruence. cbn [fst snd]. rewrite Z7, T7, rnd_0.
  split; [unfold turned; rewrite map_length, points_length; congruence|]. split; [reflexivity|]. split; [reflexivity|].
  intros i j H. rewrite !nth_turned, !nth_points by congruence. cbn [fst]. pose proof (rnd_le _ _ (N i j ltac:(lia) ltac:(lia))). Lqa.lra.
Qed.
Lemma store_axial_ok : forall z t, centred z t -> store_axial rnd (Ok (Some (z, t))) = Ok (Some [turned (points rnd z t)]).
Proof using. intros z t (LZ & LT & _). unfold store_axial. cbn [bind]. rewrite LZ, LT. reflexivity. Qed.
Lemma tz_points : forall z t, centred z t -> starts z -> usable_tz (turned (points rnd z t)).
Proof using ST.
  intros z t C H. split; [apply axial_points; auto|]. destruct C as (LZ & LT & _). destruct H as [H|H]; [left|right].
  - intros q I. unfold turned in I. apply in_map_iff in I. destruct I as (q' & <- & I). apply in_points in I. destruct I as (a & b & A & _ & ->). cbn [fst]. rewrite (H a A), rnd_0. reflexivity.
  - rewrite nth_turned, nth_points by congruence. cbn [fst]. rewrite nth_turned, nth_points by congruence. cbn [fst]. destruct H as [H H6]. apply rnd_pos in H. apply rnd_neg in H6. split; Lqa.lra.
Qed.
Lemma qz_points : forall z t, centred z t -> 0 < nth 8 z 0 /\ nth 6 z 0 < 0 -> usable_qz (turned (points rnd z t)).
Proof using ST.
  intros z t C H. split; [apply axial_points; auto|]. destruct C as (LZ & LT & _). right. rewrite !nth_turned, !nth_points by congruence. cbn [fst]. destruct H as [H H6]. apply rnd_pos in H. apply rnd_neg in H6. split; Lqa.lra.
Qed.

Lemma columns_length : forall A (d : A) rows, length (columns d rows) = 15%nat.
Proof using. intros. unfold columns. rewrite map_length, seq_length. reflexivity. Qed.
Lemma nth_columns : forall A (d : A) rows k, (k < 15)%nat -> nth k (columns d rows) [] = map (fun r => nth k r d) rows.
Proof using.
  intros A d rows k H. unfold columns. rewrite (nth_indep _ [] (map (fun r => nth 0 r d) rows)) by (rewrite map_length, seq_length; auto).
  rewrite (map_nth (fun k => map (fun r => nth k r d) rows)), seq_nth by auto. reflexivity.
Qed.

Definition moment_points (T M : list (list R)) : list SpringModel.curve := map (fun tm => points rnd (fst tm) (snd tm)) (combine (columns 0 T) (columns 0 M)).

Lemma nth_moment_points : forall T M k, (k < 15)%nat -> nth k (moment_points T M) [] = points rnd (map (fun r => nth k r 0) T) (map (fun r => nth k r 0) M).
Proof using.
  intros T M k H. unfold moment_points. change (@nil (Q * Q)) with (points rnd (fst (@nil R, @nil R)) (snd (@nil R, @nil R))).
  rewrite (map_nth (fun tm => points rnd (fst tm) (snd tm))). rewrite combine_nth by (rewrite !columns_length; auto). cbn [fst snd]. rewrite !nth_columns by auto. reflexivity.
Qed.

Lemma store_curves_ok : forall T M, length T = 15%nat -> length M = 15%nat -> (forall i, (i < 15)%nat -> spring_curve 15 (nth i T []) (nth i M [])) ->
  store_curves rnd (Ok (T, map (map Some) M)) = Ok (Some (moment_points T M)).
Proof using.
  intros T M LT LM C. unfold store_curves. cbn [bind]. rewrite map_length, LT, LM. cbn [Nat.eqb andb].
  assert (AT : forallb (fun r => Nat.eqb (length r) 15) T = true).
  { apply forallb_forall. intros r I. apply Nat.eqb_eq. apply (In_nth _ _ []) in I. destruct I as (i & Hi & <-). apply (C i). lia. }
  assert (AM : forallb (fun r : list (option R) => Nat.eqb (length r) 15) (map (map Some) M) = true).
  { apply forallb_forall. intros r I. apply Nat.eqb_eq. apply in_map_iff in I. destruct I as (r' & <- & I). rewrite map_length. apply (In_nth _ _ []) in I. destruct I as (i & Hi & <-). apply (C i). lia. }
  rewrite AT, AM. cbn [andb]. assert (E : all_some (map all_some (map (map Some) M)) = Some M).
  { rewrite map_map. rewrite (map_ext _ Some) by (intros; apply all_some_map). apply all_some_map. }
  rewrite E. reflexivity.
Qed.

Lemma mt_points : forall T M, length T = 15%nat -> length M = 15%nat -> (forall i, (i < 15)%nat -> spring_curve 15 (nth i T []) (nth i M [])) -> rows_move T -> usable_mt (moment_points T M).
Proof using ST.
  intros T M LT LM C RM.
  assert (LL : length (moment_points T M) = 15%nat) by (unfold moment_points; rewrite map_length, combine_length, !columns_length; reflexivity).
  assert (RT : forall r, In r T -> nth 0 r 0 = 0 /\ forall i j, (i <= j < 15)%nat -> nth i r 0 <= nth j r 0).
  { intros r I. apply (In_nth _ _ []) in I. destruct I as (i & Hi & <-). destruct (C i ltac:(lia)) as (L1 & _ & Z & _ & N & _). split; [exact Z|]. intros a b H. apply N; lia. }
  assert (RMo : forall r, In r M -> nth 0 r 0 = 0 /\ forall i, 0 <= nth i r 0).
  { intros r I. apply (In_nth _ _ []) in I. destruct I as (i & Hi & <-). destruct (C i ltac:(lia)) as (_ & L2 & _ & Z & _ & P). split; [exact Z|]. intros a.
    destruct (le_lt_dec 15 a) as [G|G]; [rewrite nth_overflow by lia; lra|]. apply P, nth_In. lia. }
  assert (CI : forall k q, (k < 15)%nat -> In q (nth k (moment_points T M) []) -> exists r r', In r T /\ In r' M /\ q = (rnd (nth k r 0), rnd (nth k r' 0))).
  { intros k q H I. rewrite nth_moment_points in I by auto. apply in_points in I. destruct I as (a & b & A & B & ->). apply in_map_iff in A, B. destruct A as (r & <- & A). destruct B as (r' & <- & B). eauto 6. }
  assert (CN : forall c, In c (moment_points T M) -> exists k, (k < 15)%nat /\ c = nth k (moment_points T M) []).
  { intros c I. apply (In_nth _ _ []) in I. destruct I as (k & Hk & <-). exists k. split; [rewrite <- LL; exact Hk|auto]. }
  unfold usable_mt. split; [exact LL|]. split; [|split; [|split]].
  - intros c I. destruct (CN c I) as (k & Hk & ->). split.
    + rewrite nth_moment_points by auto. rewrite points_length, map_length; auto. rewrite !map_length. congruence.
    + intros q J. destruct (CI k q Hk J) as (r & r' & A & B & ->). cbn [fst snd]. destruct (RT r A) as [Z N]. destruct (RMo r' B) as [_ P]. split; [|apply rnd_nn; auto].
      apply rnd_nn. pose proof (N 0%nat k ltac:(lia)). lra.
  - intros i j k H. rewrite !nth_moment_points by lia. destruct (le_lt_dec 15 k) as [G|G].
    + rewrite !nth_overflow by (unfold points; rewrite combine_length, !map_length; lia). apply Qle_refl.
    + rewrite !nth_points by (rewrite !map_length; congruence). cbn [fst]. apply rnd_le. rewrite !(nth_indep (map _ T) 0 (nth i [] 0)) by (rewrite map_length; lia).
      assert (EN : forall n, nth k (map (fun r : list R => nth n r 0) T) (nth i [] 0) = nth n (nth k T []) 0).
      { intros n. rewrite (nth_indep _ (nth i [] 0) (nth n [] 0)) by (rewrite map_length; lia). apply (map_nth (fun r : list R => nth n r 0)). }
      rewrite !EN. apply RT; [apply nth_In; lia|lia].
  - intros q J. destruct (CI 0%nat q ltac:(lia) J) as (r & r' & A & B & ->). cbn [fst snd]. rewrite (proj1 (RT r A)), (proj1 (RMo r' B)), rnd_0. split; reflexivity.
  - destruct RM as [H|H]; [left|right].
    + intros c q I J. destruct (CN c I) as (k & Hk & ->). destruct (CI k q Hk J) as (r & r' & A & B & ->). cbn [fst]. destruct (le_lt_dec (length r) k) as [G|G].
      * rewrite nth_overflow by auto. rewrite rnd_0. reflexivity.
      * rewrite (H r A (nth k r 0)) by (apply nth_In; auto). rewrite rnd_0. reflexivity.
    + intros q J. destruct (CI 1%nat q ltac:(lia) J) as (r & r' & A & B & ->). cbn [fst]. apply rnd_pos, H, A.
Qed.
End Storing.
