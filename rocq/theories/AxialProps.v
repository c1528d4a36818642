(** Axial springs: C48 (t-z curves), C49 (q-z curves), C50 (unit friction and end bearing), C51 (the limits and the plugging options of the axial models). *)
From Coq Require Import List Reals Lra Lia Psatz Permutation Sorted Arith.
From Verif Require Import Base ConicModel ConicSpec ConicProofs PisaModel PisaProofs ApiSandModel ApiClayModel ApiClayProofs ReeseProofs AxialModel AxialSpec AxialProofs KraftProofs.
Import ListNotations.
Local Open Scope R_scope.

Theorem C48_clay_backbone : forall u residual tf n idx, (forall i, 0 <= u i < 1) -> argsort (clay_backbone_z u n) idx ->
  let z := clay_backbone_z u n in let t := clay_backbone_t residual tf n idx in
  length z = Nat.max 15 n /\ length t = length z /\ nondecreasing z /\ (forall v, In v z -> -0.03 <= v <= 0.03) /\
  (forall p, In p api_clay_points -> has_point z t p /\ has_point z t (- fst p, - tf * snd p)) /\
  (forall p, has_point z t p -> -0.02 < fst p < 0.02 -> exists q, In q api_clay_points /\ (p = q \/ p = (- fst q, - tf * snd q))) /\
  (forall p, has_point z t p -> (0.02 <= fst p -> snd p = residual) /\ (fst p <= -0.02 -> snd p = - tf * residual)).
Proof.
  intros u residual tf n idx HU HA z t. unfold z, t. pose proof (clay_rest_range u n HU) as RR.
  assert (AP : forall q, In q api_clay_points -> 0 <= fst q <= 0.01).
  { intros q I. cbn in I. repeat (destruct I as [<-|I]; [cbn; lra|]). contradiction. }
  split; [apply clay_z_length|]. split; [rewrite (clay_t_length u residual tf n idx HU HA), clay_z_length; reflexivity|]. split; [apply clay_z_sorted|].
  split. { intros v I. rewrite (clay_z_eq u n HU) in I. apply in_app_iff in I. destruct I as [I|I]; [apply clay_low_range in I; lra|apply RR in I; lra]. }
  split. { intros p I. split; (apply (proj2 (clay_point u residual tf n idx HU HA _))); left; rewrite clay_low_points; apply in_app_iff; right; apply in_app_iff; [auto|].
    destruct I as [<-|I]; [right; left; cbn; f_equal; lra|left]. apply (in_map (fun p => (- fst p, - tf * snd p)) (rev (tl api_clay_points)) p). apply in_rev. rewrite rev_involutive. exact I. }
  split.
  - intros p I B. apply (proj1 (clay_point u residual tf n idx HU HA p)) in I. destruct I as [I|[I _]]; [|apply RR in I; lra]. rewrite clay_low_points in I.
    apply in_app_iff in I. destruct I as [[<-|[<-|[]]]|I]; [cbn in B; lra|cbn in B; lra|]. apply in_app_iff in I. destruct I as [I|I]; [|exists p; auto].
    apply in_map_iff in I. destruct I as (q & <- & I). apply in_rev in I. exists q. split; [right; exact I|auto].
  - intros p I. apply (proj1 (clay_point u residual tf n idx HU HA p)) in I. destruct I as [I|[I E]]; [|apply RR in I; split; intros; [auto|lra]]. rewrite clay_low_points in I.
    apply in_app_iff in I. destruct I as [[<-|[<-|[]]]|I]; [cbn; split; intros; [lra|reflexivity]|cbn; split; intros; [lra|reflexivity]|]. apply in_app_iff in I. destruct I as [I|I].
    + apply in_map_iff in I. destruct I as (q & <- & I). apply in_rev in I. assert (J : In q api_clay_points) by (right; exact I). apply AP in J. cbn [fst snd]. split; intros; lra.
    + apply AP in I. split; intros; lra.
Qed.

Local Opaque clay_backbone_z clay_backbone_t sand_backbone_z sand_backbone_t tip_backbone_z tip_backbone_Q.
Lemma clay_fraction : forall q, In q api_clay_points -> 0 <= snd q <= 1.
Proof. intros q I. cbn in I. repeat (destruct I as [<-|I]; [cbn; lra|]). contradiction. Qed.
Lemma clay_backbone_extremes : forall u residual tf n idx, (forall i, 0 <= u i < 1) -> argsort (clay_backbone_z u n) idx -> 0 <= residual <= 1 -> 0 <= tf ->
  is_max 1 (clay_backbone_t residual tf n idx) /\ is_min (- tf) (clay_backbone_t residual tf n idx).
Proof.
  intros u residual tf n idx HU HA HR HT. pose proof (C48_clay_backbone u residual tf n idx HU HA) as BB; cbv zeta in BB; destruct BB as (L1 & L2 & _ & B0 & P1 & P2 & P3).
  assert (R0 : forall v, In v (clay_backbone_t residual tf n idx) -> - tf <= v <= 1).
  { intros v I. destruct (In_nth _ _ 0 I) as (i & Hi & E). assert (HP : has_point (clay_backbone_z u n) (clay_backbone_t residual tf n idx) (nth i (clay_backbone_z u n) 0, v)).
    { apply point_nth; [congruence|]. exists i. cbn [fst snd]. split; [lia|auto]. }
    set (zv := nth i (clay_backbone_z u n) 0) in *. destruct (P3 _ HP) as [Q1 Q2]. cbn [fst snd] in Q1, Q2.
    destruct (Rle_lt_dec 0.02 zv) as [G|G]; [rewrite (Q1 G); lra|]. destruct (Rle_lt_dec zv (-0.02)) as [G'|G']; [rewrite (Q2 G'); nra|].
    destruct (P2 _ HP ltac:(cbn [fst]; split; lra)) as (q & Iq & [Eq|Eq]).
    - assert (v = snd q) as -> by (rewrite <- Eq; reflexivity). pose proof (clay_fraction _ Iq). lra.
    - assert (v = - tf * snd q) as -> by congruence. pose proof (clay_fraction _ Iq). nra. }
  assert (IN : In (0.0100, 1.00) api_clay_points) by (cbn; tauto). destruct (P1 _ IN) as [A B]. unfold has_point in A, B. apply in_combine_r in A. apply in_combine_r in B. cbn [snd] in B.
  replace 1.00 with 1 in A by lra. replace (- tf * 1.00) with (- tf) in B by lra. split; split; auto; intros v I; apply R0 in I; lra.
Qed.

(** The clay curve: its greatest friction is the unit friction, its least one the unit friction times the tension factor. *)
Theorem C48_clay_curve : forall u sig Su D limit residual tf n idx, (forall i, 0 <= u i < 1) -> argsort (clay_backbone_z u n) idx ->
  0 < sig -> 0 < Su -> 0 < D -> 0 <= limit -> 0 <= residual <= 1 -> 0 <= tf ->
  let '(z, t) := tz_api_clay u idx sig Su D limit residual tf n in let f := clay_friction sig Su limit in
  length z = Nat.max 15 n /\ length t = length z /\ nondecreasing z /\ is_max f t /\ is_min (- tf * f) t /\
  has_point z t (0.01 * D, f) /\ has_point z t (- 0.01 * D, - tf * f) /\ has_point z t (0, 0) /\
  (forall p, has_point z t p -> (0.02 * D <= fst p -> snd p = residual * f) /\ (fst p <= - 0.02 * D -> snd p = - tf * residual * f)).
Proof.
  intros u sig Su D limit residual tf n idx HU HA Hs HS HD HL HR HT. unfold tz_api_clay. cbv zeta.
  pose proof (C48_clay_backbone u residual tf n idx HU HA) as BB; cbv zeta in BB; destruct BB as (L1 & L2 & M & B0 & P1 & P2 & P3). destruct (clay_backbone_extremes u residual tf n idx HU HA HR HT) as [X1 X2].
  rewrite fmax_clay_eq by lra. destruct (Req_EM_T Su 0); [lra|]. pose proof (friction_nonneg sig Su limit Hs HS HL) as FN. set (f := clay_friction sig Su limit) in *.
  rewrite !scale_length. split; [auto|]. split; [auto|]. split; [apply scale_nd; [lra|auto]|].
  split; [rewrite <- (Rmult_1_l f) at 1; apply scale_max; auto|]. split; [apply scale_min; auto|].
  assert (IN : In (0.0100, 1.00) api_clay_points) by (cbn; tauto). assert (IN0 : In (0, 0) api_clay_points) by (cbn; tauto). destruct (P1 _ IN) as [A B]. destruct (P1 _ IN0) as [A0 _].
  apply (point_scale _ _ D f) in A. apply (point_scale _ _ D f) in B. apply (point_scale _ _ D f) in A0. cbn [fst snd] in A, B, A0.
  split; [eapply eq_ind; [exact A|f_equal; lra]|]. split; [eapply eq_ind; [exact B|f_equal; lra]|]. split; [eapply eq_ind; [exact A0|f_equal; lra]|].
  intros p I. apply scale_point in I. destruct I as (q & I & ->). cbn [fst snd]. destruct (P3 _ I) as [Q1 Q2]. split; intros G.
  - rewrite Q1; [reflexivity|]. nra.
  - rewrite Q2; [reflexivity|]. nra.
Qed.

Theorem C48_sand_backbone : forall u tf n idx, (forall i, 0 <= u i < 1) -> argsort (sand_backbone_z u n) idx ->
  let z := sand_backbone_z u n in let t := sand_backbone_t tf n idx in
  length z = Nat.max 15 n /\ length t = length z /\ nondecreasing z /\ (forall v, In v z -> -0.04 <= v <= 0.048) /\
  has_point z t (0, 0) /\ has_point z t (0.0254, 1) /\ has_point z t (- 0.0254, - tf) /\
  (forall p, has_point z t p -> p = (0, 0) \/ (0.0254 <= fst p /\ snd p = 1) \/ (fst p <= - 0.0254 /\ snd p = - tf)).
Proof.
  intros u tf n idx HU HA z t. unfold z, t. pose proof (sand_rest_range u n HU) as RR.
  assert (HP : forall p, In p (combine sand_low (sand_tlow tf)) -> has_point (sand_backbone_z u n) (sand_backbone_t tf n idx) p).
  { intros p I. unfold has_point. rewrite (sand_z_eq u n HU), (sand_t_eq u tf n idx HU HA). rewrite combine_app by reflexivity. apply in_app_iff. auto. }
  split; [apply sand_z_length|]. split; [rewrite (sand_t_length u tf n idx HU HA), sand_z_length; reflexivity|]. split; [apply sand_z_sorted|].
  split. { intros v I. rewrite (sand_z_eq u n HU) in I. apply in_app_iff in I. destruct I as [I|I]; [apply sand_low_range in I; lra|apply RR in I; lra]. }
  rewrite sand_low_points in HP.
  split; [apply HP; apply in_app_iff; right; left; reflexivity|]. split; [apply HP; apply in_app_iff; right; right; left; reflexivity|].
  split; [apply HP; apply in_app_iff; left; apply in_map_iff; exists 0.0254; split; [f_equal; lra|repeat (first [left; reflexivity | right])]|].
  intros p I. apply (sand_point u tf n idx HU HA) in I. destruct I as [I|[I E]]; [|apply RR in I; right; left; split; [lra|auto]].
  rewrite sand_low_points in I. apply in_app_iff in I. destruct I as [I|[<-|I]]; [right; right|left; reflexivity|right; left]; apply in_map_iff in I; destruct I as (w & <- & I); cbn [fst snd]; split; auto; cbn in I;
    repeat (destruct I as [<-|I]; [lra|]); contradiction.
Qed.

(** The sand curve is ten times too soft: at the 2.54 mm of the standard a tenth of the friction is mobilised, for every draw, length and tension factor. *)
Theorem C48_sand_displacement_refuted : forall u tf n idx, (forall i, 0 <= u i < 1) -> argsort (sand_backbone_z u n) idx ->
  rinterp (combine (sand_backbone_z u n) (sand_backbone_t tf n idx)) api_sand_peak_displacement = 0.1.
Proof.
  intros u tf n idx HU HA. rewrite (sand_z_eq u n HU), (sand_t_eq u tf n idx HU HA). rewrite combine_app by reflexivity. rewrite sand_low_points. cbn [map app]. unfold api_sand_peak_displacement.
  repeat (rewrite interp_unfold; destruct (Rle_dec _ _); [exfalso; lra|destruct (Rle_dec _ _); [|exfalso; lra]] || (rewrite interp_unfold; destruct (Rle_dec _ _); [exfalso; lra|]; destruct (Rle_dec _ _); [exfalso; lra|])).
  lra.
Qed.

(** The sand curve: greatest value the unit friction, least value the unit friction times the tension factor. *)
Theorem C48_sand_curve : forall u sig delta K tf n idx, (forall i, 0 <= u i < 1) -> argsort (sand_backbone_z u n) idx ->
  0 <= fmax_api_sand sig delta K -> 0 <= tf ->
  let '(z, t) := tz_api_sand u idx sig delta K tf n in
  length z = Nat.max 15 n /\ length t = length z /\ nondecreasing z /\ is_max (fmax_api_sand sig delta K) t /\ is_min (- tf * fmax_api_sand sig delta K) t /\ has_point z t (0, 0).
Proof.
  intros u sig delta K tf n idx HU HA HF HT. unfold tz_api_sand. pose proof (C48_sand_backbone u tf n idx HU HA) as BB; cbv zeta in BB; destruct BB as (L1 & L2 & M & B0 & P0 & P1 & P2 & P3).
  set (f := fmax_api_sand sig delta K) in *. rewrite scale_length. split; [auto|]. split; [auto|]. split; [auto|].
  assert (R0 : forall v, In v (sand_backbone_t tf n idx) -> v = 0 \/ v = 1 \/ v = - tf).
  { intros v I. destruct (In_nth _ _ 0 I) as (i & Hi & E). assert (HP : has_point (sand_backbone_z u n) (sand_backbone_t tf n idx) (nth i (sand_backbone_z u n) 0, v)).
    { apply point_nth; [congruence|]. exists i. cbn [fst snd]. split; [lia|auto]. }
    destruct (P3 _ HP) as [Q|[[_ Q]|[_ Q]]]; cbn [snd] in Q; auto. left. congruence. }
  split; [rewrite <- (Rmult_1_l f) at 1; apply scale_max; auto; split; [apply in_combine_r in P1; auto|intros v I; destruct (R0 v I) as [->|[->| ->]]; lra]|].
  split; [apply scale_min; auto; split; [apply in_combine_r in P2; auto|intros v I; destruct (R0 v I) as [->|[->| ->]]; lra]|].
  apply (point_scale _ _ 1 f) in P0. cbn [fst snd] in P0. replace (0 * 1) with 0 in P0 by ring. replace (0 * f) with 0 in P0 by ring.
  replace (scale 1 (sand_backbone_z u n)) with (sand_backbone_z u n) in P0; auto. unfold scale. rewrite (map_ext _ (fun x => x)); [symmetry; apply map_id|intros; ring].
Qed.

(** Kraft: sorted, both branches reach the friction at the displacement of the formulation, residual tails. *)
Theorem C48_kraft : forall fmax D G0 residual tf RF zif n, 0 < fmax -> 0 < D -> 0 < G0 -> 0 <= RF < 1 -> 1 < zif ->
  let zmax := fmax * D / (2 * G0) * ln ((zif - RF) / (1 - RF)) in
  exists z t, kraft_modification fmax D G0 residual tf RF zif n = Ok (Some (z, t)) /\ length t = length z /\ nondecreasing z /\ 0 < zmax /\
  has_point z t (zmax, fmax) /\ has_point z t (- zmax, - tf * fmax) /\ has_point z t (0, 0) /\
  (forall p, has_point z t p -> 0 <= fst p -> has_point z t (- fst p, - tf * snd p)) /\
  (forall p, has_point z t p -> (zmax < fst p -> snd p = residual * fmax) /\ (0 <= fst p <= zmax -> 0 <= snd p <= fmax)) /\
  (forall p, has_point z t p -> fst p < 0 -> exists q, has_point z t q /\ 0 < fst q /\ p = (- fst q, - tf * snd q)).
Proof.
  intros fmax D G0 residual tf RF zif n HF HD HG HR HZ zmax.
  exists (kraft_curve_z fmax D G0 RF zif n), (kraft_curve_t fmax residual tf n).
  pose proof (fun p => kraft_points fmax D G0 residual tf RF zif n p) as KP.
  pose proof (kraft_pos_points fmax D G0 residual RF zif n) as PP.
  pose proof (kraft_tl_points fmax D G0 residual RF zif n HF) as TP.
  pose proof (kz_max fmax D G0 RF zif HF HG) as KM. pose proof (zmax_pos fmax D G0 RF zif HF HD HG HR HZ) as ZP. pose proof (fmax_in fmax D G0 D RF zif n HF) as FI.
  pose proof (tpos_range fmax n HF) as TR. pose proof (kz_pos fmax D G0 RF zif HF HD HG HR HZ) as KZP. pose proof (kz_mono fmax D G0 RF zif HF HD HG HR HZ) as KZM.
  pose proof (kz_0 fmax D G0 RF zif) as K0.
  change (fmax * D / (2 * G0) * ln ((zif - RF) / (1 - RF))) with (kraft_zmax fmax D G0 RF zif) in zmax. fold zmax in KM, ZP.
  split; [apply kraft_eq; auto|]. split; [apply kraft_length|]. split; [apply (kraft_sorted fmax D G0 0 RF zif n); auto|]. split; [exact ZP|].
  match type of PP with forall p, In p ?l <-> _ => set (PTS := l) in * end.
  assert (Z0 : forall p, In p PTS -> 0 <= fst p /\ (0 < fst p \/ p = (0, 0)) /\ (zmax < fst p -> snd p = residual * fmax) /\ (fst p <= zmax -> 0 <= snd p <= fmax)).
  { intros p I. apply PP in I. destruct I as [(t & It & ->)|[->| ->]]; cbn [fst snd]; fold zmax; [|repeat split; intros; try lra; left; lra|repeat split; intros; try lra; left; lra].
    apply TR in It. assert (LE : kraft_z fmax D G0 RF zif t <= zmax) by (rewrite <- KM; apply KZM; lra).
    destruct (Rle_lt_or_eq_dec 0 t ltac:(lra)) as [L|<-]; [pose proof (KZP t ltac:(lra)); repeat split; intros; try lra; left; lra|]. rewrite K0 in *. repeat split; intros; try lra; right; reflexivity. }
  assert (TL : forall p, 0 < fst p -> In p PTS -> In p (tl PTS)).
  { intros p P I. apply TP. apply PP in I. destruct I as [(t & It & ->)|I]; [|right; exact I]. left. exists t. cbn [fst] in P. split; auto. split; auto.
    apply TR in It. destruct (Rle_lt_or_eq_dec 0 t ltac:(lra)) as [L|<-]; auto. rewrite K0 in P. lra. }
  assert (TLI : forall q : R * R, forall l, In q (tl l) -> In q l) by (intros q [|a l]; cbn; auto).
  assert (P1 : has_point (kraft_curve_z fmax D G0 RF zif n) (kraft_curve_t fmax residual tf n) (zmax, fmax)) by (apply KP; left; apply PP; left; exists fmax; rewrite KM; auto).
  assert (MI : forall p, has_point (kraft_curve_z fmax D G0 RF zif n) (kraft_curve_t fmax residual tf n) p -> 0 <= fst p -> has_point (kraft_curve_z fmax D G0 RF zif n) (kraft_curve_t fmax residual tf n) (- fst p, - tf * snd p)).
  { intros p I P. apply KP in I. destruct I as [I|(q & I & ->)].
    - pose proof (Z0 _ I) as (_ & [L|E] & _).
      + apply KP. right. exists p. split; [apply TL; auto|]. f_equal. ring.
      + apply KP. left. rewrite E in *. cbn [fst snd] in *. apply (eq_ind _ (fun w => In w PTS) I). f_equal; ring.
    - pose proof (Z0 _ (TLI _ _ I)) as (_ & [L|E] & _); cbn [fst snd] in *; [lra|]. apply KP. left. subst q. apply TLI in I. apply (eq_ind _ (fun w => In w PTS) I); cbn [fst snd]; f_equal; ring. }
  split; [exact P1|]. split; [apply (MI _ P1); cbn [fst]; lra|].
  split. { apply KP. left. apply PP. left. exists 0. rewrite K0. split; auto. destruct (tpos_split fmax D G0 D RF zif n HF) as (r & -> & _). left. reflexivity. }
  split; [exact MI|]. split.
  - intros p I. apply KP in I. destruct I as [I|(q & I & ->)]; [apply Z0 in I; tauto|]. cbn [fst snd]. pose proof (Z0 _ (TLI _ _ I)) as (A & [L|E] & _); [split; intros; lra|].
    subst q. cbn [fst snd]. split; intros; lra.
  - intros p I P. apply KP in I. destruct I as [I|(q & I & ->)]; [apply Z0 in I; lra|]. cbn [fst snd] in *. exists q. split; [apply KP; left; apply TLI; auto|]. split; [lra|]. f_equal. ring.
Qed.

(** The Kraft curve does not have the requested length: two points are missing for every second odd length. *)
Theorem C48_kraft_length_refuted : forall fmax D G0 residual tf RF zif k, 0 < fmax -> 0 < D -> 0 < G0 -> 0 <= RF < 1 -> 1 < zif -> (4 <= k)%nat ->
  exists z t, kraft_modification fmax D G0 residual tf RF zif (4 * k + 1) = Ok (Some (z, t)) /\ length z = (4 * k - 1)%nat.
Proof.
  intros fmax D G0 residual tf RF zif k HF HD HG HR HZ Hk. exists (kraft_curve_z fmax D G0 RF zif (4 * k + 1)), (kraft_curve_t fmax residual tf (4 * k + 1)).
  split; [apply kraft_eq; auto|]. destruct (kraft_length fmax D G0 residual tf RF zif (4 * k + 1)) as [-> _].
  rewrite Nat.max_r by lia. replace (4 * k + 1)%nat with (1 + k * 4)%nat by lia.
  assert (E : Nat.even (1 + k * 4) = false). { destruct (Nat.even (1 + k * 4)) eqn:E; auto. apply Nat.even_spec in E. destruct E as (m & E). lia. }
  rewrite E. rewrite Nat.mod_add by lia. cbn [Nat.modulo Nat.divmod fst snd Nat.sub Nat.eqb]. lia.
Qed.
Theorem C48_kraft_length_partial : forall fmax D G0 residual tf RF zif k, 0 < fmax -> 0 < D -> 0 < G0 -> 0 <= RF < 1 -> 1 < zif -> (3 <= k)%nat ->
  exists z t, kraft_modification fmax D G0 residual tf RF zif (4 * k + 3) = Ok (Some (z, t)) /\ length z = (4 * k + 3)%nat.
Proof.
  intros fmax D G0 residual tf RF zif k HF HD HG HR HZ Hk. exists (kraft_curve_z fmax D G0 RF zif (4 * k + 3)), (kraft_curve_t fmax residual tf (4 * k + 3)).
  split; [apply kraft_eq; auto|]. destruct (kraft_length fmax D G0 residual tf RF zif (4 * k + 3)) as [-> _].
  rewrite Nat.max_r by lia. replace (4 * k + 3)%nat with (3 + k * 4)%nat by lia.
  assert (E : Nat.even (3 + k * 4) = false). { destruct (Nat.even (3 + k * 4)) eqn:E; auto. apply Nat.even_spec in E. destruct E as (m & E). lia. }
  rewrite E. rewrite Nat.mod_add by lia. cbn [Nat.modulo Nat.divmod fst snd Nat.sub Nat.eqb]. lia.
Qed.

(** An argsort always exists: the identity on the sorted abscissae. *)
Example C48_example : exists u idx, (forall i, 0 <= u i < 1) /\ argsort (clay_backbone_z u 17) idx /\ length (clay_backbone_z u 17) = 17%nat /\
  0 < clay_friction 100 50 1.
Proof.
  exists (fun _ => 0.5), (seq 0 17). split; [intros; lra|]. split; [|split; [apply (clay_z_length (fun _ => 0.5) 17)|]].
  - change 17%nat with (Nat.max 15 17) at 2. rewrite <- (clay_z_length (fun _ => 0.5) 17). apply argsort_id, clay_z_sorted.
  - unfold clay_friction. destruct (Rle_dec 50 100); [|lra]. apply Rmin_glb_lt; [|lra]. apply Rmult_lt_0_compat; [lra|]. apply Rmult_lt_0_compat; apply Rpower_gt0.
Qed.
Example C48_sand_example : exists u idx, (forall i, 0 <= u i < 1) /\ argsort (sand_backbone_z u 20) idx.
Proof.
  exists (fun _ => 0.5), (seq 0 20). split; [intros; lra|]. change 20%nat with (Nat.max 15 20) at 2. rewrite <- (sand_z_length (fun _ => 0.5) 20). apply argsort_id, sand_z_sorted.
Qed.

(** C49 *)
Theorem C49_tip_backbone : forall u n idx, (forall i, 0 <= u i < 1) -> argsort (tip_backbone_z u n) idx ->
  let z := tip_backbone_z u n in let q := tip_backbone_Q n idx in
  length z = Nat.max 15 n /\ length q = length z /\ nondecreasing z /\ nondecreasing q /\ (forall v, In v z -> -0.2 <= v <= 0.2) /\
  (forall p, In p api_tip_points -> has_point z q p) /\
  (forall p, has_point z q p -> (fst p <= 0 -> snd p = 0) /\ (0.1 <= fst p -> snd p = 1) /\ (0 < fst p < 0.1 -> In p api_tip_points)).
Proof.
  intros u n idx HU HA z q. unfold z, q. pose proof (tip_rest_range u n HU) as RR.
  pose proof (tip_Q_nd u n idx HU HA) as QN. pose proof (tip_Q_length u n idx HU HA) as QL. pose proof (fun p => tip_point u n idx HU HA p) as TP.
  split; [apply tip_z_length|]. split; [rewrite QL, tip_z_length; reflexivity|]. split; [apply tip_z_sorted|]. split; [exact QN|].
  split. { intros v I. rewrite (tip_z_eq u n HU) in I. apply in_app_iff in I. destruct I as [I|I]; [apply tip_low_range in I; lra|apply RR in I; lra]. }
  split.
  - intros p I. apply TP. destruct (in_app_or (firstn 5 api_tip_points) (skipn 5 api_tip_points) p) as [J|J]; [rewrite firstn_skipn; exact I| |].
    + left. rewrite tip_low_points. apply in_app_iff. auto.
    + right. cbn in J. destruct J as [<-|[]]. cbn [fst snd]. split; [|lra]. apply (proj2 (rsort_in _ _)). left. reflexivity.
  - intros p I. apply TP in I. destruct I as [I|[I E]]; [|apply RR in I; repeat split; intros; lra]. rewrite tip_low_points in I. apply in_app_iff in I. destruct I as [I|I].
    + apply in_map_iff in I. destruct I as (w & <- & I). cbn [fst snd]. assert (w < 0) by (clear - I; cbn in I; repeat (destruct I as [<-|I]; [lra|]); contradiction). repeat split; intros; lra.
    + assert (J : In p api_tip_points) by (rewrite <- (firstn_skipn 5); apply in_app_iff; auto). assert (fst p <= 0.073 /\ (fst p <= 0 -> snd p = 0)).
      { clear - I. cbn in I. repeat (destruct I as [<-|I]; [cbn [fst snd]; split; intros; lra|]). contradiction. }
      repeat split; intros; try lra; try tauto. 
Qed.

(** Curves: nothing in tension, rising in compression, full bearing from ten percent of the diameter. *)
Theorem C49_tip_curve : forall u n idx D Q, (forall i, 0 <= u i < 1) -> argsort (tip_backbone_z u n) idx -> 0 < D -> 0 <= Q ->
  let z := scale D (tip_backbone_z u n) in let q := scale Q (tip_backbone_Q n idx) in
  length z = Nat.max 15 n /\ length q = length z /\ nondecreasing z /\ nondecreasing q /\ is_max Q q /\ has_point z q (0.1 * D, Q) /\ has_point z q (0, 0) /\
  (forall p, has_point z q p -> (fst p <= 0 -> snd p = 0) /\ (0.1 * D <= fst p -> snd p = Q)).
Proof.
  intros u n idx D Q HU HA HD HQ z q. unfold z, q. pose proof (C49_tip_backbone u n idx HU HA) as BB. cbv zeta in BB. destruct BB as (L1 & L2 & M1 & M2 & B & P1 & P2).
  rewrite !scale_length. split; [auto|]. split; [auto|]. split; [apply scale_nd; [lra|auto]|]. split; [apply scale_nd; auto|].
  assert (IN : In (0.100, 1.00) api_tip_points) by (cbn; tauto). assert (IN0 : In (0, 0) api_tip_points) by (cbn; tauto). pose proof (P1 _ IN) as A. pose proof (P1 _ IN0) as A0.
  split. { assert (X : is_max (1 * Q) (scale Q (tip_backbone_Q n idx))); [|rewrite Rmult_1_l in X; exact X]. apply scale_max; auto. split; [apply in_combine_r in A; replace 1 with 1.00 by lra; exact A|].
    intros v I. destruct (In_nth _ _ 0 I) as (i & Hi & E). assert (HP : has_point (tip_backbone_z u n) (tip_backbone_Q n idx) (nth i (tip_backbone_z u n) 0, v)) by (apply point_nth; [congruence|]; exists i; cbn [fst snd]; split; [lia|auto]).
    destruct (P2 _ HP) as (Q1 & Q2 & Q3). cbn [fst snd] in *. destruct (Rle_lt_dec (nth i (tip_backbone_z u n) 0) 0) as [G|G]; [rewrite Q1; lra|]. destruct (Rle_lt_dec 0.1 (nth i (tip_backbone_z u n) 0)) as [G'|G']; [rewrite Q2; lra|].
    specialize (Q3 (conj G G')). assert (forall w, In w api_tip_points -> snd w <= 1) as W by (clear; intros w I; cbn in I; repeat (destruct I as [<-|I]; [cbn; lra|]); contradiction). apply W in Q3. exact Q3. }
  apply (point_scale _ _ D Q) in A. apply (point_scale _ _ D Q) in A0. cbn [fst snd] in A, A0.
  split; [apply (eq_ind _ (has_point _ _) A); f_equal; lra|]. split; [apply (eq_ind _ (has_point _ _) A0); f_equal; lra|].
  intros p I. apply scale_point in I. destruct I as (w & I & ->). cbn [fst snd]. destruct (P2 _ I) as (Q1 & Q2 & _). split; intros G.
  - rewrite Q1; [ring|nra].
  - rewrite Q2; [ring|nra].
Qed.
(** The two API curves are of this form, with the end bearing of C50 and the diameter. *)
Theorem C49_api_curves : forall u n idx, (forall i, 0 <= u i < 1) -> argsort (tip_backbone_z u n) idx -> forall D Su sig delta, 0 < D -> 0 <= Su -> 0 <= sig ->
  (let '(z, q) := qz_api_clay u idx Su D n in nondecreasing z /\ nondecreasing q /\ is_max (9 * Su) q /\ has_point z q (0.1 * D, 9 * Su) /\
     (forall p, has_point z q p -> (fst p <= 0 -> snd p = 0) /\ (0.1 * D <= fst p -> snd p = 9 * Su))) /\
  (let '(z, q) := qz_api_sand u idx sig delta D n in nondecreasing z /\ nondecreasing q /\ is_max (Qmax_api_sand sig delta) q /\ has_point z q (0.1 * D, Qmax_api_sand sig delta) /\
     (forall p, has_point z q p -> (fst p <= 0 -> snd p = 0) /\ (0.1 * D <= fst p -> snd p = Qmax_api_sand sig delta))).
Proof.
  intros u n idx HU HA D Su sig delta HD HS Hs. unfold qz_api_clay, qz_api_sand, Qmax_api_clay. split.
  - destruct (C49_tip_curve u n idx D (9 * Su) HU HA HD ltac:(lra)) as (_ & _ & A & B & C & E & _ & G). auto.
  - assert (P : 0 <= Qmax_api_sand sig delta).
    { unfold Qmax_api_sand. apply Rmin_glb; [|apply Rmult_le_pos; auto].
      - apply (Rle_trans _ 1900); [lra|]. apply interp_bounds. cbn. lra.
      - apply (Rle_trans _ 8); [lra|]. apply interp_bounds. cbn. lra. }
    destruct (C49_tip_curve u n idx D _ HU HA HD P) as (_ & _ & A & B & C & E & _ & G). auto.
Qed.
Example C49_example : exists u idx, (forall i, 0 <= u i < 1) /\ argsort (tip_backbone_z u 18) idx.
Proof.
  exists (fun _ => 0.5), (seq 0 18). split; [intros; lra|]. change 18%nat with (Nat.max 15 18) at 2. rewrite <- (tip_z_length (fun _ => 0.5) 18). apply argsort_id, tip_z_sorted.
Qed.

(** C50 *)
Ltac table := repeat (rewrite interp_unfold; destruct (Rle_dec _ _); [try lra|destruct (Rle_dec _ _); try lra]).
Lemma tan_deg_mono : forall d d', 0 <= d -> d <= d' -> d' < 90 -> 0 <= tan (d * PI / 180) <= tan (d' * PI / 180).
Proof.
  intros d d' H1 H2 H3. pose proof PI_RGT_0. assert (A : forall w, 0 <= w < 90 -> 0 <= w * PI / 180 < PI / 2) by (intros; nra).
  pose proof (A d ltac:(lra)). pose proof (A d' ltac:(lra)). split.
  - destruct (Req_dec (d * PI / 180) 0) as [->|N]; [rewrite tan_0; lra|]. left. apply tan_gt_0; lra.
  - destruct (Req_dec d d') as [->|N]; [lra|]. left. apply tan_increasing; nra.
Qed.
Theorem C50_sand_friction : forall sig delta K, 0 <= sig -> 0 <= delta < 90 -> 0 <= K ->
  0 <= fmax_api_sand sig delta K <= 114.8 /\ fmax_api_sand sig delta K <= K * sig * tan (delta * PI / 180) /\
  (forall a l, In (a, l) api_friction_limits -> delta <= a -> fmax_api_sand sig delta K <= l) /\
  (forall sig' delta' K', sig <= sig' -> delta <= delta' -> delta' < 90 -> K <= K' -> fmax_api_sand sig delta K <= fmax_api_sand sig' delta' K').
Proof.
  intros sig delta K Hs Hd HK. unfold fmax_api_sand.
  assert (RS : rising fs_table) by (unfold fs_table; cbn; lra). pose proof (interp_bounds _ _ _ RS) as B. pose proof (interp_mono _ _ _ RS) as M. cbn [last snd] in B. fold fs_table in B, M.
  destruct (tan_deg_mono delta delta) as [T0 _]; try lra. assert (KS : 0 <= K * sig) by (apply Rmult_le_pos; lra).
  split; [split; [apply Rmin_glb; [pose proof (B delta); lra|apply Rmult_le_pos; auto]|eapply Rle_trans; [apply Rmin_l|apply B]]|]. split; [apply Rmin_r|]. split.
  - intros a l I L. eapply Rle_trans; [apply Rmin_l|]. apply M in L. eapply Rle_trans; [exact L|]. clear - I. cbn in I.
    unfold fs_table. destruct I as [E|[E|[E|[E|[E|[]]]]]]; injection E as <- <-; table.
  - intros sig' delta' K' H1 H2 H3 H4. apply Rmin_glb; [eapply Rle_trans; [apply Rmin_l|apply M; auto]|]. eapply Rle_trans; [apply Rmin_r|].
    destruct (tan_deg_mono delta delta') as [T1 T2]; try lra. apply Rmult_le_compat; auto. apply Rmult_le_compat; auto.
Qed.
Theorem C50_end_bearing : forall sig delta, 0 <= sig ->
  0 <= Qmax_api_sand sig delta <= 12000 /\ Qmax_api_sand sig delta <= 50 * sig /\
  (forall a l, In (a, l) api_bearing_limits -> delta <= a -> Qmax_api_sand sig delta <= l) /\
  (forall sig' delta', sig <= sig' -> delta <= delta' -> Qmax_api_sand sig delta <= Qmax_api_sand sig' delta') /\
  (forall Su Su', 0 <= Su <= Su' -> 0 <= Qmax_api_clay Su <= Qmax_api_clay Su').
Proof.
  intros sig delta Hs. unfold Qmax_api_sand.
  assert (RS : rising Qmax_table) by (unfold Qmax_table; cbn; lra). pose proof (interp_bounds _ _ _ RS) as B. pose proof (interp_mono _ _ _ RS) as M. cbn [last snd] in B. fold Qmax_table in B, M.
  assert (RN : rising Nq_table) by (unfold Nq_table; cbn; lra). pose proof (interp_bounds _ _ _ RN) as BN. pose proof (interp_mono _ _ _ RN) as MN. cbn [last snd] in BN. fold Nq_table in BN, MN.
  split; [split; [apply Rmin_glb; [pose proof (B delta); lra|apply Rmult_le_pos; [auto|pose proof (BN delta); lra]]|eapply Rle_trans; [apply Rmin_l|apply B]]|].
  split; [eapply Rle_trans; [apply Rmin_r|]; rewrite Rmult_comm; apply Rmult_le_compat_r; [auto|apply BN]|]. split; [|split].
  - intros a l I L. eapply Rle_trans; [apply Rmin_l|]. apply M in L. eapply Rle_trans; [exact L|]. clear - I. cbn in I.
    unfold Qmax_table. destruct I as [E|[E|[E|[E|[E|[]]]]]]; injection E as <- <-; table.
  - intros sig' delta' H1 H2. apply Rmin_glb; [eapply Rle_trans; [apply Rmin_l|apply M; auto]|]. eapply Rle_trans; [apply Rmin_r|]. apply Rmult_le_compat; auto. pose proof (BN delta). lra.
  - intros Su Su' H. unfold Qmax_api_clay. lra.
Qed.
(** Clay under a positive stress *)
Theorem C50_clay_friction_partial : forall sig Su limit, 0 < sig -> 0 <= Su -> 0 <= limit ->
  0 <= fmax_api_clay sig Su limit <= limit * Su /\ (0 < Su -> fmax_api_clay sig Su limit = clay_friction sig Su limit) /\ (Su <= sig -> 2 * fmax_api_clay sig Su limit <= sig) /\
  (forall sig' Su' limit', sig <= sig' -> Su <= Su' -> limit <= limit' -> fmax_api_clay sig Su limit <= fmax_api_clay sig' Su' limit').
Proof.
  intros sig Su limit Hs HS HL.
  assert (Z : Su = 0 \/ 0 < Su) by lra. assert (E : forall s S1 l, 0 < s -> 0 < S1 -> 0 <= l -> fmax_api_clay s S1 l = clay_friction s S1 l).
  { intros. rewrite fmax_clay_eq by lra. destruct (Req_EM_T S1 0); [lra|reflexivity]. }
  assert (LM : forall l', limit <= l' -> clay_friction sig Su limit <= clay_friction sig Su l').
  { intros l' L. unfold clay_friction. apply Rmin_glb; [apply Rmin_l|]. eapply Rle_trans; [apply Rmin_r|]. apply Rmult_le_compat_r; auto. }
  destruct Z as [->|P].
  - rewrite fmax_clay_eq by lra. destruct (Req_EM_T 0 0) as [_|N]; [|lra]. split; [lra|]. split; [intros; lra|]. split; [intros; lra|].
    intros sig' Su' limit' H1 H2 H3. rewrite fmax_clay_eq by lra. destruct (Req_EM_T Su' 0); [lra|]. apply friction_nonneg; lra.
  - rewrite E by auto. split; [split; [apply friction_nonneg; auto|apply Rmin_r]|]. split; [auto|]. split.
    + intros L. unfold clay_friction. destruct (Rle_dec Su sig) as [_|]; [|lra]. assert (X : Rpower Su 0.5 * Rpower sig 0.5 <= sig).
      { apply (Rle_trans _ (Rpower sig 0.5 * Rpower sig 0.5)); [apply Rmult_le_compat_r; [left; apply Rpower_gt0|apply Rpower_mono; lra]|]. rewrite <- Rpower_plus. replace (0.5 + 0.5) with 1 by lra. rewrite Rpower_1 by auto. lra. }
      pose proof (Rmin_l (0.5 * (Rpower Su 0.5 * Rpower sig 0.5)) (limit * Su)). lra.
    + intros sig' Su' limit' H1 H2 H3. rewrite E by lra. eapply Rle_trans; [apply LM; exact H3|]. apply friction_mono; lra.
Qed.
(** A stress of zero is replaced by 0.001 kPa, so a layer under a smaller positive stress has less friction than one under none. *)
Theorem C50_clay_zero_stress_refuted : forall Su limit, 0 < Su -> 0 <= limit ->
  fmax_api_clay 0 Su limit = clay_friction 0.001 Su limit /\
  (0.001 <= Su -> 1/2 <= limit -> forall sig, 0 < sig < 0.001 -> fmax_api_clay sig Su limit < fmax_api_clay 0 Su limit).
Proof.
  intros Su limit P HL. assert (E0 : fmax_api_clay 0 Su limit = clay_friction 0.001 Su limit).
  { transitivity (fmax_api_clay 0.001 Su limit).
    - unfold fmax_api_clay. destruct (Req_EM_T 0 0) as [_|N]; [|lra]. destruct (Req_EM_T 0.001 0); [lra|]. reflexivity.
    - rewrite fmax_clay_eq by lra. destruct (Req_EM_T Su 0); [lra|reflexivity]. }
  split; [exact E0|]. intros LS LL sig Hs. rewrite E0. rewrite fmax_clay_eq by lra. destruct (Req_EM_T Su 0); [lra|].
  assert (SQ : forall s, 0 < s -> Rpower s 0.75 * Rpower s 0.25 = s). { intros s Q0. rewrite <- Rpower_plus. replace (0.75 + 0.25) with 1 by lra. apply Rpower_1; auto. }
  assert (ST : forall a b, 0 < a -> a < b -> Rpower a 0.25 < Rpower b 0.25). { intros a b Ha Hb. unfold Rpower. apply exp_increasing. apply Rmult_lt_compat_l; [lra|]. apply ln_increasing; auto. }
  assert (X : clay_friction 0.001 Su limit = 0.5 * (Rpower Su 0.75 * Rpower 0.001 0.25)).
  { assert (Y : Rpower Su 0.75 * Rpower 0.001 0.25 <= Su). { rewrite <- (SQ Su P) at 2. apply Rmult_le_compat_l; [left; apply Rpower_gt0|]. apply Rpower_mono; lra. }
    assert (W : (if Rle_dec Su 0.001 then Rpower Su 0.5 * Rpower 0.001 0.5 else Rpower Su 0.75 * Rpower 0.001 0.25) = Rpower Su 0.75 * Rpower 0.001 0.25).
    { destruct (Rle_dec Su 0.001) as [L|L]; [|reflexivity]. assert (Su = 0.001) as -> by lra. rewrite <- !Rpower_plus. f_equal. lra. }
    unfold clay_friction. rewrite W. apply Rmin_left. nra. }
  rewrite X. unfold clay_friction. destruct (Rle_dec Su sig); [lra|]. eapply Rle_lt_trans; [apply Rmin_l|]. apply Rmult_lt_compat_l; [lra|]. apply Rmult_lt_compat_l; [apply Rpower_gt0|]. apply ST; lra.
Qed.
Example C50_example : fmax_api_sand 1000 30 1 = 95.7 /\ Qmax_api_sand 100 20 = 1200.
Proof.
  split.
  - unfold fmax_api_sand. assert (rinterp fs_table 30 = 95.7) as ->. { unfold fs_table. table. }
    apply Rmin_left. replace (30 * PI / 180) with (PI / 6) by field. rewrite tan_PI6. assert (sqrt 3 < 2). { rewrite <- (sqrt_square 2) by lra. apply sqrt_lt_1; lra. }
    assert (0 < sqrt 3) by (apply sqrt_lt_R0; lra). assert (1 / 2 < 1 / sqrt 3). { unfold Rdiv. rewrite !Rmult_1_l. apply Rinv_lt_contravar; lra. } lra.
  - unfold Qmax_api_sand. assert (rinterp Nq_table 20 = 12) as ->. { unfold Nq_table. table. }
    assert (rinterp Qmax_table 20 = 2900) as ->. { unfold Qmax_table. table. } rewrite Rmin_right; lra.
Qed.

(** C51 *)
Definition in_compression (p : plug) : bool := match p with PlugCompression | PlugBoth => true | _ => false end.
Definition in_tension (p : plug) : bool := match p with PlugTension | PlugBoth => true | _ => false end.
Lemma plug_total : forall p tension cin cout, 0 < cout -> 0 <= cin -> 0 <= tension -> exists total tens, plug_factors p tension cin cout = Ok (total, tens) /\
  total = sliding_perimeter (in_compression p) cin cout /\ 0 < total /\ 0 <= tens /\ tens * total = tension * (if in_tension p then cin else cin + cout).
Proof.
  intros p tension cin cout Hc Hi HT. assert (DV : forall a b, 0 <= a -> 0 < b -> 0 <= a / b) by (intros a b Ha Hb; apply Rmult_le_pos; [auto|left; apply Rinv_0_lt_compat; auto]).
  destruct p; cbn [plug_factors in_compression in_tension sliding_perimeter]; rewrite ?nonzero_ok by lra; eexists; eexists; (split; [reflexivity|]); (split; [reflexivity|]); (split; [lra|]); (split; [try apply DV; try (apply Rmult_le_pos); lra|]); field; lra.
Qed.
Lemma at_depth_ok : forall top bottom depth height, height <> 0 -> at_depth top bottom depth height = Ok (top + (bottom - top) * depth / height).
Proof. intros. unfold at_depth. apply nonzero_ok. auto. Qed.

(** Shaft friction of clay: perimeters mobilised by the curve. *)
Lemma clay_tz_extremes : forall m u idx cin cout sig height depth D n tm zm Su, (forall i, 0 <= u i < 1) -> argsort (clay_backbone_z u n) idx ->
  0 < cout -> 0 <= cin -> 0 < sig -> height <> 0 -> 0 < D -> ca_tm m = MNum tm -> ca_zm m = MNum zm -> 0 <= tm -> 0 <= zm -> 0 <= ca_residual m <= 1 -> 0 <= ca_tension m ->
  Su = ca_Su_top m + (ca_Su_bottom m - ca_Su_top m) * depth / height -> 0 < Su ->
  exists z t, clay_tz m u idx cin cout sig height depth D n = Ok (z, t) /\ nondecreasing z /\ length z = Nat.max 15 n /\ length t = length z /\
    is_max (clay_friction sig Su 1 * tm * sliding_perimeter (in_compression (ca_plug m)) cin cout) t /\
    is_min (- (clay_friction sig Su 1 * tm * ca_tension m * (if in_tension (ca_plug m) then cin else cin + cout))) t.
Proof.
  intros m u idx cin cout sig height depth D n tm zm Su HU HA Hc Hi Hs Hh HD ET EZ Htm Hzm HR HT ES HS. unfold clay_tz. rewrite at_depth_ok by auto. cbn [bind]. rewrite <- ES.
  destruct (plug_total (ca_plug m) (ca_tension m) cin cout Hc Hi HT) as (total & tens & -> & E1 & P1 & P2 & E2). cbn [bind].
  pose proof (C48_clay_curve u sig Su D 1 (ca_residual m) tens n idx HU HA Hs HS HD ltac:(lra) HR P2) as CC. destruct (tz_api_clay u idx sig Su D 1 (ca_residual m) tens n) as [z t]. cbv zeta in CC.
  destruct CC as (L1 & L2 & M & X1 & X2 & _). rewrite ET, EZ. cbn [times bind]. eexists; eexists. split; [reflexivity|]. rewrite !scale_length. split; [apply scale_nd; auto|]. split; [auto|]. split; [auto|]. split.
  - rewrite <- E1. apply scale_max; [lra|]. apply scale_max; auto.
  - replace (- (clay_friction sig Su 1 * tm * ca_tension m * (if in_tension (ca_plug m) then cin else cin + cout))) with (- tens * clay_friction sig Su 1 * tm * total).
    + apply scale_min; [lra|]. apply scale_min; auto.
    + transitivity (- (clay_friction sig Su 1 * tm * (tens * total))); [ring|]. rewrite E2. ring.
Qed.
Lemma sand_tz_extremes : forall m u idx cin cout sig height depth n tm zm delta, (forall i, 0 <= u i < 1) -> argsort (sand_backbone_z u n) idx ->
  0 < cout -> 0 <= cin -> 0 <= sig -> height <> 0 -> sa_tm m = MNum tm -> sa_zm m = MNum zm -> 0 <= tm -> 0 <= zm -> 0 <= sa_K m -> 0 <= sa_tension m ->
  delta = sa_delta_top m + (sa_delta_bottom m - sa_delta_top m) * depth / height -> 0 <= delta < 90 ->
  exists z t, sand_tz m u idx cin cout sig height depth n = Ok (z, t) /\ nondecreasing z /\ length z = Nat.max 15 n /\ length t = length z /\
    is_max (fmax_api_sand sig delta (sa_K m) * tm * sliding_perimeter (in_compression (sa_plug m)) cin cout) t /\
    is_min (- (fmax_api_sand sig delta (sa_K m) * tm * sa_tension m * (if in_tension (sa_plug m) then cin else cin + cout))) t.
Proof.
  intros m u idx cin cout sig height depth n tm zm delta HU HA Hc Hi Hs Hh ET EZ Htm Hzm HK HT ES HS. unfold sand_tz. rewrite at_depth_ok by auto. cbn [bind]. rewrite <- ES.
  destruct (plug_total (sa_plug m) (sa_tension m) cin cout Hc Hi HT) as (total & tens & -> & E1 & P1 & P2 & E2). cbn [bind].
  destruct (C50_sand_friction sig delta (sa_K m) Hs HS HK) as ((F0 & _) & _).
  pose proof (C48_sand_curve u sig delta (sa_K m) tens n idx HU HA F0 P2) as CC. destruct (tz_api_sand u idx sig delta (sa_K m) tens n) as [z t].
  destruct CC as (L1 & L2 & M & X1 & X2 & _). rewrite ET, EZ. cbn [times bind]. eexists; eexists. split; [reflexivity|]. rewrite !scale_length. split; [apply scale_nd; auto|]. split; [auto|]. split; [auto|]. split.
  - rewrite <- E1. apply scale_max; [lra|]. apply scale_max; auto.
  - replace (- (fmax_api_sand sig delta (sa_K m) * tm * sa_tension m * (if in_tension (sa_plug m) then cin else cin + cout))) with (- tens * fmax_api_sand sig delta (sa_K m) * tm * total).
    + apply scale_min; [lra|]. apply scale_min; auto.
    + transitivity (- (fmax_api_sand sig delta (sa_K m) * tm * (tens * total))); [ring|]. rewrite E2. ring.
Qed.

(** In compression the perimeter follows the option; so it does in tension for a pile that is not plugged in tension. *)
Theorem C51_sand_perimeter_partial : forall m u idx cin cout sig height depth n tm zm delta, (forall i, 0 <= u i < 1) -> argsort (sand_backbone_z u n) idx ->
  0 < cout -> 0 <= cin -> 0 <= sig -> height <> 0 -> sa_tm m = MNum tm -> sa_zm m = MNum zm -> 0 <= tm -> 0 <= zm -> 0 <= sa_K m -> 0 <= sa_tension m ->
  delta = sa_delta_top m + (sa_delta_bottom m - sa_delta_top m) * depth / height -> 0 <= delta < 90 ->
  exists z t, sand_tz m u idx cin cout sig height depth n = Ok (z, t) /\ nondecreasing z /\ length z = Nat.max 15 n /\ length t = length z /\
    is_max (fmax_api_sand sig delta (sa_K m) * tm * sliding_perimeter (in_compression (sa_plug m)) cin cout) t /\
    (in_tension (sa_plug m) = false -> is_min (- (fmax_api_sand sig delta (sa_K m) * tm * sa_tension m * sliding_perimeter (in_tension (sa_plug m)) cin cout)) t).
Proof.
  intros m u idx cin cout sig height depth n tm zm delta HU HA Hc Hi Hs Hh ET EZ Htm Hzm HK HT ES HS.
  destruct (sand_tz_extremes m u idx cin cout sig height depth n tm zm delta HU HA Hc Hi Hs Hh ET EZ Htm Hzm HK HT ES HS) as (z & t & E & M & L1 & L2 & X1 & X2).
  exists z, t. do 5 (split; [auto|]). intros IT. rewrite IT in *. cbn [sliding_perimeter]. rewrite (Rplus_comm cout cin). exact X2.
Qed.
Theorem C51_clay_perimeter_partial : forall m u idx cin cout sig height depth D n tm zm Su, (forall i, 0 <= u i < 1) -> argsort (clay_backbone_z u n) idx ->
  0 < cout -> 0 <= cin -> 0 < sig -> height <> 0 -> 0 < D -> ca_tm m = MNum tm -> ca_zm m = MNum zm -> 0 <= tm -> 0 <= zm -> 0 <= ca_residual m <= 1 -> 0 <= ca_tension m ->
  Su = ca_Su_top m + (ca_Su_bottom m - ca_Su_top m) * depth / height -> 0 < Su ->
  exists z t, clay_tz m u idx cin cout sig height depth D n = Ok (z, t) /\ nondecreasing z /\ length z = Nat.max 15 n /\ length t = length z /\
    (ca_alpha_limit m = 1 -> exists f, clay_shaft_friction m sig depth height = Ok f /\ is_max (f * tm * sliding_perimeter (in_compression (ca_plug m)) cin cout) t /\
      (in_tension (ca_plug m) = false -> is_min (- (f * tm * ca_tension m * sliding_perimeter (in_tension (ca_plug m)) cin cout)) t)).
Proof.
  intros m u idx cin cout sig height depth D n tm zm Su HU HA Hc Hi Hs Hh HD ET EZ Htm Hzm HR HT ES HS.
  destruct (clay_tz_extremes m u idx cin cout sig height depth D n tm zm Su HU HA Hc Hi Hs Hh HD ET EZ Htm Hzm HR HT ES HS) as (z & t & E & M & L1 & L2 & X1 & X2).
  exists z, t. do 4 (split; [auto|]). intros EA. exists (clay_friction sig Su 1).
  split. { unfold clay_shaft_friction. rewrite at_depth_ok by auto. cbn [bind]. rewrite <- ES, EA. rewrite fmax_clay_eq by lra. destruct (Req_EM_T Su 0); [lra|reflexivity]. }
  split; [exact X1|]. intros IT. rewrite IT in *. cbn [sliding_perimeter]. rewrite (Rplus_comm cout cin). exact X2.
Qed.
(** Plugged in tension: the outer face should slide, the code mobilises the inner perimeter instead. *)
Theorem C51_plugged_tension_refuted : forall m u idx cin cout sig height depth n tm zm delta, (forall i, 0 <= u i < 1) -> argsort (sand_backbone_z u n) idx ->
  0 < cout -> 0 <= cin -> 0 <= sig -> height <> 0 -> sa_tm m = MNum tm -> sa_zm m = MNum zm -> 0 < tm -> 0 <= zm -> 0 <= sa_K m -> 0 < sa_tension m ->
  delta = sa_delta_top m + (sa_delta_bottom m - sa_delta_top m) * depth / height -> 0 <= delta < 90 ->
  in_tension (sa_plug m) = true -> 0 < fmax_api_sand sig delta (sa_K m) -> cin < cout ->
  exists z t, sand_tz m u idx cin cout sig height depth n = Ok (z, t) /\ is_min (- (fmax_api_sand sig delta (sa_K m) * tm * sa_tension m * cin)) t /\
    ~ is_min (- (fmax_api_sand sig delta (sa_K m) * tm * sa_tension m * sliding_perimeter true cin cout)) t /\ (cin = 0 -> is_min 0 t).
Proof.
  intros m u idx cin cout sig height depth n tm zm delta HU HA Hc Hi Hs Hh ET EZ Htm Hzm HK HT ES HS IT F0 LT.
  destruct (sand_tz_extremes m u idx cin cout sig height depth n tm zm delta HU HA Hc Hi Hs Hh ET EZ ltac:(lra) Hzm HK ltac:(lra) ES HS) as (z & t & E & M & L1 & L2 & X1 & X2).
  exists z, t. rewrite IT in X2. split; [exact E|]. split; [exact X2|]. split.
  - intros [IN _]. destruct X2 as [_ B]. apply B in IN. cbn [sliding_perimeter] in IN. assert (0 < fmax_api_sand sig delta (sa_K m) * tm * sa_tension m) by (repeat apply Rmult_lt_0_compat; auto). nra.
  - intros ->. rewrite Rmult_0_r, Ropp_0 in X2. exact X2.
Qed.
Theorem C51_plugged_tension_clay_refuted : forall m u idx cin cout sig height depth D n tm zm Su, (forall i, 0 <= u i < 1) -> argsort (clay_backbone_z u n) idx ->
  0 < cout -> 0 <= cin -> 0 < sig -> height <> 0 -> 0 < D -> ca_tm m = MNum tm -> ca_zm m = MNum zm -> 0 < tm -> 0 <= zm -> 0 <= ca_residual m <= 1 -> 0 < ca_tension m ->
  Su = ca_Su_top m + (ca_Su_bottom m - ca_Su_top m) * depth / height -> 0 < Su -> in_tension (ca_plug m) = true -> cin < cout ->
  exists z t, clay_tz m u idx cin cout sig height depth D n = Ok (z, t) /\ is_min (- (clay_friction sig Su 1 * tm * ca_tension m * cin)) t /\
    ~ is_min (- (clay_friction sig Su 1 * tm * ca_tension m * sliding_perimeter true cin cout)) t.
Proof.
  intros m u idx cin cout sig height depth D n tm zm Su HU HA Hc Hi Hs Hh HD ET EZ Htm Hzm HR HT ES HS IT LT.
  destruct (clay_tz_extremes m u idx cin cout sig height depth D n tm zm Su HU HA Hc Hi Hs Hh HD ET EZ ltac:(lra) Hzm HR ltac:(lra) ES HS) as (z & t & E & M & L1 & L2 & X1 & X2).
  exists z, t. rewrite IT in X2. split; [exact E|]. split; [exact X2|].
  assert (F0 : 0 < clay_friction sig Su 1). { unfold clay_friction. apply Rmin_glb_lt; [|lra]. apply Rmult_lt_0_compat; [lra|]. destruct (Rle_dec Su sig); apply Rmult_lt_0_compat; apply Rpower_gt0. }
  intros [IN _]. destruct X2 as [_ B]. apply B in IN. cbn [sliding_perimeter] in IN. assert (0 < clay_friction sig Su 1 * tm * ca_tension m) by (repeat apply Rmult_lt_0_compat; auto). nra.
Qed.
(** The curve ignores the alpha limit of the model: its peak exceeds the model's own unit friction. *)
Theorem C51_alpha_limit_refuted : forall m u idx cin cout sig height depth D n tm zm Su, (forall i, 0 <= u i < 1) -> argsort (clay_backbone_z u n) idx ->
  0 < cout -> 0 <= cin -> 0 < sig -> height <> 0 -> 0 < D -> ca_tm m = MNum tm -> ca_zm m = MNum zm -> 0 < tm -> 0 <= zm -> 0 <= ca_residual m <= 1 -> 0 <= ca_tension m ->
  Su = ca_Su_top m + (ca_Su_bottom m - ca_Su_top m) * depth / height -> 0 < Su -> 0 <= ca_alpha_limit m -> ca_alpha_limit m * Su < clay_friction sig Su 1 ->
  exists z t f peak, clay_tz m u idx cin cout sig height depth D n = Ok (z, t) /\ clay_shaft_friction m sig depth height = Ok f /\ f <= ca_alpha_limit m * Su /\ is_max peak t /\
    f * tm * sliding_perimeter (in_compression (ca_plug m)) cin cout < peak.
Proof.
  intros m u idx cin cout sig height depth D n tm zm Su HU HA Hc Hi Hs Hh HD ET EZ Htm Hzm HR HT ES HS HL LT.
  destruct (clay_tz_extremes m u idx cin cout sig height depth D n tm zm Su HU HA Hc Hi Hs Hh HD ET EZ ltac:(lra) Hzm HR HT ES HS) as (z & t & E & M & L1 & L2 & X1 & X2).
  exists z, t, (clay_friction sig Su (ca_alpha_limit m)). eexists. split; [exact E|].
  split. { unfold clay_shaft_friction. rewrite at_depth_ok by auto. cbn [bind]. rewrite <- ES. rewrite fmax_clay_eq by lra. destruct (Req_EM_T Su 0); [lra|reflexivity]. }
  assert (LE : clay_friction sig Su (ca_alpha_limit m) <= ca_alpha_limit m * Su) by apply Rmin_r. split; [exact LE|]. split; [exact X1|].
  assert (0 < sliding_perimeter (in_compression (ca_plug m)) cin cout) by (unfold sliding_perimeter; destruct (in_compression (ca_plug m)); lra). apply Rmult_lt_compat_r; auto. apply Rmult_lt_compat_r; auto. lra.
Qed.
(** A multiplier given as a function of depth, which the class accepts, ends in a TypeError. *)
Theorem C51_callable_multiplier_refuted : forall m u idx cin cout sig height depth D n f, 0 < cout -> 0 <= cin -> 0 <= ca_tension m -> height <> 0 ->
  (ca_zm m = MFun f \/ (exists zm, ca_zm m = MNum zm) /\ ca_tm m = MFun f) -> clay_tz m u idx cin cout sig height depth D n = Err TypeError.
Proof.
  intros m u idx cin cout sig height depth D n f Hc Hi HT Hh H. unfold clay_tz. rewrite at_depth_ok by auto. cbn [bind]. destruct (plug_total (ca_plug m) (ca_tension m) cin cout Hc Hi HT) as (total & tens & -> & _). cbn [bind].
  unfold tz_api_clay. destruct H as [->|[(zm & ->) ->]]; reflexivity.
Qed.
(** The tip mobilises the footprint when the pile is plugged in compression and the steel area otherwise. *)
Theorem C51_tip_area : forall m u idx tip_area footprint height depth D n Su, (forall i, 0 <= u i < 1) -> argsort (tip_backbone_z u n) idx ->
  height <> 0 -> 0 < D -> 0 <= tip_area -> 0 <= footprint -> 0 <= ca_Qm m -> 0 <= ca_wm m -> Su = ca_Su_top m + (ca_Su_bottom m - ca_Su_top m) * depth / height -> 0 <= Su ->
  exists w q, clay_Qz m u idx tip_area footprint height depth D n = Ok (w, q) /\ nondecreasing w /\ nondecreasing q /\
    is_max (9 * Su * ca_Qm m * (if in_compression (ca_plug m) then footprint else tip_area)) q.
Proof.
  intros m u idx tip_area footprint height depth D n Su HU HA Hh HD H1 H2 H3 H4 ES HS. unfold clay_Qz. rewrite at_depth_ok by auto. cbn [bind]. rewrite <- ES.
  destruct (C49_api_curves u n idx HU HA D Su 0 0 HD HS ltac:(lra)) as [CC _]. destruct (qz_api_clay u idx Su D n) as [z q]. destruct CC as (A & B & C & _).
  eexists; eexists. split; [reflexivity|]. assert (T : 0 <= tip_surface (ca_plug m) tip_area footprint) by (unfold tip_surface; destruct (ca_plug m); auto).
  split; [apply scale_nd; auto|]. split; [apply scale_nd; auto; apply scale_nd; auto|].
  replace (if in_compression (ca_plug m) then footprint else tip_area) with (tip_surface (ca_plug m) tip_area footprint) by (unfold tip_surface, in_compression; destruct (ca_plug m); reflexivity).
  apply scale_max; auto. apply scale_max; auto.
Qed.
Theorem C51_tip_area_sand : forall m u idx tip_area footprint sig height depth D n delta, (forall i, 0 <= u i < 1) -> argsort (tip_backbone_z u n) idx ->
  height <> 0 -> 0 < D -> 0 <= tip_area -> 0 <= footprint -> 0 <= sig -> 0 <= sa_Qm m -> 0 <= sa_wm m -> delta = sa_delta_top m + (sa_delta_bottom m - sa_delta_top m) * depth / height ->
  exists w q, sand_Qz m u idx tip_area footprint sig height depth D n = Ok (w, q) /\ nondecreasing w /\ nondecreasing q /\
    is_max (Qmax_api_sand sig delta * sa_Qm m * (if in_compression (sa_plug m) then footprint else tip_area)) q.
Proof.
  intros m u idx tip_area footprint sig height depth D n delta HU HA Hh HD H1 H2 Hs H3 H4 ES. unfold sand_Qz. rewrite at_depth_ok by auto. cbn [bind]. rewrite <- ES.
  destruct (C49_api_curves u n idx HU HA D 0 sig delta HD ltac:(lra) Hs) as [_ CC]. destruct (qz_api_sand u idx sig delta D n) as [z q]. destruct CC as (A & B & C & _).
  eexists; eexists. split; [reflexivity|]. assert (T : 0 <= tip_surface (sa_plug m) tip_area footprint) by (unfold tip_surface; destruct (sa_plug m); auto).
  split; [apply scale_nd; auto|]. split; [apply scale_nd; auto; apply scale_nd; auto|].
  replace (if in_compression (sa_plug m) then footprint else tip_area) with (tip_surface (sa_plug m) tip_area footprint) by (unfold tip_surface, in_compression; destruct (sa_plug m); reflexivity).
  apply scale_max; auto. apply scale_max; auto.
Qed.
(** A clay of 50 kPa under 400 kPa with alpha limited to 0.5: its friction with the limit 1 is more than 25 kPa. *)
Example C51_example : 0.5 * 50 < clay_friction 400 50 1.
Proof.
  unfold clay_friction. destruct (Rle_dec 50 400); [|lra]. apply Rmin_glb_lt; [|lra]. rewrite Rpower_mult_distr by lra. apply Rmult_lt_compat_l; [lra|].
  replace 0.5 with (/ 2) by lra. rewrite Rpower_sqrt by lra. rewrite <- (sqrt_square 50) at 1 by lra. apply sqrt_lt_1; lra.
Qed.
Example C51_plug_example : plug_factors PlugBoth 1 0 3 = Ok (3, 0).
Proof. cbn [plug_factors]. rewrite nonzero_ok by lra. repeat f_equal. field. Qed.

Print Assumptions C48_clay_backbone.
Print Assumptions C48_clay_curve.
Print Assumptions C48_kraft.
Print Assumptions C49_tip_curve.
Print Assumptions C50_sand_friction.
Print Assumptions C50_clay_friction_partial.
Print Assumptions C51_sand_perimeter_partial.
Print Assumptions C51_alpha_limit_refuted.
Print Assumptions C48_sand_backbone.
Print Assumptions C48_sand_displacement_refuted.
Print Assumptions C48_sand_curve.
Print Assumptions C48_kraft_length_refuted.
Print Assumptions C48_kraft_length_partial.
Print Assumptions C49_tip_backbone.
Print Assumptions C49_api_curves.
Print Assumptions C50_end_bearing.
Print Assumptions C50_clay_zero_stress_refuted.
Print Assumptions C51_clay_perimeter_partial.
Print Assumptions C51_plugged_tension_refuted.
Print Assumptions C51_plugged_tension_clay_refuted.
Print Assumptions C51_callable_multiplier_refuted.
Print Assumptions C51_tip_area.
Print Assumptions C51_tip_area_sand.
