(** The weak rock curve, the axial curves and the moment curves of the API clays in other units of force and length. *)
From Coq Require Import List Reals Lra Lia Arith Permutation.
From Verif Require Import Base ConicModel PisaModel ApiSandModel ApiSandSpec ApiSandProofs ApiClayModel ReeseModel ReeseProofs AxialModel LateralModel ConicSpec ConicProofs DimSpec DimProofs.
Import ListNotations.
Local Open Scope R_scope.

(** ** Weak rock in another unit of force *)
Lemma reese_force : forall c Ei qu RQD xr D k n, 0 < c ->
  reese_weakrock (c * Ei) (c * qu) RQD xr D k n = smap (pt 1 c) (reese_weakrock Ei qu RQD xr D k n).
Proof.
  intros c Ei qu RQD xr D k n Hc. unfold reese_weakrock. cbv zeta. apply same_nonzero. intros HD.
  assert (EP : Rmin (5.2 * reese_alpha RQD * (c * qu) * D) (reese_alpha RQD * (c * qu) * D * (1 + 1.4 * xr / D)) = c * Rmin (5.2 * reese_alpha RQD * qu * D) (reese_alpha RQD * qu * D * (1 + 1.4 * xr / D))).
  { rewrite <- Rmin_units by lra. f_equal; ring. }
  rewrite EP. generalize (Rmin (5.2 * reese_alpha RQD * qu * D) (reese_alpha RQD * qu * D * (1 + 1.4 * xr / D))). intros P.
  replace (c * Ei * Rmin 500 (100 + 400 * xr / (3 * D))) with (c * (Ei * Rmin 500 (100 + 400 * xr / (3 * D)))) by ring.
  generalize (Ei * Rmin 500 (100 + 400 * xr / (3 * D))). intros E. generalize (rpow (k * D) 0.25) as r. intros r.
  apply nonzero_smap; [replace (2 * r * (c * E)) with (c * (2 * r * E)) by ring; apply zero_iff; lra|]. intros HN.
  replace (c * P / (2 * r * (c * E))) with (P / (2 * r * E)).
  2:{ assert (r <> 0) by (intros ->; apply HN; ring). assert (E <> 0) by (intros ->; apply HN; ring). field. repeat split; auto; lra. }
  generalize (reese_y (rpow (P / (2 * r * E)) 1.333) (k * D) (Nat.max 8 n)) as ys. intros ys.
  replace (mapM (reese_p (c * P) (c * E) (rpow (P / (2 * r * E)) 1.333) (k * D)) ys)
    with (mapM (reese_p (c * P) (c * E) (rpow (P / (2 * r * E)) 1.333) (k * D)) (map (Rmult 1) ys)).
  2:{ f_equal. rewrite <- (map_id ys) at 2. apply map_ext. intros. ring. }
  apply (bind_smap _ _ _ _ (map (Rmult c))).
  - apply mapM_units. intros x. rewrite Rmult_1_l. unfold reese_p. destruct (Rle_dec x (rpow (P / (2 * r * E)) 1.333)).
    + simpl. f_equal. rewrite <- Rmin_units by lra. f_equal. ring.
    + apply same_nonzero. intros _. simpl. f_equal. rewrite <- Rmin_units by lra. f_equal. field.
  - intros p _. unfold smap, pt. cbn [bind fst snd]. do 2 f_equal. rewrite <- (map_id ys) at 1. apply map_ext. intros. ring.
Qed.

(** ** Weak rock in another unit of length: the end of the straight part goes with the power 0.99975 of the unit *)
Lemma reese_first : forall Ei qu RQD xr D k n, 0 < Ei -> 0 < qu -> 0 < D -> 0 <= xr -> 0 < k -> exists y p,
  reese_weakrock Ei qu RQD xr D k n = Ok (y, p) /\
  nth 1 y 0 = rpow (Rmin (5.2 * reese_alpha RQD * qu * D) (reese_alpha RQD * qu * D * (1 + 1.4 * xr / D)) / (2 * rpow (k * D) 0.25 * (Ei * Rmin 500 (100 + 400 * xr / (3 * D))))) 1.333.
Proof.
  intros Ei qu RQD xr D k n HE Hq HD Hx Hk. unfold reese_weakrock. cbv zeta. unfold PisaModel.nonzero at 1. destruct (Req_EM_T D 0) as [Z|_]; [lra|].
  assert (0 < k * D) by (apply Rmult_lt_0_compat; auto).
  assert (P1 : 0 < Rmin 500 (100 + 400 * xr / (3 * D))).
  { apply Rmin_glb_lt; [lra|]. assert (0 <= 400 * xr / (3 * D)); [|lra]. apply Rmult_le_pos; [lra|]. left. apply Rinv_0_lt_compat. lra. }
  assert (P2 : 0 < 2 * rpow (k * D) 0.25 * (Ei * Rmin 500 (100 + 400 * xr / (3 * D)))).
  { apply Rmult_lt_0_compat; [|apply Rmult_lt_0_compat; auto]. rewrite rpow_pos by auto. pose proof (Rpower_gt0 (k * D) 0.25). lra. }
  unfold PisaModel.nonzero at 1. destruct (Req_EM_T (2 * rpow (k * D) 0.25 * (Ei * Rmin 500 (100 + 400 * xr / (3 * D)))) 0) as [Z|_]; [lra|].
  generalize (Rmin (5.2 * reese_alpha RQD * qu * D) (reese_alpha RQD * qu * D * (1 + 1.4 * xr / D))). intros P.
  generalize dependent (Ei * Rmin 500 (100 + 400 * xr / (3 * D))). intros E _.
  set (yA := rpow (P / (2 * rpow (k * D) 0.25 * E)) 1.333).
  assert (Em : exists p, mapM (reese_p P E yA (k * D)) (reese_y yA (k * D) (Nat.max 8 n)) = Ok p).
  { eexists. apply mapM_ok with (g := fun v => if Rle_dec v yA then Rmin P (E * v) else Rmin P (P / 2 * rpow (v / (k * D)) 0.25)).
    intros x _. unfold reese_p, PisaModel.nonzero. destruct (Rle_dec x yA); auto. destruct (Req_EM_T (k * D) 0); [lra|auto]. }
  destruct Em as (p & Em). exists (reese_y yA (k * D) (Nat.max 8 n)), p. rewrite Em. split; [reflexivity|].
  unfold reese_y. cbv zeta. cbn [app nth]. assert (4 <= Nat.div (Nat.max 8 n) 2)%nat by (apply (Nat.div_le_mono 8 (Nat.max 8 n) 2); lia).
  destruct (Nat.div (Nat.max 8 n) 2) as [|[|d]]; try lia. unfold linspace. cbn [seq map app nth INR]. unfold Rdiv. ring.
Qed.

Lemma reese_length : forall f l Ei qu RQD xr D k n, 0 < f -> 0 < l -> 0 < Ei -> 0 < qu -> 0 < D -> 0 <= xr -> 0 < k -> exists y p y' p',
  reese_weakrock Ei qu RQD xr D k n = Ok (y, p) /\ reese_weakrock (per_area f l * Ei) (per_area f l * qu) RQD (l * xr) (l * D) k n = Ok (y', p') /\
  0 < nth 1 y 0 /\ nth 1 y' 0 = Rpower l 0.99975 * nth 1 y 0.
Proof.
  intros f l Ei qu RQD xr D k n Hf Hl HE Hq HD Hx Hk. pose proof (st_pos f l Hf Hl) as Hst.
  assert (0 < per_area f l * Ei) by (apply Rmult_lt_0_compat; auto). assert (0 < per_area f l * qu) by (apply Rmult_lt_0_compat; auto).
  assert (0 < l * D) by (apply Rmult_lt_0_compat; auto). assert (0 <= l * xr) by (apply Rmult_le_pos; lra).
  destruct (reese_first Ei qu RQD xr D k n) as (y & p & A & B); auto.
  destruct (reese_first (per_area f l * Ei) (per_area f l * qu) RQD (l * xr) (l * D) k n) as (y' & p' & A' & B'); auto.
  exists y, p, y', p'. split; [auto|]. split; [auto|]. rewrite B, B'. clear A A' B B'.
  pose proof (reduction_range RQD) as Ra. rewrite <- alpha_spec in Ra. set (al := reese_alpha RQD) in *.
  rewrite (ratio_eq l Hl) by lra. replace (400 * (l * xr) / (3 * (l * D))) with (400 * xr / (3 * D)) by (field; split; lra).
  assert (EP : Rmin (5.2 * al * (per_area f l * qu) * (l * D)) (al * (per_area f l * qu) * (l * D) * (1 + 1.4 * xr / D)) = per_area f l * l * Rmin (5.2 * al * qu * D) (al * qu * D * (1 + 1.4 * xr / D))).
  { rewrite <- Rmin_units; [f_equal; ring|]. apply Rmult_le_pos; lra. }
  rewrite EP. clear EP. assert (HP : 0 < Rmin (5.2 * al * qu * D) (al * qu * D * (1 + 1.4 * xr / D))).
  { assert (0 < al * qu * D) by (apply Rmult_lt_0_compat; [apply Rmult_lt_0_compat|]; lra). assert (0 <= 1.4 * xr / D) by (apply Rmult_le_pos; [lra|left; apply Rinv_0_lt_compat; auto]).
    apply Rmin_glb_lt; [replace (5.2 * al * qu * D) with (5.2 * (al * qu * D)) by ring; lra|]. apply Rmult_lt_0_compat; lra. }
  generalize dependent (Rmin (5.2 * al * qu * D) (al * qu * D * (1 + 1.4 * xr / D))). intros P HP.
  assert (P1 : 0 < Rmin 500 (100 + 400 * xr / (3 * D))).
  { apply Rmin_glb_lt; [lra|]. assert (0 <= 400 * xr / (3 * D)); [|lra]. apply Rmult_le_pos; [lra|]. left. apply Rinv_0_lt_compat. lra. }
  replace (per_area f l * Ei * Rmin 500 (100 + 400 * xr / (3 * D))) with (per_area f l * (Ei * Rmin 500 (100 + 400 * xr / (3 * D)))) by ring.
  assert (HEp : 0 < Ei * Rmin 500 (100 + 400 * xr / (3 * D))) by (apply Rmult_lt_0_compat; auto).
  generalize dependent (Ei * Rmin 500 (100 + 400 * xr / (3 * D))). intros E HEp.
  assert (HkD : 0 < k * D) by (apply Rmult_lt_0_compat; auto). assert (HkD' : 0 < k * (l * D)) by (apply Rmult_lt_0_compat; auto).
  rewrite !(rpow_pos (k * _)) by auto. replace (k * (l * D)) with (l * (k * D)) by ring. rewrite <- (Rpower_mult_distr l (k * D)) by auto.
  pose proof (Rpower_gt0 l 0.25) as G1. pose proof (Rpower_gt0 (k * D) 0.25) as G2. set (rl := Rpower l 0.25) in *. set (r := Rpower (k * D) 0.25) in *.
  assert (G3 : 0 < P / (2 * r * E)). { apply Rdiv_lt_0_compat; auto. apply Rmult_lt_0_compat; [lra|auto]. }
  assert (El : l = rl * Rpower l 0.75). { unfold rl. rewrite <- Rpower_plus. replace (0.25 + 0.75) with 1 by lra. rewrite Rpower_1; auto. }
  assert (EQ : per_area f l * l * P / (2 * (rl * r) * (per_area f l * E)) = Rpower l 0.75 * (P / (2 * r * E))).
  { rewrite El at 2. field. repeat split; lra. }
  rewrite EQ. pose proof (Rpower_gt0 l 0.75). assert (0 < Rpower l 0.75 * (P / (2 * r * E))) by (apply Rmult_lt_0_compat; auto).
  rewrite !rpow_pos by auto. split; [apply Rpower_gt0|]. rewrite <- Rpower_mult_distr by auto. f_equal. rewrite Rpower_mult. f_equal. lra.
Qed.
Lemma power_ne : forall l, 0 < l -> l <> 1 -> Rpower l 0.99975 <> l.
Proof.
  intros l Hl H E. assert (Rpower l 0.00025 * Rpower l 0.99975 = l) as K.
  { rewrite <- Rpower_plus. replace (0.00025 + 0.99975) with 1 by lra. apply Rpower_1. auto. }
  rewrite E in K. assert (Rpower l 0.00025 = 1) by nra. unfold Rpower in H0. assert (0.00025 * ln l = 0) by (apply exp_inv; rewrite H0, exp_0; auto).
  apply H. apply ln_inv; try lra. rewrite ln_1. lra.
Qed.

(** ** Shaft friction and end bearing *)
Lemma fmax_clay_units : forall c sig Su a, 0 < c -> sig <> 0 \/ Su = 0 -> fmax_api_clay (c * sig) (c * Su) a = c * fmax_api_clay sig Su a.
Proof.
  intros c sig Su a Hc H. unfold fmax_api_clay. cbv zeta. destruct (Req_EM_T (c * sig) 0) as [A|A], (Req_EM_T sig 0) as [B|B].
  - destruct H as [H| ->]; [contradiction|]. rewrite Rmult_0_r. ring.
  - exfalso. apply B. apply (zero_iff c); auto; lra.
  - exfalso. apply A. rewrite B. ring.
  - replace (c * Su / (c * sig)) with (Su / sig) by (field; split; auto; lra). ring.
Qed.
Lemma scale_units : forall c k v, scale (c * k) v = map (Rmult c) (scale k v).
Proof. intros. unfold scale. rewrite map_map. apply map_ext. intros. ring. Qed.
Lemma scale_map : forall c k v, scale k (map (Rmult c) v) = map (Rmult c) (scale k v).
Proof. intros. unfold scale. rewrite !map_map. apply map_ext. intros. ring. Qed.
Lemma times_units : forall l c v m, times (map (Rmult c) v) (mult_units l m) = smap (map (Rmult c)) (times v m).
Proof. intros l c v [k|g]; simpl; auto. f_equal. apply scale_map. Qed.
Lemma plug_units : forall l p tm cin cout, 0 < l -> plug_factors p tm (l * cin) (l * cout) = smap (fun pf => (l * fst pf, snd pf)) (plug_factors p tm cin cout).
Proof.
  intros l p tm cin cout Hl. destruct p; simpl.
  - do 2 f_equal. ring.
  - apply nonzero_smap; [apply zero_iff; lra|]. intros H. simpl. do 2 f_equal. field. split; auto; lra.
  - replace (l * cout + l * cin) with (l * (cout + cin)) by ring. apply nonzero_smap; [apply zero_iff; lra|]. intros H. simpl. do 2 f_equal. field. split; auto; lra.
  - apply nonzero_smap; [apply zero_iff; lra|]. intros H. simpl. do 2 f_equal. field. split; auto; lra.
Qed.

Lemma clay_tz_units : forall f l m u idx cin cout sig height depth D n, 0 < f -> 0 < l -> sig <> 0 ->
  clay_tz (clay_units f l m) u idx (l * cin) (l * cout) (per_area f l * sig) (l * height) (l * depth) (l * D) n
  = smap (pt l (per_length f l)) (clay_tz m u idx cin cout sig height depth D n).
Proof.
  intros f l m u idx cin cout sig height depth D n Hf Hl Hs. unfold clay_tz, clay_units. cbn [ca_Su_top ca_Su_bottom ca_plug ca_tension ca_residual ca_zm ca_tm].
  apply (bind_smap _ _ _ _ (Rmult (per_area f l))); [apply at_depth_units; auto|]. intros Su _.
  apply (bind_smap _ _ _ _ (fun pf => (l * fst pf, snd pf))); [apply plug_units; auto|]. intros [total tens] _. cbn [fst snd]. unfold tz_api_clay.
  rewrite fmax_clay_units by (auto using st_pos). rewrite !scale_units.
  apply (bind_smap _ _ _ _ (map (Rmult l))); [apply times_units|]. intros z _.
  apply (bind_smap _ _ _ _ (map (Rmult (per_area f l)))); [apply times_units|]. intros t _. unfold smap, pt. cbn [bind fst snd]. do 2 f_equal.
  rewrite scale_units, scale_map, map_map. apply map_ext. intros v. rewrite line_eq by auto. ring.
Qed.
Lemma tip_units : forall l p a b, tip_surface p (l ^ 2 * a) (l ^ 2 * b) = l ^ 2 * tip_surface p a b.
Proof. intros l [] a b; reflexivity. Qed.
Lemma clay_Qz_units : forall f l m u idx tip foot height depth D n, 0 < f -> 0 < l ->
  clay_Qz (clay_units f l m) u idx (l ^ 2 * tip) (l ^ 2 * foot) (l * height) (l * depth) (l * D) n = smap (pt l f) (clay_Qz m u idx tip foot height depth D n).
Proof.
  intros f l m u idx tip foot height depth D n Hf Hl. unfold clay_Qz, clay_units. cbn [ca_Su_top ca_Su_bottom ca_plug ca_wm ca_Qm].
  apply (bind_smap _ _ _ _ (Rmult (per_area f l))); [apply at_depth_units; auto|]. intros Su _. unfold qz_api_clay, smap, pt. cbn [bind fst snd]. do 2 f_equal.
  - rewrite scale_units, scale_map. auto.
  - rewrite tip_units. unfold Qmax_api_clay. replace (9 * (per_area f l * Su)) with (per_area f l * (9 * Su)) by ring. rewrite !scale_units, !scale_map, !map_map. apply map_ext. intros v.
    rewrite (force_eq f l Hl) at 2. ring.
Qed.

(** the limiting values of the API sand tables are stresses in kPa *)
Definition friction_unlimited (c sig delta K : R) : Prop :=
  K * sig * tan (delta * PI / 180) <= rinterp fs_table delta /\ c * (K * sig * tan (delta * PI / 180)) <= rinterp fs_table delta.
Definition bearing_unlimited (c sig delta : R) : Prop :=
  sig * rinterp Nq_table delta <= rinterp Qmax_table delta /\ c * (sig * rinterp Nq_table delta) <= rinterp Qmax_table delta.
Lemma fmax_sand_units : forall c sig delta K, friction_unlimited c sig delta K -> fmax_api_sand (c * sig) delta K = c * fmax_api_sand sig delta K.
Proof. intros c sig delta K [A B]. unfold fmax_api_sand. rewrite (Rmin_right _ (K * sig * _)) by auto. rewrite Rmin_right; [ring|]. lra. Qed.
Lemma Qmax_sand_units : forall c sig delta, bearing_unlimited c sig delta -> Qmax_api_sand (c * sig) delta = c * Qmax_api_sand sig delta.
Proof. intros c sig delta [A B]. unfold Qmax_api_sand. rewrite (Rmin_right _ (sig * _)) by auto. rewrite Rmin_right; [ring|]. lra. Qed.
Lemma fmax_sand_limited : forall c sig delta K, 1 < c -> 0 < rinterp fs_table delta -> rinterp fs_table delta <= K * sig * tan (delta * PI / 180) ->
  fmax_api_sand (c * sig) delta K = fmax_api_sand sig delta K /\ 0 < fmax_api_sand sig delta K.
Proof.
  intros c sig delta K Hc HT H. unfold fmax_api_sand. rewrite (Rmin_left _ (K * sig * _)) by auto. split; [|auto]. apply Rmin_left.
  replace (K * (c * sig) * tan (delta * PI / 180)) with (c * (K * sig * tan (delta * PI / 180))) by ring. nra.
Qed.
Lemma sand_tz_units : forall c m u idx cin cout sig height depth n, (forall d, at_depth (sa_delta_top m) (sa_delta_bottom m) depth height = Ok d -> friction_unlimited c sig d (sa_K m)) ->
  sand_tz m u idx cin cout (c * sig) height depth n = smap (pt 1 c) (sand_tz m u idx cin cout sig height depth n).
Proof.
  intros c m u idx cin cout sig height depth n H. unfold sand_tz.
  apply (bind_smap _ _ _ _ (fun x => x)); [destruct (at_depth _ _ _ _); auto|]. intros delta Hd. specialize (H _ Hd).
  apply (bind_smap _ _ _ _ (fun x => x)); [destruct (plug_factors _ _ _ _); auto|]. intros [total tens] _. unfold tz_api_sand. rewrite fmax_sand_units by auto. rewrite scale_units.
  apply (bind_smap _ _ _ _ (map (Rmult 1))).
  { assert (E : forall v, map (Rmult 1) v = v) by (intros v; rewrite <- map_id; apply map_ext; intros; ring). destruct (times _ _); simpl; [rewrite E|]; auto. }
  intros z _. apply (bind_smap _ _ _ _ (map (Rmult c))).
  { destruct (sa_tm m); simpl; auto. f_equal. apply scale_map. }
  intros t _. unfold smap, pt. cbn [bind fst snd]. do 2 f_equal. apply scale_map.
Qed.
Lemma sand_Qz_units : forall f l m u idx tip foot sig height depth D n, 0 < l ->
  (forall d, at_depth (sa_delta_top m) (sa_delta_bottom m) depth height = Ok d -> bearing_unlimited (per_area f l) sig d) ->
  sand_Qz (sand_units l m) u idx (l ^ 2 * tip) (l ^ 2 * foot) (per_area f l * sig) (l * height) (l * depth) (l * D) n = smap (pt l f) (sand_Qz m u idx tip foot sig height depth D n).
Proof.
  intros f l m u idx tip foot sig height depth D n Hl H. unfold sand_Qz, sand_units. cbn [sa_delta_top sa_delta_bottom sa_plug sa_wm sa_Qm].
  apply (bind_smap _ _ _ _ (Rmult 1)). { rewrite <- (at_depth_units l Hl), !Rmult_1_l. auto. }
  intros delta Hd. specialize (H _ Hd). rewrite Rmult_1_l. unfold qz_api_sand, smap, pt. cbn [bind fst snd]. rewrite Qmax_sand_units by auto. do 2 f_equal.
  - rewrite scale_units, scale_map. auto.
  - rewrite tip_units, !scale_units, !scale_map, !map_map. apply map_ext. intros v. rewrite (force_eq f l Hl) at 2. ring.
Qed.

(** ** Kraft *)
Lemma kraft_force : forall c fmax D G0 residual tf RF zif n, 0 < c ->
  kraft_modification (c * fmax) D (c * G0) residual tf RF zif n = smap (option_map (pt 1 c)) (kraft_modification fmax D G0 residual tf RF zif n).
Proof.
  intros c fmax D G0 residual tf RF zif n Hc. unfold kraft_modification. cbv zeta.
  set (N := if Nat.even (Nat.max 15 n) then S (Nat.max 15 n) else Nat.max 15 n). clearbody N.
  apply nonzero_smap; [apply zero_iff; lra|]. intros HG. apply same_nonzero. intros HR. destruct (Rlt_dec 0 ((zif - RF) / (1 - RF))); [|auto].
  destruct (Req_EM_T (c * fmax) 0) as [A|A], (Req_EM_T fmax 0) as [B|B]; auto.
  - exfalso. apply B. apply (zero_iff c); auto; lra.
  - exfalso. apply A. rewrite B. ring.
  - unfold smap. cbn [bind option_map]. unfold pt. cbn [fst snd].
    replace (linspace 0 (c * fmax) (half_even N - 2)) with (map (Rmult c) (linspace 0 fmax (half_even N - 2))) by (rewrite <- linspace_units; f_equal; ring).
    set (tp := linspace 0 fmax (half_even N - 2)).
    assert (Ez : map (fun t => t * 0.5 * D / (c * G0) * ln ((zif - RF * t / (c * fmax)) / (1 - RF * t / (c * fmax)))) (map (Rmult c) tp) = map (fun t => t * 0.5 * D / G0 * ln ((zif - RF * t / fmax) / (1 - RF * t / fmax))) tp).
    { rewrite map_map. apply map_ext. intros t. replace (RF * (c * t) / (c * fmax)) with (RF * t / fmax) by (field; split; auto; lra).
      replace (c * t * 0.5 * D / (c * G0)) with (t * 0.5 * D / G0) by (field; split; auto; lra). auto. }
    rewrite Ez. replace (c * fmax * D / (2 * (c * G0))) with (fmax * D / (2 * G0)) by (field; split; auto; lra).
    assert (E1 : forall v, map (Rmult 1) v = v) by (intros v; rewrite <- map_id; apply map_ext; intros; ring).
    replace (map (Rmult c) tp ++ [residual * (c * fmax); residual * (c * fmax)]) with (map (Rmult c) (tp ++ [residual * fmax; residual * fmax])).
    2:{ rewrite map_app. f_equal. cbn [map]. do 2 (apply f_equal2; [ring|]). auto. }
    generalize (tp ++ [residual * fmax; residual * fmax]) as t. intros t. rewrite E1. do 3 f_equal. rewrite map_app. f_equal.
    replace (tl (map (Rmult c) t)) with (map (Rmult c) (tl t)) by (destruct t; auto). rewrite <- map_rev, !map_map. apply map_ext. intros. ring.
Qed.

(** ** Moment curves of the API clays in another unit of force *)
Lemma pp_units : forall c v, 0 < c -> positive_part (map (Rmult c) v) = map (Rmult c) (positive_part v).
Proof.
  intros c v Hc. unfold positive_part. induction v as [|a v IH]; simpl; auto.
  destruct (Rle_dec 0 (c * a)) as [A|A], (Rle_dec 0 a) as [B|B]; simpl; rewrite IH; auto; exfalso.
  - apply B. nra.
  - apply A. nra.
Qed.
Lemma last_units : forall c v, last (map (Rmult c) v) 0 = c * last v 0.
Proof. intros c v. induction v as [|a v IH]; simpl; [ring|]. destruct v; simpl in *; auto. Qed.
Lemma pad_t_units : forall c n v, pad_t n (map (Rmult c) v) = map (Rmult c) (pad_t n v).
Proof. intros. unfold pad_t. rewrite map_length, last_units, map_app, rep_map. auto. Qed.
Lemma api_moment_units : forall c D n v norm, 0 < c -> api_moment D n (map (Rmult c) v) norm = map (Rmult c) (api_moment D n v norm).
Proof. intros. unfold api_moment. rewrite pp_units by auto. rewrite pad_t_units, !map_map. apply map_ext. intros. ring. Qed.
