(** Changing the units of force and length in the curve functions. *)
From Coq Require Import List Reals Lra Lia Arith Permutation.
From Verif Require Import Base ConicModel PisaModel ApiSandModel ApiClayModel ReeseModel AxialModel LateralModel ConicSpec ConicProofs DimSpec.
Import ListNotations.
Local Open Scope R_scope.

Definition smap {A B : Type} (g : A -> B) (r : res A) : res B := bind r (fun a => Ok (g a)).
Definition cv (cx cy : R) (c : curve) : curve := (map (Rmult cx) (fst c), map (option_map (Rmult cy)) (snd c)).
Definition pt (cx cy : R) (c : list R * list R) : list R * list R := (map (Rmult cx) (fst c), map (Rmult cy) (snd c)).
Definition rw (cx cy : R) (c : curves) : curves := (map (map (Rmult cx)) (fst c), map (map (option_map (Rmult cy))) (snd c)).

Lemma measured_cv : forall cx cy r r', r' = smap (cv cx cy) r -> measured cx cy r r'.
Proof. intros cx cy [c|e] r' ->; simpl; auto. Qed.
Lemma measured_rw : forall cx cy r r', r' = smap (rw cx cy) r -> measured_rows cx cy r r'.
Proof. intros cx cy [c|e] r' ->; simpl; auto. Qed.
Lemma measured_pt : forall cx cy r r', r' = smap (pt cx cy) r -> measured_points cx cy r r'.
Proof. intros cx cy [c|e] r' ->; simpl; auto. Qed.

Lemma bind_smap : forall (A B C D : Type) (g : A -> C) (h : B -> D) (r : res A) (r' : res C) (k : A -> res B) (k' : C -> res D),
  r' = smap g r -> (forall a, r = Ok a -> k' (g a) = smap h (k a)) -> bind r' k' = smap h (bind r k).
Proof. intros A B C D g h [a|e] r' k k' -> H; simpl; auto. Qed.
Lemma nonzero_smap : forall (A B : Type) (g : A -> B) d d' r r', (d' = 0 <-> d = 0) -> (d <> 0 -> r' = smap g r) -> PisaModel.nonzero d' r' = smap g (PisaModel.nonzero d r).
Proof.
  intros A B g d d' r r' H K. unfold PisaModel.nonzero. destruct (Req_EM_T d' 0) as [E|E], (Req_EM_T d 0) as [F|F]; auto.
  - exfalso. apply F, H, E.
  - exfalso. apply E, H, F.
Qed.
Lemma zero_iff : forall c d, c <> 0 -> (c * d = 0 <-> d = 0).
Proof. intros. split; intros K; [apply Rmult_integral in K; tauto|rewrite K; ring]. Qed.
Lemma smap_inside : forall (A B : Type) (g : A -> B) l q r r', 0 < l -> (r' = smap g r) -> forall q', q_height q' = l * q_height q -> q_depth q' = l * q_depth q -> inside_layer q' r' = smap g (inside_layer q r).
Proof.
  intros A B g l q r r' Hl -> q' E F. unfold inside_layer. rewrite E, F.
  destruct (Rlt_dec (l * q_height q) (l * q_depth q)) as [a|a], (Rlt_dec (q_height q) (q_depth q)) as [b|b]; auto; exfalso.
  - apply b. apply Rmult_lt_reg_l in a; auto.
  - apply a. apply Rmult_lt_compat_l; auto.
Qed.

Section Units.
Variables f l : R.
Hypothesis Hf : 0 < f.
Hypothesis Hl : 0 < l.
Let st := per_area f l.
Lemma st_pos : 0 < st.
Proof. unfold st, per_area. apply Rdiv_lt_0_compat; [auto|]. apply pow_lt. auto. Qed.
Lemma st_ne : st <> 0. Proof. pose proof st_pos. lra. Qed.
Lemma vol_pos : 0 < per_volume f l.
Proof. unfold per_volume. apply Rdiv_lt_0_compat; [auto|]. apply pow_lt. auto. Qed.
Lemma line_eq : per_length f l = st * l.
Proof using Hl. clear Hf. unfold st, per_area, per_length. field. lra. Qed.
Lemma force_eq : f = st * l ^ 2.
Proof using Hl. clear Hf. unfold st, per_area. field. lra. Qed.
Lemma couple_eq : couple f l = st * l ^ 3.
Proof using Hl. clear Hf. unfold st, per_area, couple. field. lra. Qed.

Lemma ratio_eq : forall a X D, D <> 0 -> a * (l * X) / (l * D) = a * X / D.
Proof using Hl. intros. field. split; lra. Qed.

Lemma at_depth_units : forall c t b depth height, at_depth (c * t) (c * b) (l * depth) (l * height) = smap (Rmult c) (at_depth t b depth height).
Proof using Hl.
  intros. unfold at_depth. apply nonzero_smap; [apply zero_iff; lra|]. intros H. simpl. f_equal. field. split; lra.
Qed.
Lemma in_layer_units : forall c p depth height, in_layer (param_times l c p) (l * depth) (l * height) = smap (Rmult c) (in_layer p depth height).
Proof using Hl.
  intros c p depth height. unfold in_layer. destruct p as [x|xs|g]; simpl; auto.
  - apply at_depth_units.
  - destruct xs as [|x [|y [|]]]; simpl; auto; apply at_depth_units.
Qed.
Lemma value_units : forall c p q, value (param_times l c p) (place_units f l q) = smap (Rmult c) (value p q).
Proof using Hl. intros. unfold value, place_units. simpl. apply in_layer_units. Qed.
Lemma custom_units : forall c p q, custom_value (param_times l c p) (place_units f l q) = smap (Rmult c) (custom_value p q).
Proof using Hl.
  intros. unfold custom_value, at_current_depth, place_units. cbn [q_depth q_height q_X]. destruct p as [x|xs|g]; try apply in_layer_units.
  simpl. do 3 f_equal. field. lra.
Qed.
Lemma at_X_units : forall m X, at_X (mult_units l m) (l * X) = at_X m X.
Proof using Hl. intros [c|g] X; simpl; auto. f_equal. field. lra. Qed.

Lemma with_four_units : forall (h : curve -> curve) w q k k', (forall x n kk y, k' x n kk y = smap h (k x n kk y)) ->
  with_four (four_units l w) (place_units f l q) k' = smap h (with_four w q k).
Proof using Hl.
  intros h w q k k' H. unfold with_four, four_units. cbn [f_X f_n f_k f_Y].
  apply (bind_smap _ _ _ _ (Rmult 1)); [apply custom_units|]. intros x _.
  apply (bind_smap _ _ _ _ (Rmult 1)); [apply custom_units|]. intros n _.
  apply (bind_smap _ _ _ _ (Rmult 1)); [apply custom_units|]. intros kk _.
  apply (bind_smap _ _ _ _ (Rmult 1)); [apply custom_units|]. intros y _. rewrite !Rmult_1_l. apply H.
Qed.

(** ** PISA curves *)
Lemma scaled_units : forall c cx cy num num' G0 sc sc', G0 <> 0 -> num' / (st * G0) = cx * (num / G0) -> sc' = cy * sc ->
  scaled c num' (st * G0) sc' = smap (cv cx cy) (scaled c num G0 sc).
Proof.
  intros [[x y]|e] cx cy num num' G0 sc sc' HG E ->; simpl; auto. unfold scaled. simpl.
  apply nonzero_smap; [apply zero_iff, st_ne|]. intros _. unfold cv. simpl. rewrite !map_map. do 2 f_equal.
  - apply map_ext. intros v. rewrite E. ring.
  - apply map_ext. intros [v|]; simpl; auto. f_equal. ring.
Qed.
Lemma scaled_any : forall c cx cy num num' G0 sc sc', (G0 <> 0 -> num' / (st * G0) = cx * (num / G0)) -> sc' = cy * sc ->
  scaled c num' (st * G0) sc' = smap (cv cx cy) (scaled c num G0 sc).
Proof.
  intros c cx cy num num' G0 sc sc' E K. destruct (Req_EM_T G0 0) as [Z|Z]; [|apply scaled_units; auto].
  unfold scaled, PisaModel.nonzero. destruct c as [[x y]|e]; simpl; auto.
  destruct (Req_EM_T G0 0); [|contradiction]. destruct (Req_EM_T (st * G0) 0) as [W|W]; auto. exfalso. apply W. rewrite Z. ring.
Qed.

Ltac pisa := intros; repeat (apply nonzero_smap; [apply zero_iff; lra|intros ?]); rewrite ?ratio_eq by auto.
Ltac fin := apply scaled_any; [intros ?; pose proof st_ne; field; repeat split; auto; lra|].

Lemma py_bothkennar_units : forall X Su G0 D m, py_bothkennar (l * X) (st * Su) (st * G0) (l * D) m = smap (cv l (per_length f l)) (py_bothkennar X Su G0 D m).
Proof. unfold py_bothkennar. pisa. fin. rewrite line_eq. ring. Qed.
Lemma py_cowden_units : forall X Su G0 D m, py_cowden (l * X) (st * Su) (st * G0) (l * D) m = smap (cv l (per_length f l)) (py_cowden X Su G0 D m).
Proof. unfold py_cowden. pisa. fin. rewrite line_eq. ring. Qed.
Lemma py_dunkirk_units : forall sig X Dr G0 D L m, py_dunkirk (st * sig) (l * X) Dr (st * G0) (l * D) (l * L) m = smap (cv l (per_length f l)) (py_dunkirk sig X Dr G0 D L m).
Proof. unfold py_dunkirk. pisa. fin. rewrite line_eq. ring. Qed.
Lemma py_custom_sand_units : forall sig G0 D X n k Y m, py_custom_sand (st * sig) (st * G0) (l * D) X n k Y m = smap (cv l (per_length f l)) (py_custom_sand sig G0 D X n k Y m).
Proof. unfold py_custom_sand. intros. fin. rewrite line_eq. ring. Qed.
Lemma py_custom_clay_units : forall Su G0 D X n k Y m, py_custom_clay (st * Su) (st * G0) (l * D) X n k Y m = smap (cv l (per_length f l)) (py_custom_clay Su G0 D X n k Y m).
Proof. unfold py_custom_clay. intros. fin. rewrite line_eq. ring. Qed.

Lemma same_nonzero : forall (A B : Type) (g : A -> B) d r r', (d <> 0 -> r' = smap g r) -> PisaModel.nonzero d r' = smap g (PisaModel.nonzero d r).
Proof. intros. apply nonzero_smap; tauto. Qed.

Lemma mt_bothkennar_units : forall X Su G0 D m, mt_bothkennar (l * X) (st * Su) (st * G0) (l * D) m = smap (cv 1 f) (mt_bothkennar X Su G0 D m).
Proof. unfold mt_bothkennar. pisa. apply same_nonzero. intros _. fin. rewrite force_eq. ring. Qed.
Lemma mt_cowden_units : forall X Su G0 D m, mt_cowden (l * X) (st * Su) (st * G0) (l * D) m = smap (cv 1 f) (mt_cowden X Su G0 D m).
Proof. unfold mt_cowden. pisa. apply same_nonzero. intros _. fin. rewrite force_eq. ring. Qed.
Lemma abs_units : forall p, Rabs (per_length f l * p) = per_length f l * Rabs p.
Proof. intros. rewrite Rabs_mult, (Rabs_right (per_length f l)); auto. rewrite line_eq. pose proof st_pos. apply Rle_ge, Rmult_le_pos; lra. Qed.
Lemma mt_dunkirk_units : forall sig X Dr G0 p D L m, mt_dunkirk (st * sig) (l * X) Dr (st * G0) (per_length f l * p) (l * D) (l * L) m = smap (cv 1 f) (mt_dunkirk sig X Dr G0 p D L m).
Proof. unfold mt_dunkirk. pisa. apply same_nonzero. intros _. rewrite abs_units. fin. rewrite line_eq, force_eq. ring. Qed.
Lemma mt_custom_sand_units : forall sig G0 p D X n k Y m, mt_custom_sand (st * sig) (st * G0) (per_length f l * p) (l * D) X n k Y m = smap (cv 1 f) (mt_custom_sand sig G0 p D X n k Y m).
Proof. unfold mt_custom_sand. intros. fin. rewrite line_eq, force_eq. ring. Qed.
Lemma mt_custom_clay_units : forall Su G0 D X n k Y m, mt_custom_clay (st * Su) (st * G0) (l * D) X n k Y m = smap (cv 1 f) (mt_custom_clay Su G0 D X n k Y m).
Proof. unfold mt_custom_clay. intros. fin. rewrite force_eq. ring. Qed.

Lemma Hb_bothkennar_units : forall Su G0 D L m, Hb_bothkennar (st * Su) (st * G0) (l * D) (l * L) m = smap (cv l f) (Hb_bothkennar Su G0 D L m).
Proof. unfold Hb_bothkennar. pisa. fin. rewrite force_eq. ring. Qed.
Lemma Hb_cowden_units : forall Su G0 D L m, Hb_cowden (st * Su) (st * G0) (l * D) (l * L) m = smap (cv l f) (Hb_cowden Su G0 D L m).
Proof. unfold Hb_cowden. pisa. fin. rewrite force_eq. ring. Qed.
Lemma Hb_dunkirk_units : forall sig Dr G0 D L m, Hb_dunkirk (st * sig) Dr (st * G0) (l * D) (l * L) m = smap (cv l f) (Hb_dunkirk sig Dr G0 D L m).
Proof. unfold Hb_dunkirk. pisa. fin. rewrite force_eq. ring. Qed.
Lemma Hb_custom_sand_units : forall sig G0 D X n k Y m, Hb_custom_sand (st * sig) (st * G0) (l * D) X n k Y m = smap (cv l f) (Hb_custom_sand sig G0 D X n k Y m).
Proof. unfold Hb_custom_sand. intros. fin. rewrite force_eq. ring. Qed.
Lemma Hb_custom_clay_units : forall Su G0 D X n k Y m, Hb_custom_clay (st * Su) (st * G0) (l * D) X n k Y m = smap (cv l f) (Hb_custom_clay Su G0 D X n k Y m).
Proof. unfold Hb_custom_clay. intros. fin. rewrite force_eq. ring. Qed.
Lemma Mb_bothkennar_units : forall Su G0 D L m, Mb_bothkennar (st * Su) (st * G0) (l * D) (l * L) m = smap (cv 1 (couple f l)) (Mb_bothkennar Su G0 D L m).
Proof. unfold Mb_bothkennar. pisa. fin. rewrite couple_eq. ring. Qed.
Lemma Mb_cowden_units : forall Su G0 D L m, Mb_cowden (st * Su) (st * G0) (l * D) (l * L) m = smap (cv 1 (couple f l)) (Mb_cowden Su G0 D L m).
Proof. unfold Mb_cowden. pisa. fin. rewrite couple_eq. ring. Qed.
Lemma Mb_dunkirk_units : forall sig Dr G0 D L m, Mb_dunkirk (st * sig) Dr (st * G0) (l * D) (l * L) m = smap (cv 1 (couple f l)) (Mb_dunkirk sig Dr G0 D L m).
Proof. unfold Mb_dunkirk. pisa. fin. rewrite couple_eq. ring. Qed.
Lemma Mb_custom_sand_units : forall sig G0 D X n k Y m, Mb_custom_sand (st * sig) (st * G0) (l * D) X n k Y m = smap (cv 1 (couple f l)) (Mb_custom_sand sig G0 D X n k Y m).
Proof. unfold Mb_custom_sand. intros. fin. rewrite couple_eq. ring. Qed.
Lemma Mb_custom_clay_units : forall Su G0 D X n k Y m, Mb_custom_clay (st * Su) (st * G0) (l * D) X n k Y m = smap (cv 1 (couple f l)) (Mb_custom_clay Su G0 D X n k Y m).
Proof. unfold Mb_custom_clay. intros. fin. rewrite couple_eq. ring. Qed.

(** ** Clay curves *)
Lemma leb_units : forall x a, (if Rle_dec (l * x) (l * a) then true else false) = (if Rle_dec x a then true else false).
Proof using Hl.
  intros x a. destruct (Rle_dec (l * x) (l * a)) as [A|A], (Rle_dec x a) as [B|B]; auto; exfalso.
  - apply B. apply Rmult_le_reg_l in A; auto.
  - apply A. apply Rmult_le_compat_l; lra.
Qed.
Lemma rinsert_units : forall xs x, rinsert (l * x) (map (Rmult l) xs) = map (Rmult l) (rinsert x xs).
Proof using Hl.
  induction xs as [|a xs IH]; intros x; simpl; auto. pose proof (leb_units x a) as E.
  destruct (Rle_dec (l * x) (l * a)), (Rle_dec x a); try discriminate; simpl; auto. rewrite IH. auto.
Qed.
Lemma rsort_units : forall xs, rsort (map (Rmult l) xs) = map (Rmult l) (rsort xs).
Proof using Hl. induction xs as [|a xs IH]; simpl; auto. rewrite IH. apply rinsert_units. Qed.
Lemma filter_units : forall ymax xs, filter (fun v => if Rle_dec v (l * ymax) then true else false) (map (Rmult l) xs) = map (Rmult l) (filter (fun v => if Rle_dec v ymax then true else false) xs).
Proof using Hl. intros ymax xs. induction xs as [|a xs IH]; simpl; auto. rewrite leb_units. destruct (Rle_dec a ymax); simpl; rewrite IH; auto. Qed.
Lemma grid_units : forall ymax grid grid' added added' n, grid' = map (Rmult l) grid -> (forall i, added' i = l * added i) ->
  clay_grid (l * ymax) grid' added' n = map (Rmult l) (clay_grid ymax grid added n).
Proof using Hl.
  intros ymax grid grid' added added' n -> H. unfold clay_grid. rewrite filter_units, map_length, <- rsort_units, map_app, map_map.
  do 2 f_equal. apply map_ext. auto.
Qed.
Lemma mapM_units : forall (g : R -> R) (h h' : R -> res R) c xs, (forall x, h' (c * x) = smap g (h x)) -> mapM h' (map (Rmult c) xs) = smap (map g) (mapM h xs).
Proof.
  intros g h h' c xs H. induction xs as [|a xs IH]; simpl; auto. rewrite H, IH. destruct (h a); simpl; auto. destruct (mapM h xs); simpl; auto.
Qed.

Lemma Xr_units : forall sig X Su D J, clay_Xr (st * sig) (l * X) (st * Su) (l * D) J = smap (Rmult l) (clay_Xr sig X Su D J).
Proof.
  intros. pose proof st_pos as P. unfold clay_Xr. destruct (Req_EM_T (l * X) 0) as [A|A], (Req_EM_T X 0) as [B|B].
  - simpl. f_equal. ring.
  - exfalso. apply B. apply (zero_iff l); auto; lra.
  - exfalso. apply A. rewrite B. ring.
  - destruct (Req_EM_T (st * Su) 0) as [C|C], (Req_EM_T Su 0) as [E|E].
    + simpl. f_equal. ring.
    + exfalso. apply E. apply (zero_iff st); auto; lra.
    + exfalso. apply C. rewrite E. ring.
    + assert (K : st * sig / (l * X) * (l * D) / (st * Su) + J = sig / X * D / Su + J) by (field; repeat split; auto; lra).
      rewrite K. apply same_nonzero. intros Z. simpl. f_equal. generalize dependent (sig / X * D / Su + J). intros w _ Z. rewrite <- RmaxRmult by lra. f_equal; [field; auto|ring].
Qed.
Lemma y50_units : forall eps50 D, clay_y50 eps50 (l * D) = l * clay_y50 eps50 D.
Proof. intros. unfold clay_y50. ring. Qed.
Lemma Pmax_units : forall sig X Su D J, clay_Pmax (st * sig) (l * X) (st * Su) (l * D) J = per_length f l * clay_Pmax sig X Su D J.
Proof.
  intros. unfold clay_Pmax. rewrite line_eq. pose proof st_pos. assert (0 <= st * l) by (apply Rmult_le_pos; lra).
  unfold Rmin. destruct (Rle_dec (9 * (st * Su) * (l * D)) ((3 * (st * Su) + st * sig) * (l * D) + J * (st * Su) * (l * X))) as [A|A],
    (Rle_dec (9 * Su * D) ((3 * Su + sig) * D + J * Su * X)) as [B|B]; try ring; exfalso.
  - apply B. apply (Rmult_le_reg_l (st * l)); [apply Rmult_lt_0_compat; lra|]. lra.
  - apply A. apply (Rmult_le_compat_l (st * l)) in B; [lra|auto].
Qed.
Lemma ymax_units : forall y50 ymax, clay_ymax (l * y50) (l * ymax) = l * clay_ymax y50 ymax.
Proof using Hl.
  intros. unfold clay_ymax. destruct (Req_EM_T (l * ymax) 0) as [A|A], (Req_EM_T ymax 0) as [B|B]; try ring; exfalso.
  - apply B. apply (zero_iff l); auto; lra.
  - apply A. rewrite B. ring.
Qed.
Lemma ltb_units : forall (A : Type) x a (r s : A), (if Rlt_dec (l * x) (l * a) then r else s) = (if Rlt_dec x a then r else s).
Proof using Hl.
  intros A x a r s. destruct (Rlt_dec (l * x) (l * a)) as [P|P], (Rlt_dec x a) as [B|B]; auto; exfalso.
  - apply B. apply Rmult_lt_reg_l in P; auto.
  - apply P. apply Rmult_lt_compat_l; lra.
Qed.
Lemma power_units : forall c Pmax y50 v, clay_power (c * Pmax) (l * y50) (l * v) = smap (Rmult c) (clay_power Pmax y50 v).
Proof using Hl.
  intros. unfold clay_power. apply nonzero_smap; [apply zero_iff; lra|]. intros H. simpl. f_equal.
  replace (l * v / (l * y50)) with (v / y50) by (field; split; auto; lra). ring.
Qed.
Lemma smap_if : forall (A B : Type) (g : A -> B) (P Q : Prop) (d : {P} + {Q}) r s, smap g (if d then r else s) = if d then smap g r else smap g s.
Proof. intros. destruct d; auto. Qed.
Lemma clay_p_units : forall c fr b w kind Pmax y50 X Xr v,
  clay_p fr b w kind (c * Pmax) (l * y50) (l * X) (l * Xr) (l * v) = smap (Rmult c) (clay_p fr b w kind Pmax y50 X Xr v).
Proof using Hl.
  intros. destruct kind; simpl.
  - unfold clay_static. replace (8 * (l * y50)) with (l * (8 * y50)) by ring. rewrite ltb_units, power_units, smap_if. auto.
  - unfold clay_cyclic. rewrite !smap_if.
    replace (15 * (l * y50)) with (l * (15 * y50)) by ring. replace (b * (l * y50)) with (l * (b * y50)) by ring. rewrite !ltb_units, !power_units.
    assert (E : (if Rle_dec (l * X) (l * Xr) then true else false) = (if Rle_dec X Xr then true else false)) by apply leb_units.
    destruct (Rle_dec (l * X) (l * Xr)), (Rle_dec X Xr); try discriminate.
    + destruct (Rlt_dec (15 * y50) v); [|destruct (Rlt_dec (b * y50) v); auto].
      * apply nonzero_smap; [apply zero_iff; lra|]. intros H. simpl. f_equal. field. split; auto; lra.
      * apply nonzero_smap; [apply zero_iff; lra|]. intros H. apply nonzero_smap.
        { replace (w * (l * y50)) with (l * (w * y50)) by ring. apply zero_iff. lra. }
        intros K. simpl. f_equal. assert (w <> 0) by (intros ->; apply K; ring). assert (y50 <> 0) by (intros ->; apply K; ring). field. repeat split; auto; lra.
    + destruct (Rlt_dec (b * y50) v); auto. simpl. f_equal. ring.
Qed.

Lemma api_clay_units : forall u sig X Su eps50 D J kind ymax n,
  api_clay u (st * sig) (l * X) (st * Su) eps50 (l * D) J kind (l * ymax) n = smap (pt l (per_length f l)) (api_clay u sig X Su eps50 D J kind ymax n).
Proof.
  intros. unfold api_clay. apply (bind_smap _ _ _ _ (Rmult l)); [apply Xr_units|]. intros Xr _. cbv zeta. rewrite y50_units, ymax_units, Pmax_units.
  rewrite (grid_units _ [0; 0.1 * clay_y50 eps50 D; 0.3 * clay_y50 eps50 D; 1 * clay_y50 eps50 D; 3 * clay_y50 eps50 D; 8 * clay_y50 eps50 D; 15 * clay_y50 eps50 D; clay_ymax (clay_y50 eps50 D) ymax]
    _ (fun i => 15 * clay_y50 eps50 D + u i * (clay_ymax (clay_y50 eps50 D) ymax - 15 * clay_y50 eps50 D))).
  - apply (bind_smap _ _ _ _ (map (Rmult (per_length f l)))); [apply mapM_units; intros; apply clay_p_units|]. auto.
  - cbn [map]. repeat (apply f_equal2; [ring|]). auto.
  - intros i. ring.
Qed.
Lemma matlock_units : forall u sig X Su eps50 D J kind ymax n,
  matlock_1970 u (st * sig) (l * X) (st * Su) eps50 (l * D) J kind (l * ymax) n = smap (pt l (per_length f l)) (matlock_1970 u sig X Su eps50 D J kind ymax n).
Proof.
  intros. unfold matlock_1970. apply (bind_smap _ _ _ _ (Rmult l)); [apply Xr_units|]. intros Xr _. cbv zeta. rewrite y50_units, ymax_units, Pmax_units.
  rewrite (grid_units _ [0; 0.001 * clay_y50 eps50 D; 0.01 * clay_y50 eps50 D; 0.10 * clay_y50 eps50 D; 1 * clay_y50 eps50 D; 3 * clay_y50 eps50 D; 8 * clay_y50 eps50 D; 15 * clay_y50 eps50 D; clay_ymax (clay_y50 eps50 D) ymax]
    _ (fun i => 0.01 * clay_y50 eps50 D + u i * (8 - 0.01) * clay_y50 eps50 D)).
  - apply (bind_smap _ _ _ _ (map (Rmult (per_length f l)))); [apply mapM_units; intros; apply clay_p_units|]. auto.
  - cbn [map]. repeat (apply f_equal2; [ring|]). auto.
  - intros i. ring.
Qed.
Lemma modified_units : forall u sig X Su eps50 D J kind ymax n,
  modified_Matlock u (st * sig) (l * X) (st * Su) eps50 (l * D) J kind (l * ymax) n = smap (pt l (per_length f l)) (modified_Matlock u sig X Su eps50 D J kind ymax n).
Proof.
  intros. unfold modified_Matlock. apply (bind_smap _ _ _ _ (Rmult l)); [apply Xr_units|]. intros Xr _. cbv zeta. rewrite y50_units, ymax_units, Pmax_units.
  rewrite (grid_units _ [0; 0.01 * clay_y50 eps50 D; 0.10 * clay_y50 eps50 D; 1 * clay_y50 eps50 D; 3 * clay_y50 eps50 D; 8 * clay_y50 eps50 D; 15 * clay_y50 eps50 D; clay_ymax (clay_y50 eps50 D) ymax]
    _ (fun i => 0.01 * clay_y50 eps50 D + u i * (8 - 0.01) * clay_y50 eps50 D)).
  - apply (bind_smap _ _ _ _ (map (Rmult (per_length f l)))); [apply mapM_units; intros; apply clay_p_units|]. auto.
  - cbn [map]. repeat (apply f_equal2; [ring|]). auto.
  - intros i. ring.
Qed.

(** ** API sand *)
Lemma linspace_units : forall c a b n, linspace (c * a) (c * b) n = map (Rmult c) (linspace a b n).
Proof.
  intros c a b n. unfold linspace. destruct n as [|[|n]]; [reflexivity|reflexivity|]. rewrite map_map. apply map_ext. intros i. ring.
Qed.
Lemma Rmin_units : forall c x y, 0 <= c -> Rmin (c * x) (c * y) = c * Rmin x y.
Proof.
  intros c x y H. unfold Rmin at 2. destruct (Rle_dec x y) as [a|a].
  - apply Rmin_left. apply Rmult_le_compat_l; auto.
  - apply Rmin_right. apply Rmult_le_compat_l; auto. lra.
Qed.
Lemma vol_eq : per_volume f l * l * l = per_length f l.
Proof using Hl. clear Hf. unfold per_volume, per_length. field. lra. Qed.
Lemma line_pos : 0 < per_length f l.
Proof. rewrite line_eq. pose proof st_pos. apply Rmult_lt_0_compat; lra. Qed.

Definition sand_Pmax (c : R * R * R) (sig X D : R) : R := let '(C1, C2, C3) := c in Rmin (C3 * sig * D) (C1 * sig * X + C2 * sig * D).
Lemma api_sand_units : forall sig X phi D kind wet k ymax n, k <> 0 ->
  (ymax <> 0 \/ (0.1 <= X /\ 0.1 <= l * X /\ forall c, api_factors phi = Ok c -> sand_Pmax c sig X D <> 0)) ->
  api_sand (st * sig) (l * X) phi (l * D) kind wet (per_volume f l * k) (l * ymax) n = smap (pt l (per_length f l)) (api_sand sig X phi D kind wet k ymax n).
Proof.
  intros sig X phi D kind wet k ymax n Hk Hy. pose proof vol_pos as V. pose proof line_pos as LP. unfold api_sand. cbv zeta.
  assert (KA : forall B (h : B -> list R * list R) (kk kk' : R -> res (list R * list R)), (forall A, 0.9 <= A -> kk' A = smap (pt l (per_length f l)) (kk A)) ->
    bind (match kind with Static => PisaModel.nonzero (l * D) (Ok (Rmax 0.9 (3 - 0.8 * (l * X) / (l * D)))) | Cyclic => Ok 0.9 end) kk'
    = smap (pt l (per_length f l)) (bind (match kind with Static => PisaModel.nonzero D (Ok (Rmax 0.9 (3 - 0.8 * X / D))) | Cyclic => Ok 0.9 end) kk)).
  { intros B h kk kk' H. destruct kind; [|apply H; lra]. unfold PisaModel.nonzero.
    destruct (Req_EM_T (l * D) 0) as [a|a], (Req_EM_T D 0) as [b|b]; auto.
    - exfalso. apply b. apply (zero_iff l); auto; lra.
    - exfalso. apply a. rewrite b. ring.
    - rewrite ratio_eq by auto. simpl. apply H. apply Rmax_l. }
  apply (KA R (fun _ => ([], []))). clear KA. intros A HA.
  assert (K1 : (if Req_EM_T (per_volume f l * k) 0 then Ok (api_k phi wet) else if Rlt_dec (per_volume f l * k) 0 then Err ValueError else Ok (per_volume f l * k))
    = smap (Rmult (per_volume f l)) (if Req_EM_T k 0 then Ok (api_k phi wet) else if Rlt_dec k 0 then Err ValueError else Ok k)).
  { destruct (Req_EM_T (per_volume f l * k) 0) as [a|a]; [exfalso; apply Hk; apply (zero_iff (per_volume f l)); auto; lra|].
    destruct (Req_EM_T k 0); [contradiction|]. destruct (Rlt_dec (per_volume f l * k) 0) as [b|b], (Rlt_dec k 0) as [d|d]; auto; exfalso.
    - apply d. apply (Rmult_lt_reg_l (per_volume f l)); lra.
    - apply b. replace 0 with (per_volume f l * 0) by ring. apply Rmult_lt_compat_l; auto. }
  apply (bind_smap _ _ _ _ (Rmult (per_volume f l))); [exact K1|]. intros kp Hkp.
  assert (kp = k) as ->. { destruct (Req_EM_T k 0); [contradiction|]. destruct (Rlt_dec k 0); [discriminate|]. injection Hkp as <-. auto. }
  apply (bind_smap _ _ _ _ (fun c => c)); [destruct (api_factors phi); auto|]. intros [[C1 C2] C3] EC.
  assert (EP : Rmin (C3 * (st * sig) * (l * D)) (C1 * (st * sig) * (l * X) + C2 * (st * sig) * (l * D)) = per_length f l * Rmin (C3 * sig * D) (C1 * sig * X + C2 * sig * D)).
  { rewrite <- Rmin_units by lra. rewrite line_eq. f_equal; ring. }
  rewrite EP.
  assert (HP : ymax <> 0 \/ (0.1 <= X /\ 0.1 <= l * X /\ Rmin (C3 * sig * D) (C1 * sig * X + C2 * sig * D) <> 0)).
  { destruct Hy as [Hy|(a & b & c)]; [left; auto|right]. split; [auto|split; [auto|]]. apply (c _ EC). }
  generalize dependent (Rmin (C3 * sig * D) (C1 * sig * X + C2 * sig * D)). intros P _ HP.
  assert (Ez : forall (B : Type) (r s : B), (if Req_EM_T (per_length f l * P) 0 then r else s) = (if Req_EM_T P 0 then r else s)).
  { intros. destruct (Req_EM_T (per_length f l * P) 0) as [a|a], (Req_EM_T P 0) as [b|b]; auto; exfalso.
    - apply b. apply (zero_iff (per_length f l)); auto; lra.
    - apply a. rewrite b. ring. }
  assert (Ey : (if Req_EM_T (l * ymax) 0 then 4 * A * (if Req_EM_T (per_length f l * P) 0 then (C3 * (l * D) + C2 * (l * D)) / 2 else per_length f l * P) / (per_volume f l * k * Rmax (l * X) 0.1) else l * ymax)
    = l * (if Req_EM_T ymax 0 then 4 * A * (if Req_EM_T P 0 then (C3 * D + C2 * D) / 2 else P) / (k * Rmax X 0.1) else ymax)).
  { destruct (Req_EM_T (l * ymax) 0) as [a|a], (Req_EM_T ymax 0) as [b|b]; auto.
    - destruct HP as [HP|(h1 & h2 & h3)]; [contradiction|]. rewrite Ez. destruct (Req_EM_T P 0); [contradiction|]. rewrite !Rmax_left by lra.
      rewrite <- vol_eq. field. repeat split; auto; lra.
    - exfalso. apply b. apply (zero_iff l); auto; lra.
    - exfalso. apply a. rewrite b. ring. }
  rewrite Ey. generalize (if Req_EM_T ymax 0 then 4 * A * (if Req_EM_T P 0 then (C3 * D + C2 * D) / 2 else P) / (k * Rmax X 0.1) else ymax). intros Y.
  unfold smap, pt. cbn [bind fst snd]. replace (linspace 0 (l * Y) (Nat.max 8 n)) with (map (Rmult l) (linspace 0 Y (Nat.max 8 n))) by (rewrite <- linspace_units; f_equal; ring).
  f_equal. apply f_equal2; [reflexivity|]. rewrite !map_map. apply map_ext. intros v. rewrite Ez. destruct (Req_EM_T P 0); [ring|].
  replace (per_volume f l * k * (l * X) * (l * v) / (A * (per_length f l * P))) with (k * X * v / (A * P)); [ring|].
  rewrite <- vol_eq. field. repeat split; auto; lra.
Qed.

(** ** Moment springs *)
Lemma mapM_smap : forall (A B C D : Type) (g : A -> C) (h : B -> D) (r : A -> res B) (r' : C -> res D) xs, (forall x, r' (g x) = smap h (r x)) ->
  mapM r' (map g xs) = smap (map h) (mapM r xs).
Proof. intros A B C D g h r r' xs H. induction xs as [|a xs IH]; simpl; auto. rewrite H, IH. destruct (r a); simpl; auto. destruct (mapM r xs); simpl; auto. Qed.
Lemma rep_zero : forall c n, repeat 0 n = map (Rmult c) (repeat 0 n).
Proof. intros c n. induction n; simpl; auto. rewrite <- IHn. f_equal. ring. Qed.
Lemma rep_Some : forall c n, repeat (Some 0) n = map (option_map (Rmult c)) (repeat (Some 0) n).
Proof. intros c n. induction n; simpl; auto. rewrite <- IHn. do 2 f_equal. ring. Qed.
Lemma rep_map : forall (A B : Type) (g : A -> B) x n, map g (repeat x n) = repeat (g x) n.
Proof. intros. induction n; simpl; auto. rewrite IHn. auto. Qed.
Lemma mt_rows_units : forall c cx cy n p row row', (forall v, row' (option_map (Rmult c) v) = smap (cv cx cy) (row v)) ->
  mt_rows n (map (option_map (Rmult c)) p) row' = smap (rw cx cy) (mt_rows n p row).
Proof.
  intros c cx cy n p row row' H. unfold mt_rows. rewrite firstn_map, map_length.
  apply (bind_smap _ _ _ _ (map (cv cx cy))); [apply mapM_smap; auto|]. intros cs _. destruct (Nat.ltb n (length p)); auto. simpl. unfold rw. simpl.
  rewrite !map_app, !map_map, !rep_map. cbn [option_map]. rewrite !Rmult_0_r. auto.
Qed.
Lemma of_p_units : forall c cx cy g g', (forall v, g' (c * v) = smap (cv cx cy) (g v)) -> forall v, of_p g' (option_map (Rmult c) v) = smap (cv cx cy) (of_p g v).
Proof.
  intros c cx cy g g' H [v|]; simpl; auto. apply (bind_smap _ _ _ _ (cv cx cy)); [rewrite <- H; f_equal; ring|]. intros [x y] _. simpl. unfold cv. simpl. rewrite !map_map. auto.
Qed.

(** ** The spring functions *)
Lemma numbers_units : forall cx cy r r', r' = smap (pt cx cy) r -> numbers r' = smap (cv cx cy) (numbers r).
Proof. intros cx cy [[x y]|e] r' ->; simpl; auto. unfold cv. simpl. rewrite !map_map. auto. Qed.
Lemma scaled_by_units : forall cx cy a b c, scaled_by a b (cv cx cy c) = cv cx cy (scaled_by a b c).
Proof.
  intros cx cy a b [x y]. unfold scaled_by, cv. simpl. rewrite !map_map. f_equal; apply map_ext; [intros; ring|]. intros [v|]; simpl; auto. f_equal. ring.
Qed.
Lemma scaled_rows_units : forall cx cy a b c, scaled_rows a b (rw cx cy c) = rw cx cy (scaled_rows a b c).
Proof.
  intros cx cy a b [x y]. unfold scaled_rows, rw. simpl. rewrite !map_map. f_equal; apply map_ext; intros r; rewrite !map_map; apply map_ext; [intros; ring|].
  intros [v|]; simpl; auto. f_equal. ring.
Qed.
Lemma no_curve_units : forall cx cy ymax n, no_curve (cx * ymax) n = cv cx cy (no_curve ymax n).
Proof. intros. unfold no_curve, cv. simpl. rewrite <- rep_Some. f_equal. rewrite <- linspace_units. f_equal. ring. Qed.

Ltac pick := apply (bind_smap _ _ _ _ (Rmult st)); [apply value_units || apply custom_units|intros ? _].
Ltac pick1 := apply (bind_smap _ _ _ _ (Rmult 1)); [apply value_units || apply custom_units|intros ? _; rewrite ?Rmult_1_l].

Lemma py_curve_units : forall m u q ymax n, dimensionless_formulas m ->
  py_curve (model_units f l m) u (place_units f l q) (l * ymax) n = smap (cv l (per_length f l)) (py_curve m u q ymax n).
Proof.
  intros m u q ymax n H. destruct m; try contradiction; simpl; cbn [q_sig q_X q_D q_L place_units].
  - pick. pick. apply py_bothkennar_units.
  - pick. pick. apply py_cowden_units.
  - pick1. pick. apply py_dunkirk_units.
  - pick. pick1. apply numbers_units, api_clay_units.
  - pick. pick1. apply numbers_units, modified_units.
  - pick. apply with_four_units. intros. apply py_custom_sand_units.
  - pick. pick. apply with_four_units. intros. apply py_custom_clay_units.
Qed.
Lemma p_mult_units : forall m q, at_X (p_multiplier (model_units f l m)) (q_X (place_units f l q)) = at_X (p_multiplier m) (q_X q).
Proof using Hl. intros m q. destruct m; simpl; apply at_X_units. Qed.
Lemma y_mult_units : forall m q, at_X (y_multiplier (model_units f l m)) (q_X (place_units f l q)) = at_X (y_multiplier m) (q_X q).
Proof using Hl. intros m q. destruct m; simpl; apply at_X_units. Qed.
Lemma m_mult_units : forall m q, at_X (m_multiplier (model_units f l m)) (q_X (place_units f l q)) = at_X (m_multiplier m) (q_X q).
Proof using Hl. intros m q. destruct m; simpl; auto; apply at_X_units. Qed.
Lemma t_mult_units : forall m q, at_X (t_multiplier (model_units f l m)) (q_X (place_units f l q)) = at_X (t_multiplier m) (q_X q).
Proof using Hl. intros m q. destruct m; simpl; auto; apply at_X_units. Qed.

Lemma py_spring_of_curve : forall cx cy m u q ymax ymax' n,
  py_curve (model_units f l m) u (place_units f l q) ymax' n = smap (cv cx cy) (py_curve m u q ymax n) ->
  py_spring_fct (model_units f l m) u (place_units f l q) ymax' n = smap (cv cx cy) (py_spring_fct m u q ymax n).
Proof using Hl.
  intros cx cy m u q ymax ymax' n H. unfold py_spring_fct. apply (smap_inside _ _ _ l); auto.
  apply (bind_smap _ _ _ _ (cv cx cy)); [apply H|]. intros c _. unfold smap. cbn [bind]. f_equal. rewrite p_mult_units, y_mult_units. apply scaled_by_units.
Qed.
Lemma py_spring_units : forall m u q ymax n, dimensionless_formulas m ->
  py_spring_fct (model_units f l m) u (place_units f l q) (l * ymax) n = smap (cv l (per_length f l)) (py_spring_fct m u q ymax n).
Proof. intros. apply py_spring_of_curve, py_curve_units. auto. Qed.

Lemma Hb_spring_units : forall m q ymax n, Hb_spring_fct (model_units f l m) (place_units f l q) (l * ymax) n = smap (cv l f) (Hb_spring_fct m q ymax n).
Proof.
  intros m q ymax n. destruct m; simpl; try (f_equal; apply no_curve_units); apply (smap_inside _ _ _ l); auto; cbn [q_sig q_X q_D q_L place_units].
  - pick. pick. apply Hb_bothkennar_units.
  - pick. pick. apply Hb_cowden_units.
  - pick1. pick. apply Hb_dunkirk_units.
  - pick. apply with_four_units. intros. apply Hb_custom_sand_units.
  - pick. pick. apply with_four_units. intros. apply Hb_custom_clay_units.
Qed.
Lemma Mb_spring_units : forall m q ymax n, Mb_spring_fct (model_units f l m) (place_units f l q) ymax n = smap (cv 1 (couple f l)) (Mb_spring_fct m q ymax n).
Proof.
  intros m q ymax n. destruct m; simpl; try (f_equal; rewrite <- no_curve_units, Rmult_1_l; reflexivity); apply (smap_inside _ _ _ l); auto; cbn [q_sig q_X q_D q_L place_units].
  - pick. pick. apply Mb_bothkennar_units.
  - pick. pick. apply Mb_cowden_units.
  - pick1. pick. apply Mb_dunkirk_units.
  - pick. apply with_four_units. intros. apply Mb_custom_sand_units.
  - pick. pick. apply with_four_units. intros. apply Mb_custom_clay_units.
Qed.

Definition pisa (m : lateral_model) : Prop :=
  match m with Bothkennar_clay _ _ _ | Cowden_clay _ _ _ | Dunkirk_sand _ _ _ | Custom_pisa_sand _ _ _ _ _ _ | Custom_pisa_clay _ _ _ _ _ _ _ => True | _ => False end.
Lemma mt_curve_units : forall m u idx q ymax n, pisa m ->
  mt_curve (model_units f l m) u idx (place_units f l q) ymax n = smap (rw 1 f) (mt_curve m u idx q ymax n).
Proof.
  intros m u idx q ymax n H. destruct m; try contradiction; simpl; cbn [q_sig q_X q_D q_L place_units].
  - pick. pick. apply (bind_smap _ _ _ _ (cv l (per_length f l))); [apply py_bothkennar_units|]. intros c _. apply mt_rows_units. intros. apply mt_bothkennar_units.
  - pick. pick. apply (bind_smap _ _ _ _ (cv l (per_length f l))); [apply py_cowden_units|]. intros c _. apply mt_rows_units. intros. apply mt_cowden_units.
  - pick1. pick. apply (bind_smap _ _ _ _ (cv l (per_length f l))); [apply py_dunkirk_units|]. intros c _. apply mt_rows_units. apply of_p_units. intros. apply mt_dunkirk_units.
  - pick. apply (bind_smap _ _ _ _ (cv l (per_length f l))); [apply with_four_units; intros; apply py_custom_sand_units|]. intros c _. apply mt_rows_units. apply of_p_units.
    intros. apply with_four_units. intros. apply mt_custom_sand_units.
  - pick. pick. apply (bind_smap _ _ _ _ (cv l (per_length f l))); [apply with_four_units; intros; apply py_custom_clay_units|]. intros c _. apply mt_rows_units.
    intros. apply with_four_units. intros. apply mt_custom_clay_units.
Qed.
Lemma mt_spring_units : forall m u idx q ymax n, pisa m ->
  mt_spring_fct (model_units f l m) u idx (place_units f l q) ymax n = smap (rw 1 f) (mt_spring_fct m u idx q ymax n).
Proof.
  intros m u idx q ymax n H. assert (E : forall m', pisa m' -> mt_spring_fct m' = fun u idx q ymax n => inside_layer q (bind (mt_curve m' u idx q ymax n) (fun c => Ok (scaled_rows (at_X (t_multiplier m') (q_X q)) (at_X (m_multiplier m') (q_X q)) c)))).
  { intros m' K. destruct m'; try contradiction; reflexivity. }
  assert (K : pisa (model_units f l m)) by (destruct m; auto). rewrite !E by auto. apply (smap_inside _ _ _ l); auto.
  apply (bind_smap _ _ _ _ (rw 1 f)); [apply mt_curve_units; auto|]. intros c _. unfold smap. cbn [bind]. f_equal. rewrite m_mult_units, t_mult_units. apply scaled_rows_units.
Qed.

End Units.
