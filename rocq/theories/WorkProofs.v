(** The work of the loads on a pile in soil. *)
From Coq Require Import List Bool Arith ZArith QArith Qabs Lia Lqa Setoid.
From Verif Require Import Base LinAlg PileModel BeamModel BeamSpec BeamProofs SolveModel SolveSpec SolveProofs ForceProofs SpringModel SpringSpec SpringProofs SoilProofs SpringProper WinklerModel EquilProofs ElasticSpec ElasticProofs StiffSpec StiffProofs WorkSpec.
Import ListNotations.
Local Open Scope Q_scope.

(** ** Two systems under the same loads *)
Lemma dot_minus_r : forall n u v w, dot n u (fun i => v i - w i) == dot n u v - dot n u w.
Proof. intros. unfold dot. rewrite <- sum_minus. apply sum_ext. intros; ring. Qed.

Lemma balanced_work : forall n K F V (s : nat -> bool) w, (forall i, (i < n)%nat -> s i = true -> w i == 0) ->
  (forall i, (i < n)%nat -> s i = false -> mulv n K V i == F i) -> dot n w (mulv n K V) == dot n F w.
Proof.
  intros n K F V s w Z B. unfold dot. apply sum_ext. intros i Hi. destruct (s i) eqn:S; [rewrite (Z i Hi S); ring|rewrite (B i Hi S); ring].
Qed.

Lemma work_gap : forall n A B F a b (s : nat -> bool), symmetric n A ->
  (forall i, (i < n)%nat -> s i = true -> a i == 0) -> (forall i, (i < n)%nat -> s i = false -> mulv n A a i == F i) ->
  (forall i, (i < n)%nat -> s i = true -> b i == 0) -> (forall i, (i < n)%nat -> s i = false -> mulv n B b i == F i) ->
  dot n F a - dot n F b == energy n A (fun i => b i - a i) + (energy n B b - energy n A b).
Proof.
  intros n A B F a b s SY A0 AF B0 BF.
  assert (E : energy n A b == energy n A (fun i => a i + (b i - a i))) by (apply energy_ext; intros; [reflexivity|ring]).
  rewrite (energy_plus n A a (fun i => b i - a i) SY) in E.
  rewrite (balanced_work n A F a s (fun i => b i - a i)) in E.
  2: { intros i Hi S. rewrite (A0 i Hi S), (B0 i Hi S). ring. }
  2: { exact AF. }
  rewrite dot_minus_r in E.
  assert (EA : energy n A a == dot n F a) by (apply (balanced_work n A F a s a); assumption).
  assert (EB : energy n B b == dot n F b) by (apply (balanced_work n B F b s b); assumption).
  rewrite EA in E. lra.
Qed.

(** ** Curves that are steepest at the start *)
Lemma abs_bounds : forall a b, Qabs a <= b <-> - b <= a /\ a <= b.
Proof. intros. apply Qabs_Qle_condition. Qed.

Lemma chord_le : forall a b d p ya yb k, a < b -> a <= d -> d <= b -> (p - ya) * (b - a) == (yb - ya) * (d - a) -> ya <= k * a -> yb <= k * b -> p <= k * d.
Proof.
  intros a b d p ya yb k AB AD DB E YA YB.
  assert (X : p * (b - a) == ya * (b - d) + yb * (d - a)) by lra.
  assert (Y : ya * (b - d) <= k * a * (b - d)) by (apply Qmult_le_compat_r; lra).
  assert (Z : yb * (d - a) <= k * b * (d - a)) by (apply Qmult_le_compat_r; lra).
  apply Qmult_lt_0_le_reg_r with (b - a); [lra|].
  assert (W : k * d * (b - a) == k * a * (b - d) + k * b * (d - a)) by ring. lra.
Qed.

Lemma cone_curve : forall c m k d p, strict c -> (m < length c)%nat -> origin (point c m) -> 0 <= k ->
  (forall q, In q c -> Qabs (snd q) <= k * Qabs (fst q)) -> on_curve c d p -> Qabs p <= k * Qabs d.
Proof.
  intros c m k d p ST L [O1 O2] K H OC.
  assert (PT : forall i, (i < length c)%nat -> Qabs (snd (point c i)) <= k * Qabs (fst (point c i))) by (intros i Hi; apply H, nth_In, Hi).
  destruct OC as [(j & Lj & SG & A & B & E)|[[A E]|[A E]]].
  - destruct (Nat.le_gt_cases m j) as [MJ|MJ].
    + pose proof (strict_le c j m ST MJ ltac:(lia)) as X. rewrite O1 in X.
      pose proof (PT j ltac:(lia)) as Pa. pose proof (PT (S j) Lj) as Pb. rewrite (Qabs_pos (fst (point c j))) in Pa by lra. rewrite (Qabs_pos (fst (point c (S j)))) in Pb by lra.
      rewrite (Qabs_pos d) by lra. apply abs_bounds in Pa. apply abs_bounds in Pb. apply abs_bounds.
      pose proof (chord_le _ _ d p _ _ k SG A B E (proj2 Pa) (proj2 Pb)).
      assert (- p <= k * d) by (apply (chord_le _ _ d (- p) (- snd (point c j)) (- snd (point c (S j))) k SG A B); lra). lra.
    + pose proof (strict_le c m (S j) ST MJ L) as X. rewrite O1 in X.
      pose proof (PT j ltac:(lia)) as Pa. pose proof (PT (S j) Lj) as Pb. rewrite (Qabs_neg (fst (point c j))) in Pa by lra. rewrite (Qabs_neg (fst (point c (S j)))) in Pb by lra.
      rewrite (Qabs_neg d) by lra. apply abs_bounds in Pa. apply abs_bounds in Pb. apply abs_bounds.
      assert (p <= - k * d) by (apply (chord_le _ _ d p (snd (point c j)) (snd (point c (S j))) (- k) SG A B); lra).
      assert (- p <= - k * d) by (apply (chord_le _ _ d (- p) (- snd (point c j)) (- snd (point c (S j))) (- k) SG A B); lra). lra.
  - rewrite E. pose proof (PT 0%nat ltac:(lia)) as P. pose proof (strict_le c m 0 ST ltac:(lia) L) as X. rewrite O1 in X.
    rewrite (Qabs_neg (fst (point c 0))) in P by lra. rewrite (Qabs_neg d) by lra.
    assert (k * - fst (point c 0) <= k * - d) by (rewrite !(Qmult_comm k); apply Qmult_le_compat_r; lra). lra.
  - rewrite E. pose proof (PT (length c - 1)%nat ltac:(lia)) as P. pose proof (strict_le c (length c - 1) m ST ltac:(lia) ltac:(lia)) as X. rewrite O1 in X.
    rewrite (Qabs_pos (fst (point c (length c - 1)))) in P by lra. rewrite (Qabs_pos d) by lra.
    assert (k * fst (point c (length c - 1)) <= k * d) by (rewrite !(Qmult_comm k); apply Qmult_le_compat_r; lra). lra.
Qed.

Lemma divide_le : forall a x k, 0 < x -> a <= k * x -> a / x <= k.
Proof. intros. apply Qle_shift_div_r; lra. Qed.

Lemma slope_of : forall a b x, 0 < x -> a * x <= b * x -> a <= b.
Proof. intros a b x P H. apply Qmult_lt_0_le_reg_r with x; auto. Qed.

Lemma softening_cone : forall c, softening c -> forall q, In q c -> Qabs (snd q) <= Qabs (snd (point c 1)) / fst (point c 1) * Qabs (fst q).
Proof.
  intros c (L & ST & [O1 O2] & H) q IN. pose proof (strict_lt c 1 0 ST ltac:(lia) ltac:(lia)) as X. rewrite O1 in X.
  pose proof (strict_nonneg c q ST O1 IN) as N. rewrite (Qabs_pos (fst q)) by exact N. specialize (H q IN).
  apply slope_of with (fst (point c 1)); auto.
  setoid_replace (Qabs (snd (point c 1)) / fst (point c 1) * fst q * fst (point c 1)) with (Qabs (snd (point c 1)) * fst q) by (field; lra). exact H.
Qed.

Lemma abs_quotient : forall x y, 0 < y -> Qabs (x / y) == Qabs x / y.
Proof. intros x y P. rewrite <- (Qabs_pos y) at 2 by lra. assert (N : ~ Qabs y == 0) by (rewrite Qabs_pos; lra). setoid_replace (Qabs x) with (Qabs (x / y) * Qabs y); [field; exact N|].
  rewrite <- Qabs_Qmult. apply Qabs_wd. field. lra. Qed.

Lemma lateral_softer : forall u u' c k k0, softening c -> ratio (lateral_terms Secant (Qabs u) c) = Ok k -> ratio (lateral_terms Initial (Qabs u') c) = Ok k0 -> k <= k0.
Proof.
  intros u u' c k k0 SF H H0. pose proof SF as (L & ST & OR & _). pose proof (softening_cone c SF) as CN. destruct OR as [O1 O2].
  pose proof (strict_lt c 1 0 ST ltac:(lia) ltac:(lia)) as X1.
  assert (NE : c <> []) by (intros ->; cbn in L; lia).
  unfold lateral_terms in H0. cbn [orb] in H0. change (pt c) with (point c) in H0. unfold ratio in H0.
  rewrite (proj2 (Qeqb_false (fst (point c 1) - fst (point c 0)) 0)) in H0 by lra. apply ok_inj in H0.
  assert (E0 : k0 == Qabs (snd (point c 1)) / fst (point c 1)).
  { rewrite <- H0, abs_quotient by lra. assert (Y : snd (point c 1) - snd (point c 0) == snd (point c 1)) by lra. rewrite Y, O1. unfold Qdiv. rewrite (Qplus_0_r (fst (point c 1))). reflexivity. }
  destruct (Qeq_dec u 0) as [Z|Z].
  - assert (ZA : Qeq_bool (Qabs u) 0 = true) by (apply Qeq_bool_iff; rewrite Z; reflexivity).
    unfold lateral_terms in H. cbn [orb] in H. rewrite ZA in H. change (pt c) with (point c) in H. unfold ratio in H.
    rewrite (proj2 (Qeqb_false (fst (point c 1) - fst (point c 0)) 0)) in H by lra. apply ok_inj in H. rewrite <- H, <- H0. lra.
  - destruct (lateral_secant u c Z NE (strict_ordered c ST)) as (k' & p & A & _ & OC & KP). rewrite H in A. apply ok_inj in A. subst k'.
    pose proof (Qabs_pos_iff u Z) as UP. apply slope_of with (Qabs u); auto. rewrite KP, E0.
    assert (Y : Qabs (p - snd (point c 0)) == Qabs p) by (apply Qabs_wd; lra). rewrite Y.
    assert (KN : 0 <= Qabs (snd (point c 1)) / fst (point c 1)) by (apply div_nonneg; [apply Qabs_nonneg|lra]).
    pose proof (cone_curve c 0 _ (Qabs u) p ST ltac:(lia) (conj O1 O2) KN CN OC) as CC. rewrite (Qabs_pos (Qabs u)) in CC by apply Qabs_nonneg. exact CC.
Qed.

Lemma py_softer : forall u u' c k k0, softening c \/ absent c -> py_spring u c Secant = Ok k -> py_spring u' c Initial = Ok k0 -> k <= k0.
Proof.
  intros u u' c k k0 [SF|AB] H H0; unfold py_spring in *.
  - destruct (Qeq_bool (qsum (map fst c)) 0); [apply ok_inj in H; apply ok_inj in H0; subst; lra|]. exact (lateral_softer u u' c k k0 SF H H0).
  - rewrite (proj2 (Qeq_bool_iff _ _) (absent_sum c AB)) in *. apply ok_inj in H; apply ok_inj in H0; subst; lra.
Qed.

Lemma base_softer : forall u u' c k k0, softening c \/ idle c -> base_spring u c Secant = Ok k -> base_spring u' c Initial = Ok k0 -> k <= k0.
Proof.
  intros u u' c k k0 [SF|AB] H H0; unfold base_spring in *.
  - destruct (Qeq_bool (qsum (map snd c)) 0); [apply ok_inj in H; apply ok_inj in H0; subst; lra|]. exact (lateral_softer u u' c k k0 SF H H0).
  - rewrite (proj2 (Qeq_bool_iff _ _) (idle_sum c AB)) in *. apply ok_inj in H; apply ok_inj in H0; subst; lra.
Qed.

Lemma axial_softer : forall u u' c k k0, softening_axial (zero_index (length c)) c -> ratio (axial_terms Secant u c) = Ok k -> ratio (axial_terms Initial u' c) = Ok k0 -> k <= k0.
Proof.
  intros u u' c k k0 (ST & L & [O1 O2] & CN) H H0. set (m := zero_index (length c)) in *.
  assert (LR : length (rev c) = length c) by apply rev_length.
  assert (NE : rev c <> []) by (intros E; apply (f_equal (@length _)) in E; rewrite LR in E; cbn in E; lia).
  pose proof (strict_lt (rev c) (length c - 1 - m) (length c - 1 - S m) ST ltac:(lia) ltac:(lia)) as X. rewrite !point_rev in X by lia.
  replace (length c - 1 - (length c - 1 - m))%nat with m in X by lia. replace (length c - 1 - (length c - 1 - S m))%nat with (S m) in X by lia. rewrite O1 in X.
  assert (XP : 0 < Qabs (fst (point c (S m)))) by (rewrite Qabs_neg; lra).
  set (x1 := fst (point c (S m))) in *. set (y1 := snd (point c (S m))) in *.
  unfold axial_terms in H0. cbn [orb] in H0. fold m in H0. change (pt c) with (point c) in H0. fold x1 y1 in H0. unfold ratio in H0.
  rewrite (proj2 (Qeqb_false (fst (point c m) - x1) 0)) in H0 by lra. apply ok_inj in H0.
  assert (E0 : k0 == Qabs y1 / Qabs x1).
  { rewrite <- H0, abs_quotient by lra. assert (Y : Qabs (y1 - snd (point c m)) == Qabs y1) by (apply Qabs_wd; lra). rewrite Y.
    assert (W : fst (point c m) - x1 == Qabs x1) by (rewrite Qabs_neg; lra). rewrite W. reflexivity. }
  destruct (Qeq_dec u 0) as [Z|Z].
  - unfold axial_terms in H. cbn [orb] in H. rewrite (proj2 (Qeq_bool_iff _ _) Z) in H. fold m in H. change (pt c) with (point c) in H. fold x1 y1 in H. unfold ratio in H.
    rewrite (proj2 (Qeqb_false (fst (point c m) - x1) 0)) in H by lra. apply ok_inj in H. rewrite <- H, <- H0. lra.
  - unfold axial_terms in H. cbn [orb] in H. rewrite (proj2 (Qeqb_false u 0)) in H by auto. fold m in H. change (pt c) with (point c) in H. unfold ratio in H.
    rewrite (proj2 (Qeqb_false u 0)) in H by auto. apply ok_inj in H.
    pose proof (Qabs_pos_iff u Z) as UP. apply slope_of with (Qabs u); auto. rewrite <- H, abs_ratio by auto. rewrite E0.
    assert (Y : Qabs (interp u (rev c) - snd (point c m)) == Qabs (interp u (rev c))) by (apply Qabs_wd; lra). rewrite Y.
    assert (KN : 0 <= Qabs y1 / Qabs x1) by (apply div_nonneg; [apply Qabs_nonneg|lra]).
    apply (cone_curve (rev c) (length c - 1 - m) _ u _ ST).
    + rewrite LR. lia.
    + rewrite point_rev by lia. replace (length c - 1 - (length c - 1 - m))%nat with m by lia. split; assumption.
    + exact KN.
    + intros q IN. apply in_rev in IN. specialize (CN q IN). apply slope_of with (Qabs x1); auto.
      setoid_replace (Qabs y1 / Qabs x1 * Qabs (fst q) * Qabs x1) with (Qabs y1 * Qabs (fst q)) by (field; lra). exact CN.
    + apply interp_on_curve; auto. apply strict_ordered; auto.
Qed.

Lemma tz_softer : forall u u' c k k0, softening_axial (zero_index (length c)) c \/ absent c -> tz_spring u c Secant = Ok k -> tz_spring u' c Initial = Ok k0 -> k <= k0.
Proof.
  intros u u' c k k0 [SF|AB] H H0; unfold tz_spring in *.
  - destruct (Qeq_bool (qsum _) 0); [apply ok_inj in H; apply ok_inj in H0; subst; lra|]. exact (axial_softer u u' c k k0 SF H H0).
  - rewrite (proj2 (Qeq_bool_iff _ _) (absent_abs_sum c AB)) in *. apply ok_inj in H; apply ok_inj in H0; subst; lra.
Qed.

Lemma base_axial_softer : forall u u' c k k0, softening_axial (zero_index (length c)) c \/ idle c -> base_axial_spring u c Secant = Ok k -> base_axial_spring u' c Initial = Ok k0 -> k <= k0.
Proof.
  intros u u' c k k0 [SF|AB] H H0; unfold base_axial_spring in *.
  - destruct (Qeq_bool (qsum _) 0); [apply ok_inj in H; apply ok_inj in H0; subst; lra|]. exact (axial_softer u u' c k k0 SF H H0).
  - rewrite (proj2 (Qeq_bool_iff _ _) (idle_abs_sum c AB)) in *. apply ok_inj in H; apply ok_inj in H0; subst; lra.
Qed.

Lemma mt_softer : forall pp rows u p u' p' k k0, softening_rows pp rows -> mt_spring u p pp rows Secant = Ok k -> mt_spring u' p' pp rows Initial = Ok k0 -> k <= k0.
Proof.
  intros pp rows u p u' p' k k0 (NE & ND & CR & E) H H0. pose proof (const_rows pp rows CR) as F. set (c := map (fun row => point row 0) rows) in *. clearbody c.
  pose proof (rows_sum pp rows c NE F) as RS. unfold mt_spring in *.
  destruct (Qeq_bool (qsum _) 0) eqn:W; [apply ok_inj in H; apply ok_inj in H0; subst; lra|].
  destruct E as [SF|AB].
  2: { exfalso. assert (Y : qsum (map (fun col => fst (pt col 0)) rows) == 0) by (rewrite RS; apply absent_sum, AB). apply Qeq_bool_iff in Y. congruence. }
  pose proof SF as (L & ST & OR & _). pose proof (softening_cone c SF) as CN.
  destruct c as [|q0 c']; [cbn in L; lia|].
  pose proof (rotation_curve p pp rows (q0 :: c') NE ND F c' eq_refl OR) as RC. pose proof (rotation_curve p' pp rows (q0 :: c') NE ND F c' eq_refl OR) as RC'.
  pose proof (mt_terms_comp Secant _ _ (Qabs u) (Qabs u) ltac:(reflexivity) RC) as TC. pose proof (mt_terms_comp Initial _ _ (Qabs u') (Qabs u') ltac:(reflexivity) RC') as TC'.
  destruct (mt_terms Secant (Qabs u) (mt_curve p pp rows)) as [[dt m0] m1]. destruct (mt_terms Initial (Qabs u') (mt_curve p' pp rows)) as [[dt0 n0] n1].
  set (c := q0 :: c') in *. assert (NEc : c <> []) by discriminate. pose proof (strict_lt c 1 0 ST ltac:(lia) ltac:(lia)) as X1. destruct OR as [O1 O2].
  unfold mt_terms in TC'. cbn [orb] in TC'. change (pt c) with (point c) in TC'. destruct TC' as (T1 & T2 & T3). cbn [fst snd] in T1, T2, T3.
  destruct (Qeq_bool dt0 0) eqn:D0; [discriminate|]. apply ok_inj in H0. apply Qeqb_false in D0.
  assert (E0 : k0 == Qabs (snd (point c 1)) / fst (point c 1)).
  { rewrite <- H0. assert (A : Qabs (n1 - n0) == Qabs (snd (point c 1))) by (apply Qabs_wd; rewrite T2, T3, O2; ring). assert (B : dt0 == fst (point c 1)) by (rewrite T1, O1; ring). rewrite A, B. reflexivity. }
  destruct (Qeq_bool dt 0) eqn:D; [discriminate|]. apply ok_inj in H. apply Qeqb_false in D.
  unfold mt_terms in TC. cbn [orb] in TC. change (pt c) with (point c) in TC. destruct (Qeq_bool (Qabs u) 0) eqn:ZU; destruct TC as (S1 & S2 & S3); cbn [fst snd] in S1, S2, S3.
  - rewrite E0, <- H. assert (A : Qabs (m1 - m0) == Qabs (snd (point c 1))) by (apply Qabs_wd; rewrite S2, S3, O2; ring). assert (B : dt == fst (point c 1)) by (rewrite S1, O1; ring). rewrite A, B. lra.
  - apply Qeqb_false in ZU. assert (UP : 0 < Qabs u) by (pose proof (Qabs_nonneg u); lra).
    rewrite E0, <- H. assert (A : Qabs (m1 - m0) == Qabs (moment_at c (Qabs u))) by (apply Qabs_wd; rewrite S2, S3, O2; ring). rewrite A, S1.
    apply divide_le; auto. assert (KN : 0 <= Qabs (snd (point c 1)) / fst (point c 1)) by (apply div_nonneg; [apply Qabs_nonneg|lra]).
    pose proof (cone_curve c 0 _ (Qabs u) _ ST ltac:(lia) (conj O1 O2) KN CN (moment_on_curve c (Qabs u) NEc (strict_ordered c ST))) as CC.
    rewrite (Qabs_pos (Qabs u)) in CC by apply Qabs_nonneg. exact CC.
Qed.

(** ** Stiffer springs, stiffer elements *)
Lemma py_stiffer : forall L kt kb kt' kb' v, 0 <= L -> kt <= kt' -> kb <= kb' -> energy 6 (elem_py L kt kb) v <= energy 6 (elem_py L kt' kb') v.
Proof.
  intros L kt kb kt' kb' v HL A B. pose proof (py_psd L (kt' - kt) (kb' - kb) HL ltac:(lra) ltac:(lra) v) as P.
  assert (E : energy 6 (elem_py L kt' kb') v == energy 6 (fun i j => elem_py L kt kb i j + elem_py L (kt' - kt) (kb' - kb) i j) v) by (apply energy_ext; [intros i j _ _; unfold elem_py; ring|reflexivity]).
  rewrite E. unfold energy in *. rewrite dot_mplus. lra.
Qed.
Lemma tz_stiffer : forall L kt kb kt' kb' v, 0 <= L -> kt <= kt' -> kb <= kb' -> energy 6 (elem_tz L kt kb) v <= energy 6 (elem_tz L kt' kb') v.
Proof.
  intros L kt kb kt' kb' v HL A B. pose proof (tz_psd L (kt' - kt) (kb' - kb) HL ltac:(lra) ltac:(lra) v) as P.
  assert (E : energy 6 (elem_tz L kt' kb') v == energy 6 (fun i j => elem_tz L kt kb i j + elem_tz L (kt' - kt) (kb' - kb) i j) v) by (apply energy_ext; [intros i j _ _; unfold elem_tz; ring|reflexivity]).
  rewrite E. unfold energy in *. rewrite dot_mplus. lra.
Qed.
Lemma mt_stiffer : forall c kt kb kt' kb' v, (forall a b, 0 <= a -> 0 <= b -> psd 6 (mt_matrix c a b)) -> kt <= kt' -> kb <= kb' -> energy 6 (mt_matrix c kt kb) v <= energy 6 (mt_matrix c kt' kb') v.
Proof.
  intros c kt kb kt' kb' v HP A B. pose proof (HP (kt' - kt) (kb' - kb) ltac:(lra) ltac:(lra) v) as P.
  assert (E : energy 6 (mt_matrix c kt' kb') v == energy 6 (fun i j => mt_matrix c kt kb i j + mt_matrix c (kt' - kt) (kb' - kb) i j) v).
  { apply energy_ext; [|reflexivity]. intros i j _ _. destruct c as [[[A' B'] C'] D']. unfold mt_matrix. ring. }
  rewrite E. unfold energy in *. rewrite dot_mplus. lra.
Qed.

Lemma square_le : forall a b x, a <= b -> a * (x * x) <= b * (x * x).
Proof. intros. apply Qmult_le_compat_r; auto. apply square_nonneg. Qed.

(** the first pass uses the stiffest springs *)
Lemma first_stiffest : forall M z u u' K K0 v, sound_model M z -> softening_soil zero_index M -> build M u Secant = Ok K -> build M u' Initial = Ok K0 ->
  energy (size M) K v <= energy (size M) K0 v.
Proof.
  intros M z u u' K K0 v SM (SP & SZ & SMt & SH & SB & SQ) HB HB0.
  destruct (system_parts M u Secant K HB) as (kp & kz & km & h & m & q & V & W). destruct (system_parts M u' Initial K0 HB0) as (kp0 & kz0 & km0 & h0 & m0 & q0 & V0 & W0).
  rewrite W, W0. destruct V as (VP & VZ & VM & VH & VB & VQ). destruct V0 as (VP0 & VZ0 & VM0 & VH0 & VB0 & VQ0).
  assert (LH : h <= h0) by (destruct (w_hb M) as [c|]; [exact (base_softer _ _ c h h0 (SH c eq_refl) VH VH0)|subst; lra]).
  assert (LM : m <= m0) by (destruct (w_mb M) as [c|]; [exact (base_softer _ _ c m m0 (SB c eq_refl) VB VB0)|subst; lra]).
  assert (LQ : q <= q0) by (destruct (w_qz M) as [c|]; [exact (base_axial_softer _ _ c q q0 (SQ c eq_refl) VQ VQ0)|subst; lra]).
  pose proof (square_le _ _ (v (3 * w_n M + 1)%nat) LH). pose proof (square_le _ _ (v (3 * w_n M + 2)%nat) LM). pose proof (square_le _ _ (v (3 * w_n M)%nat) LQ).
  assert (SE : sum (w_n M) (soil_work M kp kz km v v) <= sum (w_n M) (soil_work M kp0 kz0 km0 v v)).
  { apply sum_le. intros e He. pose proof (proj2 (sm_len M z SM e He)) as LP. unfold soil_work. apply Qplus_le_compat; [apply Qplus_le_compat|].
    - destruct (w_py M) as [py|]; [|lra]. destruct (VP py eq_refl e He) as [A B]. destruct (VP0 py eq_refl e He) as [A0 B0]. apply py_stiffer; [lra| |].
      + exact (py_softer _ _ _ _ _ (SP py eq_refl e 0%nat He ltac:(lia)) A A0).
      + exact (py_softer _ _ _ _ _ (SP py eq_refl e 1%nat He ltac:(lia)) B B0).
    - destruct (w_tz M) as [tz|]; [|lra]. destruct (VZ tz eq_refl e He) as [A B]. destruct (VZ0 tz eq_refl e He) as [A0 B0]. apply tz_stiffer; [lra| |].
      + exact (tz_softer _ _ _ _ _ (SZ tz eq_refl e 0%nat He ltac:(lia)) A A0).
      + exact (tz_softer _ _ _ _ _ (SZ tz eq_refl e 1%nat He ltac:(lia)) B B0).
    - destruct (w_mt M) as [mt|] eqn:EM; [|lra]. destruct (sm_pair M z SM) as [X|[py EP]]; [congruence|].
      destruct (VM py mt EP eq_refl e He) as [[p A] [p' B]]. destruct (VM0 py mt EP eq_refl e He) as [[p0 A0] [p0' B0]].
      apply mt_stiffer; [exact (sm_mtc M z SM mt EM e He)| |].
      + exact (mt_softer _ _ _ _ _ _ _ _ (SMt py mt EP eq_refl e 0%nat He ltac:(lia)) A A0).
      + exact (mt_softer _ _ _ _ _ _ _ _ (SMt py mt EP eq_refl e 1%nat He ltac:(lia)) B B0). }
  lra.
Qed.

(** the soil only adds *)
Lemma soil_adds : forall M z u k K v, sound_model M z -> build M u k = Ok K -> energy (size M) (jit_build (w_n M) (w_mech M)) v <= energy (size M) K v.
Proof.
  intros M z u k K v SM HB. destruct (system_parts M u k K HB) as (kp & kz & km & h & m & q & V & W). destruct (values_nonneg M z u k SM _ _ _ _ _ _ V) as (H1 & H2 & H3 & H4).
  rewrite W. fold (size M).
  assert (F : 0 <= sum (w_n M) (soil_work M kp kz km v v)) by (apply sum_nonneg; intros e He; apply (H4 e v He)).
  pose proof (mul_nonneg h _ H1 (square_nonneg (v (3 * w_n M + 1)%nat))). pose proof (mul_nonneg m _ H2 (square_nonneg (v (3 * w_n M + 2)%nat))).
  pose proof (mul_nonneg q _ H3 (square_nonneg (v (3 * w_n M)%nat))). lra.
Qed.

Lemma mech_symmetric : forall M z, sound_model M z -> symmetric (size M) (jit_build (w_n M) (w_mech M)) /\ psd (size M) (jit_build (w_n M) (w_mech M)).
Proof. intros M z SM. split; [apply build_symmetric|apply build_psd]; intros e He; apply (sm_mech M z SM e He). Qed.

Lemma unprescribed : forall n r U, (forall i, (i < n)%nat -> U i == 0) -> forall i, (i < n)%nat -> supports_of r U i = r i.
Proof. intros n r U H i Hi. unfold supports_of. rewrite (proj2 (Qeq_bool_iff _ _) (H i Hi)). apply orb_false_r. Qed.
