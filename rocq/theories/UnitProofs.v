(** Unit of force, mirror image, choice of solver. *)
From Coq Require Import List Bool Arith ZArith QArith Qabs Qminmax Lia Lqa Setoid Morphisms.
From Verif Require Import Base LinAlg PileModel BeamModel BeamProofs SolveModel SolveSpec SolveProofs SpringModel SpringSpec SpringProofs SoilProofs SpringProper WinklerModel TwinProofs UnitSpec.
Import ListNotations.
Local Open Scope Q_scope.

Definition gp (l m : Q) (p p' : Q * Q) : Prop := fst p' == l * fst p /\ snd p' == m * snd p.
Definition rm (m x y : Q) : Prop := y == m * x.

Lemma less_times : forall l x y x' y', 0 < l -> x' == l * x -> y' == l * y -> Qltb x' y' = Qltb x y.
Proof.
  intros l x y x' y' P E E'. destruct (Qltb x y) eqn:H.
  - apply Qltb_true in H. apply Qltb_true. rewrite E, E'. apply Qmult_lt_l; auto.
  - apply Qltb_false in H. apply Qltb_false. rewrite E, E'. apply Qmult_le_l; auto.
Qed.

Lemma interp_times : forall l m c c' x x', 0 < l -> x' == l * x -> Forall2 (gp l m) c c' -> interp x' c' == m * interp x c.
Proof.
  intros l m c c' x x' P Hx H. induction H as [|[x0 y0] [x0' y0'] t t' [E1 E2] Ht IH]; [cbn; ring|]. cbn in E1, E2.
  destruct Ht as [|[x1 y1] [x1' y1'] t t' [E3 E4] Ht]; [exact E2|]. cbn in E3, E4. rewrite !interp_step.
  rewrite (less_times l x x1 x' x1' P Hx E3), (less_times l x x0 x' x0' P Hx E1).
  destruct (Qltb x x1); [destruct (Qltb x x0); [exact E2|]|exact IH].
  rewrite E1, E2, E3, E4, Hx. destruct (Qeq_dec (x1 - x0) 0) as [Z|NZ].
  - setoid_replace (l * x1 - l * x0) with (l * (x1 - x0)) by ring. rewrite Z. setoid_replace (l * 0) with 0 by ring. unfold Qdiv. change (/ 0) with 0. ring.
  - setoid_replace (l * x1 - l * x0) with (l * (x1 - x0)) by ring. setoid_replace (l * x - l * x0) with (l * (x - x0)) by ring.
    set (dx := x1 - x0) in *. clearbody dx. field. split; [exact NZ|lra].
Qed.

Section Times.
Variable m : Q.
Hypothesis MP : 0 < m.

Lemma gp1 : forall c c', curve_times m c c' -> Forall2 (gp 1 m) c c'.
Proof using. intros c c' H. induction H as [|p p' t t' [A B] Ht IH]; constructor; auto. split; [rewrite A; ring|exact B]. Qed.

Lemma interp_curve : forall c c' x, curve_times m c c' -> interp x c' == m * interp x c.
Proof using. intros c c' x H. apply (interp_times 1); [reflexivity|ring|apply gp1; exact H]. Qed.

Lemma nth_times : forall c c' i, curve_times m c c' -> same_x_times m (pt c i) (pt c' i).
Proof using. intros c c' i H. unfold pt. revert i. induction H; destruct i; cbn; auto; split; cbn; ring. Qed.

Lemma last_times : forall c c', curve_times m c c' -> same_x_times m (last_pt c) (last_pt c').
Proof using.
  intros c c' H. unfold last_pt. induction H as [|x y t t' E Ht IH]; [split; cbn; ring|]. destruct Ht; [exact E|]. exact IH.
Qed.

Lemma map_fst_times : forall c c', curve_times m c c' -> Forall2 Qeq (map fst c) (map fst c').
Proof using. intros c c' H. induction H as [|p p' t t' [A B] Ht IH]; constructor; auto. symmetry. exact A. Qed.
Lemma qsum_eq : forall l l', Forall2 Qeq l l' -> qsum l == qsum l'.
Proof using. intros l l' H. induction H as [|x y t t' E Ht IH]; [reflexivity|]. cbn [qsum fold_right] in *. unfold qsum in *. cbn. rewrite E, IH. reflexivity. Qed.
Lemma qmax_eq : forall l l', Forall2 Qeq l l' -> qmax l == qmax l'.
Proof using.
  intros l l' H. induction H as [|x y t t' E Ht IH]; [reflexivity|]. destruct Ht as [|x2 y2 t t' E2 Ht]; [exact E|].
  change (qmax (x :: x2 :: t)) with (Qmax x (qmax (x2 :: t))). change (qmax (y :: y2 :: t')) with (Qmax y (qmax (y2 :: t'))). rewrite E, IH. reflexivity.
Qed.
Lemma qsum_snd : forall c c', curve_times m c c' -> qsum (map snd c') == m * qsum (map snd c).
Proof using. intros c c' H. induction H as [|p p' t t' [A B] Ht IH]; [cbn; ring|]. unfold qsum in *. cbn [map fold_right]. rewrite B, IH. ring. Qed.
Lemma qsum_abs_snd : forall c c', curve_times m c c' -> qsum (map (fun p => Qabs (snd p)) c') == m * qsum (map (fun p => Qabs (snd p)) c).
Proof using MP.
  intros c c' H. induction H as [|p p' t t' [A B] Ht IH]; [cbn; ring|]. unfold qsum in *. cbn [map fold_right]. rewrite B, IH, Qabs_Qmult, (Qabs_pos m) by lra. ring.
Qed.
Lemma qsum_abs_fst : forall c c', curve_times m c c' -> qsum (map (fun p => Qabs (fst p)) c') == qsum (map (fun p => Qabs (fst p)) c).
Proof using. intros c c' H. induction H as [|p p' t t' [A B] Ht IH]; [reflexivity|]. unfold qsum in *. cbn [map fold_right]. rewrite A, IH. reflexivity. Qed.
Lemma zero_times : forall x x', x' == m * x -> Qeq_bool x' 0 = Qeq_bool x 0.
Proof using MP.
  intros x x' E. destruct (Qeq_bool x 0) eqn:H.
  - apply Qeq_bool_iff in H. apply Qeq_bool_iff. rewrite E, H. ring.
  - apply Qeq_bool_neq in H. apply not_true_iff_false. intros X. apply Qeq_bool_iff in X. apply H. rewrite E in X. apply Qmult_integral in X. destruct X; [lra|auto].
Qed.

Lemma resistance_times : forall c c' d d', d' == d -> curve_times m c c' -> resistance c' d' == m * resistance c d.
Proof using.
  intros c c' d d' E H. unfold resistance.
  assert (QE : qmax (map fst c') == qmax (map fst c)) by (symmetry; apply qmax_eq, map_fst_times; exact H).
  rewrite (Qltb_comp (qmax (map fst c')) (qmax (map fst c)) d' d QE E).
  destruct (Qltb _ d); [apply (last_times c c' H)|]. rewrite (interp_comp c' c' d' d E) by apply qp_list_refl. apply interp_curve; exact H.
Qed.

(** (dx, p0, p1) with forces multiplied *)
Definition t3m (a b : Q * Q * Q) : Prop := fst (fst b) == fst (fst a) /\ snd (fst b) == m * snd (fst a) /\ snd b == m * snd a.

Lemma ratio_times : forall a b, t3m a b -> req (rm m) (ratio a) (ratio b).
Proof using MP.
  intros [[dx p0] p1] [[dx' p0'] p1'] (E1 & E2 & E3). cbn in E1, E2, E3. unfold ratio.
  rewrite (Qeqb_comp dx' dx 0 0 E1) by reflexivity. destruct (Qeq_bool dx 0); unfold req; [reflexivity|]. unfold rm.
  assert (X : (p1' - p0') / dx' == m * ((p1 - p0) / dx)) by (rewrite E1, E2, E3; unfold Qdiv; ring). rewrite X, Qabs_Qmult, (Qabs_pos m) by lra. reflexivity.
Qed.

Lemma lateral_terms_times : forall k c c' d d', d' == d -> curve_times m c c' -> t3m (lateral_terms k d c) (lateral_terms k d' c').
Proof using.
  intros k c c' d d' H HC. unfold lateral_terms. rewrite (Qeqb_comp d' d 0 0 H) by reflexivity.
  destruct (nth_times c c' 0 HC) as [A0 B0]. destruct (nth_times c c' 1 HC) as [A1 B1].
  destruct (_ || Qeq_bool d 0)%bool; [split; [|split]; cbn [fst snd]; auto; rewrite A0, A1; reflexivity|].
  destruct k; (split; [|split]); cbn [fst snd]; auto; try (apply resistance_times; auto); rewrite H; reflexivity.
Qed.

Lemma py_times : forall k c c' u u', u' == u -> curve_times m c c' -> req (rm m) (py_spring u c k) (py_spring u' c' k).
Proof using MP.
  intros k c c' u u' H HC. unfold py_spring. rewrite <- (Qeqb_comp (qsum (map fst c)) (qsum (map fst c')) 0 0) by (try reflexivity; apply qsum_eq, map_fst_times, HC).
  destruct (Qeq_bool _ 0); [unfold req, rm; ring|]. apply ratio_times, lateral_terms_times; auto. rewrite H. reflexivity.
Qed.
Lemma base_times : forall k c c' u u', u' == u -> curve_times m c c' -> req (rm m) (base_spring u c k) (base_spring u' c' k).
Proof using MP.
  intros k c c' u u' H HC. unfold base_spring. rewrite (zero_times _ _ (qsum_snd c c' HC)).
  destruct (Qeq_bool _ 0); [unfold req, rm; ring|]. apply ratio_times, lateral_terms_times; auto. rewrite H. reflexivity.
Qed.

Lemma times_length : forall c c', curve_times m c c' -> length c' = length c.
Proof using. intros c c' H. induction H; cbn; auto. Qed.
Lemma times_rev : forall c c', curve_times m c c' -> curve_times m (rev c) (rev c').
Proof using. intros c c' H. induction H as [|p p' t t' A Ht IH]; [constructor|]. cbn [rev]. apply Forall2_app; [exact IH|constructor; [exact A|constructor]]. Qed.

Lemma axial_terms_times : forall k c c' d d', d' == d -> curve_times m c c' -> t3m (axial_terms k d c) (axial_terms k d' c').
Proof using.
  intros k c c' d d' H HC. unfold axial_terms. rewrite (Qeqb_comp d' d 0 0 H) by reflexivity. rewrite (times_length c c' HC). set (i := zero_index (length c)).
  destruct (nth_times c c' i HC) as [A0 B0]. destruct (nth_times c c' (S i) HC) as [A1 B1]. pose proof (times_rev c c' HC) as HR.
  destruct (_ || Qeq_bool d 0)%bool; [split; [|split]; cbn [fst snd]; auto; rewrite A0, A1; reflexivity|].
  assert (IE : forall x x', x' == x -> interp x' (rev c') == m * interp x (rev c)).
  { intros x x' E. rewrite (interp_comp (rev c') (rev c') x' x E) by apply qp_list_refl. apply interp_curve; exact HR. }
  destruct k; (split; [|split]); cbn [fst snd]; auto.
  - rewrite H. reflexivity.
  - apply IE. rewrite (Qltb_comp 0 0 d' d) by (auto; reflexivity). destruct (Qltb 0 d); rewrite H; reflexivity.
Qed.
Lemma tz_times : forall k c c' u u', u' == u -> curve_times m c c' -> req (rm m) (tz_spring u c k) (tz_spring u' c' k).
Proof using MP.
  intros k c c' u u' H HC. unfold tz_spring. rewrite (Qeqb_comp _ _ 0 0 (qsum_abs_fst c c' HC)) by reflexivity.
  destruct (Qeq_bool _ 0); [unfold req, rm; ring|]. apply ratio_times, axial_terms_times; auto.
Qed.
Lemma base_axial_times : forall k c c' u u', u' == u -> curve_times m c c' -> req (rm m) (base_axial_spring u c k) (base_axial_spring u' c' k).
Proof using MP.
  intros k c c' u u' H HC. unfold base_axial_spring. rewrite (zero_times _ _ (qsum_abs_snd c c' HC)).
  destruct (Qeq_bool _ 0); [unfold req, rm; ring|]. apply ratio_times, axial_terms_times; auto.
Qed.

(** ** Distributed moments *)
Lemma combine_times : forall (f : Q * Q -> Q) w pp pp' (c c' : curve), Forall2 (rm m) pp pp' -> Forall2 (fun p q => f q == w * f p) c c' ->
  Forall2 (gp m w) (combine pp (map f c)) (combine pp' (map f c')).
Proof using.
  intros f w pp pp' c c' HP HC. revert c c' HC. induction HP as [|x y t t' E Ht IH]; intros c c' HC; cbn [combine]; [constructor|].
  destruct HC as [|p q u u' E2 Hu]; cbn [map]; constructor; [split; [exact E|exact E2]|]. apply IH. exact Hu.
Qed.

Lemma mt_curve_times : forall p p' pp pp' cols cols', p' == m * p -> Forall2 (rm m) pp pp' -> Forall2 (curve_times m) cols cols' ->
  curve_times m (mt_curve p pp cols) (mt_curve p' pp' cols').
Proof using MP.
  intros p p' pp pp' cols cols' HP HPP HC. unfold mt_curve. constructor; [split; cbn; ring|].
  assert (HT : Forall2 (curve_times m) (tl cols) (tl cols')) by (destruct HC; [constructor|assumption]).
  assert (G : forall lc lc' : list curve, Forall2 (curve_times m) lc lc' -> curve_times m (map (fun col => (interp p (combine pp (map fst col)), interp p (combine pp (map snd col)))) lc)
     (map (fun col => (interp p' (combine pp' (map fst col)), interp p' (combine pp' (map snd col)))) lc')); [|exact (G _ _ HT)].
  clear HC HT. intros lc lc' HT. induction HT as [|c c' t t' E Ht IH]; cbn [map]; constructor; auto. split; cbn [fst snd].
  - rewrite (interp_times m 1 (combine pp (map fst c)) (combine pp' (map fst c')) p p' MP HP); [ring|].
    apply combine_times; auto. clear - E. induction E as [|x y u u' [A B] Hu IH]; constructor; auto. rewrite A. ring.
  - apply (interp_times m m); auto. apply combine_times; auto. clear - E. induction E as [|x y u u' [A B] Hu IH]; constructor; auto.
Qed.

Lemma moment_at_times : forall c c' d d', d' == d -> curve_times m c c' -> moment_at c' d' == m * moment_at c d.
Proof using.
  intros c c' d d' H HC. unfold moment_at. destruct (last_times c c' HC) as [E1 E2].
  rewrite (Qltb_comp (fst (last_pt c')) (fst (last_pt c)) d' d E1 H). destruct (Qltb _ d); [exact E2|].
  rewrite (interp_comp c' c' d' d H) by apply qp_list_refl. apply interp_curve; exact HC.
Qed.

Lemma mt_terms_times : forall k c c' d d', d' == d -> curve_times m c c' -> t3m (mt_terms k d c) (mt_terms k d' c').
Proof using.
  intros k c c' d d' H HC. unfold mt_terms. rewrite (Qeqb_comp d' d 0 0 H) by reflexivity.
  destruct (nth_times c c' 0 HC) as [A0 B0]. destruct (nth_times c c' 1 HC) as [A1 B1].
  destruct (_ || Qeq_bool d 0)%bool; [split; [|split]; cbn [fst snd]; auto; rewrite A0, A1; reflexivity|].
  destruct k; (split; [|split]); cbn [fst snd]; auto; try (apply moment_at_times; auto); rewrite H, A1; reflexivity.
Qed.

Lemma mt_times : forall k u u' p p' pp pp' cols cols', u' == u -> p' == m * p -> Forall2 (rm m) pp pp' -> Forall2 (curve_times m) cols cols' ->
  req (rm m) (mt_spring u p pp cols k) (mt_spring u' p' pp' cols' k).
Proof using MP.
  intros k u u' p p' pp pp' cols cols' H HP HPP HC. unfold mt_spring.
  assert (QS : qsum (map (fun col => fst (pt col 0)) cols') == qsum (map (fun col => fst (pt col 0)) cols)).
  { apply qsum_eq. clear - HC. induction HC as [|c c' t t' E Ht IH]; constructor; auto. apply (nth_times c c' 0 E). }
  rewrite (Qeqb_comp _ _ 0 0 QS) by reflexivity. destruct (Qeq_bool (qsum _) 0); [unfold req, rm; ring|].
  assert (T : t3m (mt_terms k (Qabs u) (mt_curve p pp cols)) (mt_terms k (Qabs u') (mt_curve p' pp' cols'))).
  { apply mt_terms_times; [rewrite H; reflexivity|apply mt_curve_times; auto]. }
  destruct (mt_terms k (Qabs u) _) as [[dt m0] m1]. destruct (mt_terms k (Qabs u') _) as [[dt' m0'] m1'].
  destruct T as (E1 & E2 & E3). cbn in E1, E2, E3. rewrite (Qeqb_comp dt' dt 0 0 E1) by reflexivity.
  destruct (Qeq_bool dt 0); unfold req, rm; [reflexivity|].
  assert (X : m1' - m0' == m * (m1 - m0)) by (rewrite E2, E3; ring). rewrite X, E1, Qabs_Qmult, (Qabs_pos m) by lra. unfold Qdiv. ring.
Qed.
End Times.

(** ** System matrices *)
Definition mat_times (m : Q) (K K' : mat) : Prop := forall i j, K' i j == m * K i j.
Definition pair_times (m : Q) (p p' : Q * Q) : Prop := fst p' == m * fst p /\ snd p' == m * snd p.

Lemma collect_times : forall m n n' (f g : nat -> res (Q * Q)), n = n' -> (forall e, (e < n)%nat -> req (pair_times m) (f e) (g e)) -> req (Forall2 (pair_times m)) (collect n f) (collect n' g).
Proof.
  intros m n n' f g <- H. induction n as [|n IH]; cbn [collect]; [constructor|].
  eapply req_bind; [apply IH; intros; apply H; lia|]. intros l l' HL. eapply req_bind; [apply H; lia|]. intros x y E. apply Forall2_app; auto.
Qed.
Lemma both_times : forall m (f g : nat -> res Q), (forall j, (j < 2)%nat -> req (rm m) (f j) (g j)) -> req (pair_times m) (both f) (both g).
Proof.
  intros m f g H. unfold both. eapply req_bind; [apply (H 0%nat); lia|]. intros x y E. eapply req_bind; [apply (H 1%nat); lia|]. intros x' y' E'. split; auto.
Qed.
Lemma kpair_times : forall m l l' e, Forall2 (pair_times m) l l' -> pair_times m (kpair l e) (kpair l' e).
Proof. intros m l l' e H. unfold kpair. revert e. induction H; destruct e; cbn; auto; split; cbn; ring. Qed.

Lemma elem_py_times : forall m L L' p p', L' == L -> pair_times m p p' -> mat_times m (elem_py L (fst p) (snd p)) (elem_py L' (fst p') (snd p')).
Proof.
  intros m L L' [a b] [a' b'] EL [H H'] i j. cbn [fst snd] in *.
  unfold elem_py, of_rows. cbv zeta. rewrite H, H'.
  do 6 (destruct i as [|i]; [do 6 (destruct j as [|j]; [cbn [nth]; rewrite ?EL; ring|]); destruct j; cbn [nth]; ring|]). destruct i; destruct j; cbn [nth]; ring.
Qed.
Lemma elem_tz_times : forall m L L' p p', L' == L -> pair_times m p p' -> mat_times m (elem_tz L (fst p) (snd p)) (elem_tz L' (fst p') (snd p')).
Proof.
  intros m L L' [a b] [a' b'] EL [H H'] i j. cbn [fst snd] in *. 
  unfold elem_tz, of_rows. cbv zeta. rewrite H, H'.
  do 6 (destruct i as [|i]; [do 6 (destruct j as [|j]; [cbn [nth]; rewrite ?EL; ring|]); destruct j; cbn [nth]; ring|]). destruct i; destruct j; cbn [nth]; ring.
Qed.

Lemma mt_matrix_times : forall m c p p', pair_times m p p' -> mat_times m (mt_matrix c (fst p) (snd p)) (mt_matrix c (fst p') (snd p')).
Proof.
  intros m [[[A B] C] D] [a b] [a' b'] [H H'] i j. cbn [fst snd] in *. unfold mt_matrix. rewrite H, H'. ring.
Qed.
Lemma madd_times : forall m K1 K1' K2 K2', mat_times m K1 K1' -> mat_times m K2 K2' -> mat_times m (madd K1 K2) (madd K1' K2').
Proof. intros m K1 K1' K2 K2' H H' i j. unfold madd. rewrite (H i j), (H' i j). ring. Qed.
Lemma snd_times : forall m c c', curve_times m c c' -> Forall2 (rm m) (map snd c) (map snd c').
Proof. intros m c c' H. induction H as [|x y t t' E Ht IH]; constructor; auto. apply E. Qed.

Section BuildTimes.
Variables (m : Q) (M M' : wmodel) (u u' : vec) (k : kind).
Hypothesis MP : 0 < m.
Hypothesis IU : in_unit m M M'.
Hypothesis HU : veq (size M) u u'.

Definition elems_times (a b : nat -> mat) : Prop := forall e, mat_times m (a e) (b e).

Lemma disp_same : forall c e j, (c < 3)%nat -> (e < w_n M)%nat -> (j < 2)%nat -> spring_disp (w_n M') u' c e j == spring_disp (w_n M) u c e j.
Proof using IU HU. intros c e j Hc He Hj. rewrite (iu_n _ _ _ IU). symmetry. apply spring_disp_comp; auto. Qed.

Lemma soil_elements_times : req elems_times (soil_elements M u k) (soil_elements M' u' k).
Proof using MP IU HU.
  unfold soil_elements. destruct IU as [EN EL EM HP HT HM EC _ _ _]. apply (req_bind _ _ elems_times).
  - unfold opt_res. destruct (w_py M) as [py|]; destruct (w_py M') as [py'|]; cbn in HP; try contradiction; [|intros e i j; apply EM]. eapply req_bind.
    + unfold py_stiffness. apply (collect_times m); [symmetry; exact EN|]. intros e He. apply both_times. intros j Hj. apply py_times; auto. apply disp_same; auto.
    + intros l l' HL e. apply madd_times; [intros i j; apply EM|apply elem_py_times; [apply EL|apply kpair_times, HL]].
  - intros k1 k1' H1. apply (req_bind _ _ elems_times).
    + unfold opt_res. destruct (w_tz M) as [tz|]; destruct (w_tz M') as [tz'|]; cbn in HT; try contradiction; [|exact H1]. eapply req_bind.
      * unfold tz_stiffness. apply (collect_times m); [symmetry; exact EN|]. intros e He. apply both_times. intros j Hj. apply tz_times; auto. apply disp_same; auto; lia.
      * intros l l' HL e. apply madd_times; [apply H1|apply elem_tz_times; [apply EL|apply kpair_times, HL]].
    + intros k2 k2' H2. unfold opt_res. destruct (w_mt M) as [mt|]; destruct (w_mt M') as [mt'|]; cbn in HM; try contradiction; [|exact H2].
      destruct (w_py M) as [py|]; destruct (w_py M') as [py'|]; cbn in HP; try contradiction; [|reflexivity]. eapply req_bind.
      * unfold mt_stiffness. apply (collect_times m); [symmetry; exact EN|]. intros e He. apply both_times. intros j Hj.
        eapply req_bind; [apply (py_times m MP); [apply disp_same; auto|apply HP]|]. intros x y E. apply mt_times; auto; [apply disp_same; auto| |apply snd_times, HP].
        rewrite (disp_same 1 e j) by (auto; lia). unfold rm in E. rewrite E. ring.
      * intros l l' HL e. apply madd_times; [apply H2|]. rewrite EC. apply mt_matrix_times, kpair_times, HL.
Qed.

Lemma jit_build_times : forall a b, elems_times a b -> mat_times m (jit_build (w_n M) a) (jit_build (w_n M') b).
Proof using IU.
  intros a b E i j. rewrite (iu_n _ _ _ IU). unfold jit_build. rewrite <- sum_scale. apply sum_ext. intros e He. unfold block. destruct (_ && _)%bool; [apply E|ring].
Qed.

Lemma size_same : size M' = size M.
Proof using IU. unfold size. rewrite (iu_n _ _ _ IU). reflexivity. Qed.

Lemma add_base_times : forall p o o' f K K', (1 <= p <= 3)%nat -> opt_times (curve_times m) o o' ->
  (forall c c' x x', x' == x -> curve_times m c c' -> req (rm m) (f x c k) (f x' c' k)) -> mat_times m K K' ->
  req (mat_times m) (add_base M p o f u k K) (add_base M' p o' f u' k K').
Proof using IU HU.
  intros p o o' f K K' Hp HO Hf HK. unfold add_base, opt_res. rewrite size_same. destruct o as [c|]; destruct o' as [c'|]; cbn in HO; try contradiction; [|exact HK]. eapply req_bind.
  - apply Hf; [|exact HO]. symmetry. apply HU. unfold size. lia.
  - intros x y E i j. unfold add_diag. unfold rm in E. destruct (_ && _)%bool; rewrite (HK i j); [rewrite E; ring|reflexivity].
Qed.

Lemma build_times : req (mat_times m) (build M u k) (build M' u' k).
Proof using MP IU HU.
  unfold build. eapply req_bind; [apply soil_elements_times|]. intros a b E.
  eapply req_bind; [apply add_base_times; [lia|apply IU| |apply jit_build_times, E]; intros; apply base_times; auto|]. intros K1 K1' E1.
  eapply req_bind; [apply add_base_times; [lia|apply IU| |exact E1]; intros; apply base_times; auto|]. intros K2 K2' E2.
  apply add_base_times; [lia|apply IU| |exact E2]. intros; apply base_axial_times; auto.
Qed.
End BuildTimes.

(** ** Bending and stretching stay apart *)
Definition axial_dof (i : nat) : bool := Nat.eqb (i mod 3) 0.
Definition split_mat (K : mat) : Prop := forall i j, axial_dof i <> axial_dof j -> K i j == 0.
Definition split_elem (k : mat) : Prop := forall i j, (i < 6)%nat -> (j < 6)%nat -> axial_dof i <> axial_dof j -> k i j == 0.

Lemma axial_shift : forall e i, (3 * e <= i)%nat -> axial_dof (i - 3 * e) = axial_dof i.
Proof.
  intros e i H. unfold axial_dof. replace i with (i - 3 * e + e * 3)%nat at 2 by lia. rewrite Nat.mod_add by lia. reflexivity.
Qed.

Lemma split_add : forall K K', split_elem K -> split_elem K' -> split_elem (madd K K').
Proof. intros K K' H H' i j Hi Hj D. unfold madd. rewrite (H i j Hi Hj D), (H' i j Hi Hj D). ring. Qed.
Lemma split_py : forall L a b, split_elem (elem_py L a b).
Proof.
  intros L a b i j Hi Hj D. unfold elem_py, of_rows. cbv zeta.
  do 6 (destruct i as [|i]; [do 6 (destruct j as [|j]; [first [elim D; reflexivity|cbn [nth]; ring]|]); lia|]). lia.
Qed.
Lemma split_tz : forall L a b, split_elem (elem_tz L a b).
Proof.
  intros L a b i j Hi Hj D. unfold elem_tz, of_rows. cbv zeta.
  do 6 (destruct i as [|i]; [do 6 (destruct j as [|j]; [first [elim D; reflexivity|cbn [nth]; ring]|]); lia|]). lia.
Qed.
Lemma split_mt : forall c a b, split_elem (mt_matrix c a b).
Proof.
  intros [[[A B] C] E] a b i j Hi Hj D. unfold mt_matrix, of_rows.
  do 6 (destruct i as [|i]; [do 6 (destruct j as [|j]; [first [elim D; reflexivity|cbn [nth]; ring]|]); lia|]). lia.
Qed.
Lemma split_jit : forall n ks, (forall e, (e < n)%nat -> split_elem (ks e)) -> split_mat (jit_build n ks).
Proof.
  intros n ks H i j D. unfold jit_build. transitivity (sum n (fun _ => 0)); [|induction n; cbn; [reflexivity|rewrite IHn by auto; reflexivity]].
  apply sum_ext. intros e He. unfold block.
  destruct ((3 * e <=? i) && (i <? 3 * e + 6) && ((3 * e <=? j) && (j <? 3 * e + 6)))%nat eqn:Hb; [|reflexivity].
  apply andb_prop in Hb. destruct Hb as [B1 B2]. apply andb_prop in B1. apply andb_prop in B2. destruct B1 as [B1 B1']. destruct B2 as [B2 B2'].
  apply Nat.leb_le in B1. apply Nat.leb_le in B2. apply Nat.ltb_lt in B1'. apply Nat.ltb_lt in B2'.
  apply (H e He); try lia. rewrite !axial_shift by auto. exact D.
Qed.
Lemma split_base : forall M p o f u k K K', split_mat K -> add_base M p o f u k K = Ok K' -> split_mat K'.
Proof.
  intros M p o f u k K K' H E. unfold add_base, opt_res in E. destruct o as [c|]; [|injection E as <-; exact H].
  destruct (f _ c k) as [v|]; cbn [bind] in E; [|discriminate]. injection E as <-. intros i j D. unfold add_diag.
  destruct (Nat.eqb i _) eqn:E1; cbn [andb]; [|apply H, D]. destruct (Nat.eqb j _) eqn:E2; [|apply H, D].
  apply Nat.eqb_eq in E1. apply Nat.eqb_eq in E2. subst. elim D. reflexivity.
Qed.

Lemma build_split : forall M u k K, (forall e, (e < w_n M)%nat -> split_elem (w_mech M e)) -> build M u k = Ok K -> split_mat K.
Proof.
  intros M u k K H E. unfold build in E. destruct (soil_elements M u k) as [ks|] eqn:ES; cbn [bind] in E; [|discriminate].
  destruct (add_base M 2 _ _ _ _ _) as [K1|] eqn:E1; cbn [bind] in E; [|discriminate]. destruct (add_base M 1 _ _ _ _ _) as [K2|] eqn:E2; cbn [bind] in E; [|discriminate].
  cut (forall e, (e < w_n M)%nat -> split_elem (ks e)).
  { intros SE. apply (split_base _ _ _ _ _ _ _ _ (split_base _ _ _ _ _ _ _ _ (split_base _ _ _ _ _ _ _ _ (split_jit (w_n M) ks SE) E1) E2) E). }
  clear - H ES. unfold soil_elements in ES.
  destruct (opt_res (w_py M) _ _) as [k1|] eqn:P1; cbn [bind] in ES; [|discriminate].
  assert (S1 : forall e, (e < w_n M)%nat -> split_elem (k1 e)).
  { unfold opt_res in P1. destruct (w_py M) as [py|]; [|injection P1 as <-; exact H]. destruct (py_stiffness _ _ _ _) as [l|]; cbn [bind] in P1; [|discriminate].
    injection P1 as <-. intros e He. apply split_add; [auto|apply split_py]. }
  destruct (opt_res (w_tz M) _ _) as [k2|] eqn:P2; cbn [bind] in ES; [|discriminate].
  assert (S2 : forall e, (e < w_n M)%nat -> split_elem (k2 e)).
  { unfold opt_res in P2. destruct (w_tz M) as [tz|]; [|injection P2 as <-; exact S1]. destruct (tz_stiffness _ _ _ _) as [l|]; cbn [bind] in P2; [|discriminate].
    injection P2 as <-. intros e He. apply split_add; [auto|apply split_tz]. }
  unfold opt_res in ES. destruct (w_mt M) as [mt|]; [|injection ES as <-; exact S2]. destruct (w_py M) as [py|]; [|discriminate].
  destruct (mt_stiffness _ _ _ _ _) as [l|]; cbn [bind] in ES; [|discriminate]. injection ES as <-. intros e He. apply split_add; [auto|apply split_mt].
Qed.


(** ** The two kinds of twins *)
Lemma supports_times : forall n r U U' (a : nat -> Q), (forall i, (i < n)%nat -> ~ a i == 0) -> (forall i, (i < n)%nat -> U' i == a i * U i) ->
  forall i, (i < n)%nat -> supports_of r U' i = supports_of r U i.
Proof.
  intros n r U U' a A H i Hi. unfold supports_of. f_equal. f_equal. rewrite (Qeqb_comp _ _ 0 0 (H i Hi)) by reflexivity.
  destruct (Qeq_bool (U i) 0) eqn:E.
  - apply Qeq_bool_iff in E. apply Qeq_bool_iff. rewrite E. ring.
  - apply Qeq_bool_neq in E. destruct (Qeq_bool (a i * U i) 0) eqn:E'; auto. apply Qeq_bool_iff in E'. apply Qmult_integral in E'. destruct E' as [X|X]; [destruct (A i Hi X)|contradiction].
Qed.

Lemma mirror_nonzero : forall i, ~ mirror i == 0.
Proof. intros i. unfold mirror. destruct (Nat.eqb _ _); discriminate. Qed.
Lemma mirror_square : forall i, mirror i * mirror i == 1.
Proof. intros i. unfold mirror. destruct (Nat.eqb _ _); reflexivity. Qed.

Lemma mirror_image : forall u, mirrored u (fun i => if Nat.eqb (i mod 3) 0 then u i else - u i).
Proof.
  intros u i.
  replace ((3 * i) mod 3)%nat with 0%nat by (rewrite Nat.mul_comm, Nat.mod_mul; auto).
  replace ((3 * i + 1) mod 3)%nat with 1%nat by (rewrite Nat.add_comm, Nat.mul_comm, Nat.mod_add; auto).
  replace ((3 * i + 2) mod 3)%nat with 2%nat by (rewrite Nat.add_comm, Nat.mul_comm, Nat.mod_add; auto). auto.
Qed.

Lemma build_mirror : forall M u u' k, w_mt M = None -> (forall e, (e < w_n M)%nat -> split_elem (w_mech M e)) -> disps (size M) mirror u u' ->
  req (stiffs (size M) mirror mirror) (build M u k) (build M u' k).
Proof.
  intros M u u' k NM SP H. set (v := fun i => if Nat.eqb (i mod 3) 0 then u i else - u i).
  assert (V : veq (size M) v u').
  { intros i Hi. rewrite (H i Hi). unfold v, mirror. destruct (Nat.eqb _ _); ring. }
  pose proof (build_comp M v u' k V) as C. rewrite (mirror_build M u v k NM (mirror_image u)) in C.
  destruct (build M u k) as [K|] eqn:E; destruct (build M u' k) as [K'|]; cbn [req] in *; try contradiction; auto.
  intros i j _ _. rewrite <- (C i j). destruct (Bool.bool_dec (axial_dof i) (axial_dof j)) as [D|D].
  - assert (X : mirror i = mirror j) by (unfold mirror; unfold axial_dof in D; rewrite D; reflexivity). rewrite X. ring.
  - rewrite (build_split M u k K SP E i j D). ring.
Qed.

Lemma solver_winkler : forall solve solve' M F U0 r max_iter, solver_ok solve -> solver_ok solve' ->
  req (outcomes (size M) (fun _ => 1) (fun _ => 1) 1) (winkler_model solve M F U0 r max_iter) (winkler_model solve' M F U0 r max_iter).
Proof.
  intros solve solve' M F U0 r mi SO SO'. unfold winkler_model.
  apply twin_winkler; auto; try (intros; cbn; lra); try (intros; discriminate).
  - intros d d' k HD. assert (V : veq (size M) d d') by (intros i Hi; rewrite (HD i Hi); ring).
    pose proof (build_comp M d d' k V) as BC. destruct (build M d k); destruct (build M d' k); cbn [req] in *; try contradiction; auto.
    intros i j _ _. rewrite (BC i j). ring.
  - intros i Hi. ring.
  - intros i Hi. ring.
Qed.

Lemma unit_winkler : forall solve solve' m M M' F F' U0 U0' r max_iter, solver_ok solve -> solver_ok solve' -> 0 < m -> in_unit m M M' ->
  (forall i, (i < size M)%nat -> F' i == m * F i) -> veq (size M) U0' U0 ->
  req (outcomes (size M) (fun _ => 1) (fun _ => m) (m * m)) (winkler_model solve M F U0 r max_iter) (winkler_model solve' M' F' U0' r max_iter).
Proof.
  intros solve solve' m M M' F F' U0 U0' r mi SO SO' MP IU HF HU. unfold winkler_model. rewrite (size_same m M M' IU).
  apply twin_winkler; auto; try (intros; cbn; lra).
  - intros i Hi. apply (supports_times (size M) r U0 U0' (fun _ => 1)); auto; [intros; discriminate|]. intros j Hj. rewrite (HU j Hj). ring.
  - nra.
  - intros d d' k HD. assert (V : veq (size M) d d') by (intros i Hi; rewrite (HD i Hi); ring).
    pose proof (build_times m M M' d d' k MP IU V) as B. destruct (build M d k); destruct (build M' d' k); cbn [req] in *; try contradiction; auto.
    intros i j _ _. rewrite (B i j). ring.
  - intros i Hi. rewrite (HU i Hi). ring.
Qed.

Lemma mirror_winkler : forall solve solve' M F F' U0 U0' r max_iter, solver_ok solve -> solver_ok solve' -> w_mt M = None ->
  (forall e, (e < w_n M)%nat -> split_elem (w_mech M e)) -> (forall i, (i < size M)%nat -> F' i == mirror i * F i) -> (forall i, (i < size M)%nat -> U0' i == mirror i * U0 i) ->
  req (outcomes (size M) mirror mirror 1) (winkler_model solve M F U0 r max_iter) (winkler_model solve' M F' U0' r max_iter).
Proof.
  intros solve solve' M F F' U0 U0' r mi SO SO' NM SP HF HU. unfold winkler_model.
  apply twin_winkler; auto; try (intros; apply mirror_nonzero); try reflexivity.
  - apply (supports_times (size M) r U0 U0' mirror); auto. intros; apply mirror_nonzero.
  - intros; apply mirror_square.
  - intros d d' k HD. apply build_mirror; auto.
Qed.
