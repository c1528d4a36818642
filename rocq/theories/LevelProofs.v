(** Elevations measured from another datum: springs, loads and analyses. *)
From Coq Require Import List Bool Arith ZArith QArith Qabs Qround Qminmax Reals Qreals Lia Lqa FunctionalExtensionality.
From Verif Require Import Base LinAlg BCModel PileModel MeshModel MeshProofs StressModel StressSpec BeamModel SolveModel SpringModel SpringProofs SpringProper WinklerModel CreateModel WholeModel
  AxialModel LateralModel CapacityModel FullModel GetterModel ResultModel SessionModel LiveModel SplitSpec SplitProofs DatumSpec DatumProofs RangeProofs.
Import ListNotations.
Local Open Scope Q_scope.

(** The rounded elevation [a] tenths of a millimetre becomes [a + k] *)
Definition step_up (k : Z) (r r' : Q) : Prop := exists a, r = inject_Z a / 10000 /\ r' = inject_Z (a + k) / 10000.
Definition pair_up (k : Z) (e e' : Q * Q) : Prop := step_up k (fst e) (fst e') /\ step_up k (snd e) (snd e').

Lemma step_up_up : forall d k r r', d == inject_Z k / 10000 -> step_up k r r' -> up d r r'.
Proof. intros d k r r' D (a & -> & ->). unfold up. rewrite D, inject_Z_plus. field. Qed.
Lemma step_minus : forall k r r' s s', step_up k r r' -> step_up k s s' -> r' - s' = r - s.
Proof. intros k r r' s s' (a & -> & ->) (b & -> & ->). unfold Qminus, Qdiv, Qplus, Qopp, Qmult, Qinv, inject_Z. cbn [Qnum Qden]. f_equal. ring. Qed.

Lemma round_up : forall d k z z', d == inject_Z k / 10000 -> (Z.even k = true \/ ~ half_way z) -> up d z z' -> step_up k (round4 z) (round4 z').
Proof.
  intros d k z z' D H U. exists (rint (z * 10000)). split; [reflexivity|]. unfold round4. rewrite (rint_move (z * 10000) (z' * 10000) k); [reflexivity| |].
  - unfold up in U. rewrite U, D. field.
  - destruct H as [H|H]; [left; exact H|right]. intros (j & J). apply H. exists j. exact J.
Qed.
Lemma nodes_up : forall d k m m', d == inject_Z k / 10000 -> (Z.even k = true \/ forall z, In z m -> ~ half_way z) -> Forall2 (up d) m m' -> Forall2 (step_up k) (nodes_of m) (nodes_of m').
Proof.
  intros d k m m' D H F. unfold nodes_of. revert H. induction F as [|z z' t t' U F IH]; intros H; cbn [map]; constructor.
  - apply (round_up d); auto. destruct H as [H|H]; [left; exact H|right; apply H; left; reflexivity].
  - apply IH. destruct H as [H|H]; [left; exact H|right; intros y I; apply H; right; exact I].
Qed.
Lemma elements_nodes : forall m, elements_of m = combine (removelast (nodes_of m)) (tl (nodes_of m)).
Proof.
  intros m. unfold elements_of, nodes_of. assert (A : removelast (map round4 m) = map round4 (removelast m)).
  { induction m as [|a t IH]; [reflexivity|]. destruct t; [reflexivity|]. cbn [map removelast] in *. rewrite IH. reflexivity. }
  assert (B : tl (map round4 m) = map round4 (tl m)) by (destruct m; reflexivity). rewrite A, B. generalize (removelast m) as u, (tl m) as v. clear.
  induction u as [|a t IH]; intros v; [reflexivity|]. destruct v; [reflexivity|]. cbn [combine map fst snd]. rewrite IH. reflexivity.
Qed.
Lemma combine_F2 : forall A B (P : A -> A -> Prop) (Q0 : B -> B -> Prop) u u' v v', Forall2 P u u' -> Forall2 Q0 v v' -> Forall2 (fun e e' => P (fst e) (fst e') /\ Q0 (snd e) (snd e')) (combine u v) (combine u' v').
Proof. intros A B P Q0 u u' v v' F. revert v v'. induction F as [|a a' t t' E F IH]; intros v v' G; [constructor|]. destruct G; cbn [combine]; constructor; auto. Qed.
Lemma elements_up : forall k m m', Forall2 (step_up k) (nodes_of m) (nodes_of m') -> Forall2 (pair_up k) (elements_of m) (elements_of m').
Proof.
  intros k m m' F. rewrite !elements_nodes. apply combine_F2; [apply removelast_comp; exact F|]. destruct F; [constructor|exact F].
Qed.
Lemma F2_length : forall A B (P : A -> B -> Prop) l l', Forall2 P l l' -> length l' = length l.
Proof. intros A B P l l' F. induction F; cbn [length]; auto. Qed.
Lemma F2_const : forall A B (P : A -> B -> Prop) l l' (v : Q), Forall2 P l l' -> map (fun _ => v) l' = map (fun _ => v) l.
Proof. intros A B P l l' v F. induction F; cbn [map]; congruence. Qed.
Lemma F2_nth : forall A B (P : A -> B -> Prop) l l' i a b, Forall2 P l l' -> (i < length l)%nat -> P (nth i l a) (nth i l' b).
Proof. intros A B P l l' i a b F. revert i. induction F as [|x y t t' E F IH]; intros i H; cbn [length] in H; [lia|]. destruct i; cbn [nth]; [exact E|]. apply IH. lia. Qed.

Section Elements.
Variables (d : Q) (k : Z).
Hypothesis D : d == inject_Z k / 10000.
Notation rs := (raise_section d).
Notation rl := (raise_layer d).

Lemma pair_tops : forall e e', pair_up k e e' -> up d (fst e) (fst e') /\ up d (snd e) (snd e').
Proof using D. intros e e' [A B]. split; eapply step_up_up; eauto. Qed.
Lemma length_up : forall es es' e, Forall2 (pair_up k) es es' -> elem_length es' e = elem_length es e.
Proof using.
  intros es es' e F. unfold elem_length. destruct (le_lt_dec (length es) e) as [L|L].
  - rewrite !nth_overflow; [reflexivity|lia|rewrite (F2_length _ _ _ _ _ F); lia].
  - destruct (F2_nth _ _ _ _ _ e (0, 0) (0, 0) F L) as [A B]. rewrite (step_minus _ _ _ _ _ A B). reflexivity.
Qed.
Lemma inside_up : forall t b e e', pair_up k e e' -> inside (t + d) (b + d) e' = inside t b e.
Proof using D. intros t b e e' P. destruct (pair_tops _ _ P) as [A B]. unfold inside. rewrite (leb_up d _ _ _ _ A (up_refl d t)), (leb_up d _ _ _ _ (up_refl d b) B). reflexivity. Qed.
Lemma parameter_up : forall A (f : section -> A) p es es', (forall s, f (rs s) = f s) -> Forall2 (pair_up k) es es' ->
  parameter2elements (section_objs f (map rs p)) es' = parameter2elements (section_objs f p) es.
Proof using D.
  intros A f p es es' H F. unfold parameter2elements, section_objs. rewrite map_map.
  assert (Z0 : map (fun _ : Q * Q => @None A) es' = map (fun _ => None) es) by (induction F; cbn [map]; congruence). rewrite Z0. clear Z0. generalize (map (fun _ : Q * Q => @None A) es) as col.
  induction p as [|s t IH]; intros col; [reflexivity|]. cbn [map fold_left fst snd]. rewrite H.
  assert (E : map (fun pe => if inside (s_top (rs s)) (s_bottom (rs s)) (snd pe) then Some (f s) else fst pe) (combine col es') = map (fun pe => if inside (s_top s) (s_bottom s) (snd pe) then Some (f s) else fst pe) (combine col es)).
  { clear IH. revert col. induction F as [|e e' u u' P F IH]; intros [|c col]; try reflexivity. cbn [combine map fst snd raise_section s_top s_bottom] in *. rewrite (inside_up _ _ _ _ P), IH. reflexivity. }
  rewrite E. apply IH.
Qed.
Lemma value_up : forall (f : section -> Q) p es es' e, (forall s, f (rs s) = f s) -> Forall2 (pair_up k) es es' -> elem_value f (map rs p) es' e = elem_value f p es e.
Proof using D. intros f p es es' e H F. unfold elem_value. rewrite (parameter_up Q f p es es' H F). reflexivity. Qed.
Lemma matrix_up : forall ty circ E nu p es es' e, Forall2 (pair_up k) es es' -> elem_matrix ty circ E nu (map rs p) es' e = elem_matrix ty circ E nu p es e.
Proof using D.
  intros ty circ E nu p es es' e F. unfold elem_matrix.
  rewrite (value_up s_inertia p es es' e), (value_up s_area p es es' e), (value_up s_width p es es' e), (value_up thickness p es es' e), (length_up es es' e F); auto.
Qed.
Lemma matrices_up : forall ty circ E nu p es es', Forall2 (pair_up k) es es' -> elem_matrices ty circ E nu (map rs p) es' = elem_matrices ty circ E nu p es.
Proof using D. intros ty circ E nu p es es' F. unfold elem_matrices. rewrite (F2_length _ _ _ _ _ F). rewrite (SpringProper.collect_ext _ _ _ (elem_matrix ty circ E nu p es)); [reflexivity|]. intros e _. apply matrix_up. exact F. Qed.
Lemma coef_up : forall ty circ E nu p es es' e, Forall2 (pair_up k) es es' -> moment_coef ty circ E nu (map rs p) es' e = moment_coef ty circ E nu p es e.
Proof using D.
  intros ty circ E nu p es es' e F. unfold moment_coef.
  rewrite (value_up s_inertia p es es' e), (value_up s_area p es es' e), (value_up s_width p es es' e), (value_up thickness p es es' e), (length_up es es' e F); auto.
Qed.
Lemma coefs_up : forall ty circ E nu p es es', Forall2 (pair_up k) es es' -> moment_coefs ty circ E nu (map rs p) es' = moment_coefs ty circ E nu p es.
Proof using D. intros ty circ E nu p es es' F. unfold moment_coefs. rewrite (F2_length _ _ _ _ _ F). rewrite (SpringProper.collect_ext _ _ _ (moment_coef ty circ E nu p es)); [reflexivity|]. intros e _. apply coef_up. exact F. Qed.

(** ** Stresses *)
Lemma asof_up : forall A (f : A -> A) rows z z', up d z z' -> asof_forward (map (fun r => (fst r + d, f (snd r))) rows) z' = option_map f (asof_forward rows z).
Proof using.
  clear. intros A f rows z z' U. induction rows as [|[q a] t IH]; [reflexivity|]. cbn [map asof_forward fst snd]. rewrite (leb_up d _ _ _ _ U (up_refl d q)). destruct (Qle_bool z q); [reflexivity|exact IH].
Qed.
Lemma layer_rows_up : forall ls, layer_rows (map rl ls) = map (fun r => (fst r + d, rl (snd r))) (layer_rows ls).
Proof using.
  clear. intros ls. unfold layer_rows. rewrite map_map. cbn [raise_layer l_top].
  rewrite <- (sort_map (fun r => (fst r + d, rl (snd r))) fst fst).
  - rewrite map_map. reflexivity.
  - intros x y. cbn [fst]. apply (leb_up d); apply up_refl.
Qed.
Lemma weight_up : forall ls wt e e', pair_up k e e' -> elem_weight (map rl ls) (wt + d) e' = elem_weight ls wt e.
Proof using D.
  intros ls wt e e' P. destruct (pair_tops _ _ P) as [A B]. unfold elem_weight. rewrite layer_rows_up, (asof_up _ rl _ _ _ A), (leb_up d _ _ _ _ A (up_refl d wt)).
  destruct (asof_forward (layer_rows ls) (fst e)); reflexivity.
Qed.
Lemma where_up : forall g es es' i, Forall2 (pair_up k) es es' -> where_eq i (g + d) es' = where_eq i g es.
Proof using D.
  intros g es es' i F. revert i. induction F as [|e e' t t' P F IH]; intros i; cbn [where_eq]; [reflexivity|]. destruct (pair_tops _ _ P) as [A B].
  rewrite (eqb_up d _ _ _ _ A (up_refl d g)), IH. reflexivity.
Qed.
Lemma stress_up : forall ls g wt es es', Forall2 (pair_up k) es es' -> stress (map rl ls) (g + d) (wt + d) es' = stress ls g wt es.
Proof using D.
  intros ls g wt es es' F. unfold stress. rewrite (where_up g es es' 0 F).
  assert (E : map (stress_increment (map rl ls) (wt + d)) es' = map (stress_increment ls wt) es).
  { clear g. induction F as [|e e' t t' P F IH]; cbn [map]; [reflexivity|]. rewrite IH. f_equal. unfold stress_increment. rewrite (weight_up _ _ _ _ P). destruct P as [A B]. rewrite (step_minus _ _ _ _ _ A B). reflexivity. }
  rewrite E. reflexivity.
Qed.
Lemma property_up : forall A (f : section -> A) rows e e', (forall s, f (rs s) = f s) -> pair_up k e e' -> element_property f (map (raise_row d) rows) e' = element_property f rows e.
Proof using D.
  intros A f rows e e' H P. destruct (pair_tops _ _ P) as [U _]. unfold element_property. change (map (raise_row d) rows) with (map (fun r => (fst r + d, rs (snd r))) rows).
  rewrite (asof_up _ rs _ _ _ U). destruct (asof_forward rows (fst e)); cbn [option_map]; [rewrite H|]; reflexivity.
Qed.
Lemma data_rows_up : forall p, data_rows (map rs p) = map (raise_row d) (data_rows p).
Proof using. clear. intros p. unfold data_rows. induction p as [|s t IH]; cbn [map flat_map app]; [reflexivity|]. rewrite IH. reflexivity. Qed.
End Elements.

(** ** Springs *)
Section Springs.
Variables (rnd : R -> Q) (ch ch' : chance).
Hypothesis AL : alike ch ch'.

Lemma place_eq : forall A a a' (F F' : place -> res A) store, same_args a a' -> (forall q, F q = F' q) -> at_place a F store = at_place a' F' store.
Proof using.
  clear. intros A a a' F F' store ((S1 & S2 & S3 & S4 & S5 & _) & S6 & S7) H. unfold at_place.
  rewrite <- S3, <- S5. unfold nan_eq in S1. destruct (a_sig a) as [s|], (a_sig a') as [s'|]; try contradiction; [|reflexivity]. destruct (a_D a) as [D0|]; [|reflexivity].
  rewrite (Qeq_eqR _ _ S1), (Qeq_eqR _ _ S2), (Qeq_eqR _ _ S4), (Qeq_eqR _ _ S6), (Qeq_eqR _ _ S7), H. reflexivity.
Qed.
Lemma lateral_eq : forall m a a', same_args a a' ->
  f_py (lateral_of rnd ch m) a = f_py (lateral_of rnd ch' m) a' /\ f_mt (lateral_of rnd ch m) a = f_mt (lateral_of rnd ch' m) a' /\
  f_hb (lateral_of rnd ch m) a = f_hb (lateral_of rnd ch' m) a' /\ f_mb (lateral_of rnd ch m) a = f_mb (lateral_of rnd ch' m) a'.
Proof using AL.
  intros m a a' H. destruct (AL a a' H) as [L _]. destruct (L m) as [L1 L2]. cbn [lateral_of f_py f_mt f_hb f_mb].
  repeat split; apply place_eq; auto; intros q; rewrite ?L1, ?L2; reflexivity.
Qed.
Lemma axial_eq : forall ta fp m a a', same_args a a' -> f_tz (axial_of rnd ch ta fp m) a = f_tz (axial_of rnd ch' ta fp m) a' /\ f_qz (axial_of rnd ch ta fp m) a = f_qz (axial_of rnd ch' ta fp m) a'.
Proof using AL.
  intros ta fp m a a' H. destruct (AL a a' H) as [_ L]. destruct (L m) as [L1 L2]. destruct H as ((S1 & S2 & S3 & S4 & S5 & S8 & S9) & S6 & S7). cbn [axial_of f_tz f_qz]. unfold tz_curve, qz_curve. rewrite <- S3, <- S8, <- S9, L1, L2.
  unfold nan_eq in S1. destruct (a_sig a) as [s|], (a_sig a') as [s'|]; try contradiction; [|split; reflexivity]. rewrite (Qeq_eqR _ _ S1), (Qeq_eqR _ _ S6), (Qeq_eqR _ _ S7). split; reflexivity.
Qed.

Variables (d : Q) (st st' : setting).
(** The same setting on both datums *)
Hypothesis OPT : distributed_lateral st' = distributed_lateral st /\ distributed_moment st' = distributed_moment st /\ base_shear st' = base_shear st /\ base_moment st' = base_moment st /\
  distributed_axial st' = distributed_axial st /\ base_axial st' = base_axial st.
Hypothesis EL : Forall2 (fun e e' => up d (fst e) (fst e') /\ up d (snd e) (snd e')) (elems st) (elems st').
Hypothesis LV : up d (ground st) (ground st') /\ up d (soil_bottom st) (soil_bottom st') /\ up d (water st) (water st') /\ up d (tip st) (tip st').
Hypothesis SG : sig_top st' = sig_top st /\ sig_bottom st' = sig_bottom st.
Hypothesis PR : forall i, (i < length (elems st))%nat -> width st' i = width st i /\ outer st' i = outer st i.

Lemma nan_refl : forall a : nanQ, nan_eq a a. Proof. intros [q|]; [apply Qeq_refl|exact Logic.I]. Qed.
Lemma shaft_eq : forall l i j, (i < length (elems st))%nat -> same_args (shaft_args st l i j) (shaft_args st' (raise_layer d l) i j).
Proof using EL LV SG PR.
  intros l i j I. destruct (F2_nth _ _ _ _ _ i (0, 0) (0, 0) EL I) as [A B]. destruct (PR i I) as [P1 P2]. destruct LV as (G & _ & W & T). destruct SG as [S1 S2].
  assert (PJ : up d (pick j (nth i (elems st) (0, 0))) (pick j (nth i (elems st') (0, 0)))) by (unfold pick; destruct (Nat.eqb j 0); assumption).
  unfold same_args, same_call, shaft_args. cbn [CreateModel.a_sig CreateModel.a_X CreateModel.a_D CreateModel.a_L CreateModel.a_wet CreateModel.a_perim CreateModel.a_perim_in CreateModel.a_height CreateModel.a_depth raise_layer l_top l_bottom].
  rewrite S1, S2, P1, P2, (leb_up d _ _ _ _ PJ W). split; [split; [apply nan_refl|]; split; [|split; [reflexivity|split; [|auto]]]|].
  - assert (E : pick j (nth i (elems st) (0, 0)) - ground st == pick j (nth i (elems st') (0, 0)) - ground st') by (unfold up in *; lra). rewrite E. reflexivity.
  - unfold up in *. lra.
  - split; unfold up in *; lra.
Qed.
Lemma base_eq : forall l i, (i < length (elems st))%nat -> same_args (base_args st l i) (base_args st' (raise_layer d l) i).
Proof using LV SG PR.
  intros l i I. destruct (PR i I) as [P1 P2]. destruct LV as (G & SB & W & T). destruct SG as [S1 S2].
  unfold same_args, same_call, base_args. cbn [CreateModel.a_sig CreateModel.a_X CreateModel.a_D CreateModel.a_L CreateModel.a_wet CreateModel.a_perim CreateModel.a_perim_in CreateModel.a_height CreateModel.a_depth raise_layer l_top l_bottom].
  rewrite S2, P1, (leb_up d _ _ _ _ T W). split; [split; [apply nan_refl|]; split; [|split; [reflexivity|split; [|auto]]]|]; try split; unfold up in *; lra.
Qed.
Lemma tip_eq : forall l, tip_in st' (raise_layer d l) = tip_in st l.
Proof using LV. intros l. destruct LV as (G & SB & W & T). unfold tip_in. rewrite (leb_up d _ _ _ _ T (up_ltop d l)), (leb_up d _ _ _ _ (up_lbottom d l) T). reflexivity. Qed.

Variables ta fp : Q.
Notation sl := (slayer_of rnd ch ta fp).
Notation sl' := (slayer_of rnd ch' ta fp).
Lemma calls_eq : forall y i, (i < length (elems st))%nat -> calls_of st' (sl' (raise_soil d y), i) = calls_of st (sl y, i).
Proof using AL OPT EL LV SG PR.
  intros y i I. unfold calls_of. cbn [slayer_of s_layer s_ax s_lat raise_soil y_layer y_ax y_lat]. destruct OPT as (-> & -> & -> & -> & -> & ->). rewrite tip_eq. f_equal.
  - destruct (y_ax y) as [m|]; cbn [option_map]; [|reflexivity].
    rewrite (proj1 (axial_eq ta fp m _ _ (shaft_eq (y_layer y) i 0 I))), (proj1 (axial_eq ta fp m _ _ (shaft_eq (y_layer y) i 1 I))), (proj2 (axial_eq ta fp m _ _ (base_eq (y_layer y) i I))). reflexivity.
  - destruct (y_lat y) as [m|]; cbn [option_map]; [|reflexivity].
    destruct (lateral_eq m _ _ (shaft_eq (y_layer y) i 0 I)) as (A1 & A2 & _). destruct (lateral_eq m _ _ (shaft_eq (y_layer y) i 1 I)) as (B1 & B2 & _). destruct (lateral_eq m _ _ (base_eq (y_layer y) i I)) as (_ & _ & C1 & C2).
    rewrite A1, A2, B1, B2, C1, C2. reflexivity.
Qed.
Lemma put_eq : forall V (f : nat -> nat -> option V) i g g', (forall j, g j = g' j) -> put f i g = put f i g'.
Proof using. clear. intros V f i g g' H. assert (E : g = g') by (apply functional_extensionality; exact H). rewrite E. reflexivity. Qed.
Lemma visit_eq : forall y i m, (i < length (elems st))%nat -> visit st' (sl' (raise_soil d y), i) m = visit st (sl y, i) m.
Proof using AL OPT EL LV SG PR.
  intros y i m I. unfold visit. cbn [slayer_of s_layer s_ax s_lat raise_soil y_layer y_ax y_lat]. destruct OPT as (-> & -> & -> & -> & -> & ->). rewrite tip_eq.
  assert (M : (match option_map (axial_of rnd ch' ta fp) (y_ax y) with
    | None => m
    | Some ax => {| m_py := m_py m; m_mt := m_mt m; m_tz := if distributed_axial st then put (m_tz m) i (fun j => f_tz ax (shaft_args st' (raise_layer d (y_layer y)) i j)) else m_tz m;
        m_hb := m_hb m; m_mb := m_mb m; m_qz := if tip_in st (y_layer y) && base_axial st then Some (f_qz ax (base_args st' (raise_layer d (y_layer y)) i)) else m_qz m |} end) =
   (match option_map (axial_of rnd ch ta fp) (y_ax y) with
    | None => m
    | Some ax => {| m_py := m_py m; m_mt := m_mt m; m_tz := if distributed_axial st then put (m_tz m) i (fun j => f_tz ax (shaft_args st (y_layer y) i j)) else m_tz m;
        m_hb := m_hb m; m_mb := m_mb m; m_qz := if tip_in st (y_layer y) && base_axial st then Some (f_qz ax (base_args st (y_layer y) i)) else m_qz m |} end)).
  { destruct (y_ax y) as [a|]; cbn [option_map]; [|reflexivity]. f_equal.
    - destruct (distributed_axial st); [|reflexivity]. apply put_eq. intros j. symmetry. apply axial_eq. apply shaft_eq. exact I.
    - destruct (tip_in st (y_layer y) && base_axial st); [|reflexivity]. f_equal. symmetry. apply axial_eq. apply base_eq. exact I. }
  rewrite M. clear M. match goal with |- match _ with Some _ => _ | None => ?x end = _ => generalize x as m1 end. intros m1.
  destruct (y_lat y) as [a|]; cbn [option_map]; [|reflexivity].
  assert (HS : has_py (lateral_of rnd ch' a) = has_py (lateral_of rnd ch a) /\ has_mt (lateral_of rnd ch' a) = has_mt (lateral_of rnd ch a) /\ has_hb (lateral_of rnd ch' a) = has_hb (lateral_of rnd ch a) /\ has_mb (lateral_of rnd ch' a) = has_mb (lateral_of rnd ch a)) by (repeat split; reflexivity).
  destruct HS as (-> & -> & -> & ->). f_equal.
  - destruct (_ && _); [|reflexivity]. apply put_eq. intros j. symmetry. apply lateral_eq. apply shaft_eq. exact I.
  - destruct (_ && _); [|reflexivity]. apply put_eq. intros j. symmetry. apply lateral_eq. apply shaft_eq. exact I.
  - destruct (_ && _); [|reflexivity]. f_equal. symmetry. apply lateral_eq. apply base_eq. exact I.
  - destruct (_ && _); [|reflexivity]. f_equal. symmetry. apply lateral_eq. apply base_eq. exact I.
Qed.
Lemma inside_eq : forall l i, (i < length (elems st))%nat -> inside (l_top l + d) (l_bottom l + d) (nth i (elems st') (0, 0)) = inside (l_top l) (l_bottom l) (nth i (elems st) (0, 0)).
Proof using EL.
  intros l i I. destruct (F2_nth _ _ _ _ _ i (0, 0) (0, 0) EL I) as [A B]. unfold inside. rewrite (leb_up d _ _ _ _ A (up_refl d (l_top l))), (leb_up d _ _ _ _ (up_refl d (l_bottom l)) B). reflexivity.
Qed.
Lemma filter_ext_in2 : forall A (f g : A -> bool) l, (forall x, In x l -> f x = g x) -> filter f l = filter g l.
Proof using. clear. intros A f g l H. apply filter_ext_in. exact H. Qed.
Lemma filter_seq_lt : forall f n i, In i (filter f (seq 0 n)) -> (i < n)%nat.
Proof using. clear. intros f n i I. apply filter_In in I. destruct I as [I _]. apply in_seq in I. lia. Qed.
Lemma springs_up : forall ys, make_springs st' (map sl' (map (raise_soil d) ys)) = make_springs st (map sl ys).
Proof using AL OPT EL LV SG PR.
  intros ys. unfold make_springs, create_springs, work. rewrite (F2_length _ _ _ _ _ EL).
  assert (FE : forall l, filter (fun i => inside (l_top l + d) (l_bottom l + d) (nth i (elems st') (0, 0))) (seq 0 (length (elems st))) = filter (fun i => inside (l_top l) (l_bottom l) (nth i (elems st) (0, 0))) (seq 0 (length (elems st)))).
  { intros l. apply filter_ext_in. intros i I. apply in_seq in I. apply inside_eq. lia. }
  assert (C : flat_map (calls_of st') (flat_map (fun s => map (fun i => (s, i)) (filter (fun i => inside (l_top (s_layer s)) (l_bottom (s_layer s)) (nth i (elems st') (0, 0))) (seq 0 (length (elems st))))) (map sl' (map (raise_soil d) ys))) =
              flat_map (calls_of st) (flat_map (fun s => map (fun i => (s, i)) (filter (fun i => inside (l_top (s_layer s)) (l_bottom (s_layer s)) (nth i (elems st) (0, 0))) (seq 0 (length (elems st))))) (map sl ys))).
  { induction ys as [|y t IH]; [reflexivity|]. cbn [map flat_map]. rewrite !flat_map_app, IH. f_equal. cbn [slayer_of s_layer raise_soil y_layer raise_layer l_top l_bottom]. rewrite FE.
    assert (G : forall is, (forall i, In i is -> (i < length (elems st))%nat) -> flat_map (calls_of st') (map (fun i => (sl' (raise_soil d y), i)) is) = flat_map (calls_of st) (map (fun i => (sl y, i)) is)).
    { induction is as [|i is IS]; intros H; [reflexivity|]. cbn [map flat_map]. rewrite IS by (intros j J; apply H; right; exact J). rewrite calls_eq by (apply H; left; reflexivity). reflexivity. }
    apply G. intros i I. exact (filter_seq_lt _ _ _ I). }
  rewrite C. destruct (first_error _); [reflexivity|]. f_equal. clear C.
  generalize (@no_springs stored_value) as m0. induction ys as [|y t IH]; intros m0; [reflexivity|]. cbn [map flat_map]. rewrite !fold_left_app.
  cbn [slayer_of s_layer raise_soil y_layer raise_layer l_top l_bottom]. rewrite FE.
  assert (G : forall is m1, (forall i, In i is -> (i < length (elems st))%nat) -> fold_left (fun m li => visit st' li m) (map (fun i => (sl' (raise_soil d y), i)) is) m1 = fold_left (fun m li => visit st li m) (map (fun i => (sl y, i)) is) m1).
  { induction is as [|i is IS]; intros m1 H; [reflexivity|]. cbn [map fold_left]. rewrite visit_eq by (apply H; left; reflexivity). apply IS. intros j J. apply H. right. exact J. }
  rewrite G by (intros i I; exact (filter_seq_lt _ _ _ I)). apply IH.
Qed.
End Springs.

(** ** The model *)
Section Construct.
Variables (rnd : R -> Q) (ch ch' : chance) (sort sort' : list (Q * section) -> list (Q * section)) (o : options) (d : Q) (sections : list section) (gr wt : Q) (ys : list soil_layer) (x : list Q) (c : Q).
Hypothesis AL : alike ch ch'.
Hypothesis SO : sorts_alike d sort sort'.
Hypothesis WI : within d (map y_layer ys).
Hypothesis MV : forall p b m, make_pile sections = Ok p -> pile_bottom p = Ok b -> mesh p b (Some (map y_layer ys)) x c = Some m -> moves d m.

(** What the two have in common, step by step of tenths of a millimetre *)
Definition built_step (k : Z) (B B' : built) : Prop :=
  b_pile B' = map (raise_section d) (b_pile B) /\ Forall2 (step_up k) (nodes_of (b_mesh B)) (nodes_of (b_mesh B')) /\
  sig_top (b_setting B') = sig_top (b_setting B) /\ sig_bottom (b_setting B') = sig_bottom (b_setting B) /\ b_made B' = b_made B.

Lemma layers_raised : map y_layer (map (raise_soil d) ys) = map (raise_layer d) (map y_layer ys).
Proof using. clear. rewrite !map_map. reflexivity. Qed.
Lemma profile_same : forall g l r, make_profile g l = Ok r -> r = l.
Proof using. clear. intros g l r. unfold make_profile. destruct (layers_down l); [discriminate|]. destruct (negb _); [discriminate|]. destruct (PileModel.stacked _); [|discriminate]. intros E. injection E as <-. reflexivity. Qed.

Lemma construct_step : alike_res (both_or_none (fun B B' => exists k, d == inject_Z k / 10000 /\ built_step k B B'))
  (construct rnd ch sort o sections gr wt ys x c) (construct rnd ch' sort' o (map (raise_section d) sections) (gr + d) (wt + d) (map (raise_soil d) ys) (map (fun z => z + d) x) c).
Proof using AL SO WI MV.
  unfold construct. rewrite pile_up, layers_raised. destruct (make_pile sections) as [p|e] eqn:EP; cbn [bind]; [|reflexivity].
  rewrite (profile_up d gr (map y_layer ys) WI). destruct (make_profile gr (map y_layer ys)) as [ls|e] eqn:EL; cbn [bind]; [|reflexivity]. pose proof (profile_same _ _ _ EL) as ->.
  pose proof (pile_length_up d p) as LU. destruct (pile_length p) as [len|e], (pile_length (map (raise_section d) p)) as [len'|e']; try contradiction; cbn [bind]; [|exact LU].
  pose proof (pile_bottom_up d p) as BU. destruct (pile_bottom p) as [b|e] eqn:EB, (pile_bottom (map (raise_section d) p)) as [b'|e']; try contradiction; cbn [bind]; [|exact BU]. subst b'.
  rewrite (proj1 (accept_up d len len' c b (b + d) _ _ LU (up_refl d b) (profile_bottom_up d gr (map y_layer ys)))). destruct (accept_model len c b (Some (profile_bottom gr (map y_layer ys)))) as [[]|e]; cbn [bind]; [|reflexivity].
  pose proof (mesh_up d p b (b + d) (Some (map y_layer ys)) x c (up_refl d b)) as MU. cbn [option_map] in MU.
  destruct (mesh p b (Some (map y_layer ys)) x c) as [m|] eqn:EM, (mesh (map (raise_section d) p) (b + d) (Some (map (raise_layer d) (map y_layer ys))) (map (fun z => z + d) x) c) as [m'|]; try contradiction; [|exact Logic.I].
  cbn [both_or_none] in MU. destruct (MV p b m eq_refl EB EM) as (k & D & K). pose proof (nodes_up d k m m' D K MU) as NU. pose proof (elements_up k m m' NU) as EU.
  rewrite (stress_up d k D _ gr wt _ _ EU). destruct (stress (map y_layer ys) gr wt (elements_of m)) as [sg|e] eqn:ES; cbn [bind]; [|reflexivity].
  destruct (tip_area_up d p) as [TA TF]. rewrite TA, TF. destruct (tip_area p) as [ta|e]; cbn [bind]; [|reflexivity]. destruct (tip_footprint p) as [fp|e]; cbn [bind]; [|reflexivity].
  cbv zeta. rewrite (data_rows_up d p), (SO (data_rows p)).
  rewrite (springs_up rnd ch ch' AL d (setting_of o p b (sort (data_rows p)) gr wt (map y_layer ys) m sg)
    (setting_of o (map (raise_section d) p) (b + d) (map (raise_row d) (sort (data_rows p))) (gr + d) (wt + d) (map (raise_layer d) (map y_layer ys)) m' sg)).
  - destruct (make_springs _ _) as [M|e]; cbn [bind]; [|reflexivity]. cbn [alike_res both_or_none]. exists k. split; [exact D|]. unfold built_step. cbn [b_pile b_mesh b_setting b_made setting_of sig_top sig_bottom]. repeat split; try reflexivity. exact NU.
  - repeat split; reflexivity.
  - cbn [setting_of elems]. clear - EU D. induction EU as [|e e' t t' P F IH]; constructor; auto. apply (pair_tops d k D). exact P.
  - cbn [setting_of ground soil_bottom water tip]. split; [apply up_refl|]. split; [apply profile_bottom_up|]. split; apply up_refl.
  - split; reflexivity.
  - cbn [setting_of elems width outer]. intros i I. pose proof (F2_nth _ _ _ _ _ i (0, 0) (0, 0) EU I) as P. split; apply (property_up d k D); auto.
Qed.
End Construct.

(** ** Boundary conditions *)
Definition raise_bc (d : Q) (b : bc) : bc := mkBC (bc_kind b) (bc_elev b + d) (bc_x b) (bc_y b) (bc_z b).
Section Bc.
Variable d : Q.
Notation rb := (raise_bc d).
Lemma selects_up : forall k e b, selects k (e + d) (rb b) = selects k e b.
Proof using. intros k e b. unfold selects. cbn [raise_bc bc_elev bc_kind]. rewrite (eqb_up d _ _ _ _ (up_refl d (bc_elev b)) (up_refl d e)). reflexivity. Qed.
Lemma filter_selects : forall k e l, filter (selects k (e + d)) (map rb l) = map rb (filter (selects k e) l).
Proof using. intros k e l. induction l as [|b t IH]; [reflexivity|]. cbn [map filter]. rewrite selects_up, IH. destruct (selects k e b); reflexivity. Qed.
Lemma update_up : forall l e x y z k, update_bc (map rb l) (e + d) x y z k = map rb (update_bc l e x y z k).
Proof using.
  intros l e x y z k. unfold update_bc. rewrite filter_selects, map_length. destruct (Nat.eqb _ 1).
  - induction l as [|b t IH]; [reflexivity|]. cbn [map update_selected]. rewrite selects_up, IH. destruct (selects k e b); reflexivity.
  - rewrite map_app. reflexivity.
Qed.
Lemma exec_up : forall l c, exec (map rb l) (raise_call d c) = map rb (exec l c).
Proof using. intros l [e a b c|e a b c|e a b c]; cbn [raise_call exec]; apply update_up. Qed.
Lemma run_up : forall cs l, run (map (raise_call d) cs) (map rb l) = map rb (run cs l).
Proof using. unfold run. induction cs as [|c t IH]; intros l; [reflexivity|]. cbn [map fold_left]. rewrite exec_up. apply IH. Qed.

Lemma dedup_map : forall {A B : Type} (f : A -> B) eqb eqb' l, (forall x y, eqb' (f x) (f y) = eqb x y) -> dedup eqb' (map f l) = map f (dedup eqb l).
Proof using.
  clear. intros A B f eqb eqb' l H. induction l as [|h t IH]; [reflexivity|]. cbn [map dedup].
  assert (E : existsb (eqb' (f h)) (map f t) = existsb (eqb h) t) by (clear IH; induction t as [|a t IH]; [reflexivity|]; cbn [map existsb]; rewrite H, IH; reflexivity).
  rewrite E, IH. destruct (existsb (eqb h) t); reflexivity.
Qed.
Lemma flag_up : forall l k a, axis_flag (map rb l) k a = axis_flag l k a.
Proof using.
  intros l k a. unfold axis_flag. set (f := fun p : Q * option Q => (fst p + d, snd p)).
  assert (E : map (fun b => (bc_elev b, get_axis a b)) (filter (fun b => kind_eqb (bc_kind b) k) (map rb l)) = map f (map (fun b => (bc_elev b, get_axis a b)) (filter (fun b => kind_eqb (bc_kind b) k) l))).
  { induction l as [|b t IH]; [reflexivity|]. cbn [map filter]. cbn [raise_bc bc_kind]. destruct (kind_eqb (bc_kind b) k); cbn [map]; rewrite IH; reflexivity. }
  rewrite E. rewrite (dedup_map f pair_eqb pair_eqb).
  - rewrite map_length, map_map. cbn [f fst]. rewrite <- (map_map fst (fun z => z + d)), (dedup_map (fun z => z + d) Qeq_bool Qeq_bool).
    + rewrite !map_length. reflexivity.
    + intros u v. apply (eqb_up d); apply up_refl.
  - intros u v. unfold pair_eqb, f. cbn [fst snd]. rewrite (eqb_up d _ _ _ _ (up_refl d (fst u)) (up_refl d (fst v))). reflexivity.
Qed.
Lemma validate_up : forall l k, validate_bc (map rb l) k = validate_bc l k.
Proof using. intros l k. unfold validate_bc. rewrite !flag_up. reflexivity. Qed.

Variables (nodes nodes' : list Q).
Hypothesis NU : Forall2 (up d) nodes nodes'.
Lemma close_up0 : forall l l' e, Forall2 (up d) l l' -> same_reach d l e -> first_close l' (e + d) = first_close l e.
Proof using.
  intros l l' e FF. unfold same_reach. induction FF as [|z z' t t' U F IH]; intros H; cbn [first_close]; [reflexivity|]. rewrite IH by (intros y I; apply H; right; exact I).
  assert (B : isclose z' (e + d) = isclose z e).
  { specialize (H z (or_introl eq_refl)). unfold isclose. assert (E : z' - (e + d) == z - e) by (unfold up in U; lra). rewrite E.
    destruct (Qle_bool (Qabs (z - e)) (0.001 + 0.00001 * Qabs e)) eqn:L; [apply Qleb_true in L; apply Qleb_true; apply H; exact L|].
    apply Qleb_false in L. apply Qleb_false. apply Qnot_le_lt. intros C. apply H in C. apply (Qlt_not_le _ _ L). exact C. }
  rewrite B. reflexivity.
Qed.
Lemma close_up : forall e, same_reach d nodes e -> first_close nodes' (e + d) = first_close nodes e.
Proof using NU. intros e. apply close_up0. exact NU. Qed.
Lemma zeros_up : zeros nodes' = zeros nodes.
Proof using NU. unfold zeros. assert (E : map (fun _ : Q => 0) nodes' = map (fun _ => 0) nodes) by exact (F2_const _ _ _ _ _ 0 NU). rewrite E. reflexivity. Qed.
Lemma apply_up : forall cast k l t, (forall b, In b l -> same_reach d nodes (bc_elev b)) -> apply_bc cast nodes' k (map rb l) t = apply_bc cast nodes k l t.
Proof using NU.
  intros cast k l. unfold apply_bc. induction l as [|b u IH]; intros t H; [reflexivity|]. cbn [map fold_left].
  assert (E : apply_one cast nodes' k t (rb b) = apply_one cast nodes k t b) by (unfold apply_one; cbn [raise_bc bc_kind bc_elev bc_x bc_y bc_z]; rewrite close_up by (apply H; left; reflexivity); reflexivity).
  rewrite E. apply IH. intros c I. apply H. right. exact I.
Qed.
Lemma tables_up : forall l, (forall b, In b l -> same_reach d nodes (bc_elev b)) ->
  global_forces nodes' (map rb l) = global_forces nodes l /\ global_disp nodes' (map rb l) = global_disp nodes l /\ global_restrained nodes' (map rb l) = global_restrained nodes l.
Proof using NU. intros l H. unfold global_forces, global_disp, global_restrained. rewrite !validate_up, !zeros_up, !(apply_up _ _ _ _ H). repeat split; reflexivity. Qed.
End Bc.

(** The boundary conditions are at elevations of the calls *)
Lemma update_elev : forall l e x y z k b, In b (update_bc l e x y z k) -> bc_elev b = e \/ exists b0, In b0 l /\ bc_elev b = bc_elev b0.
Proof.
  intros l e x y z k b. unfold update_bc. destruct (Nat.eqb _ 1); intros I.
  - right. clear - I. induction l as [|h t IH]; cbn [update_selected] in I; [contradiction|]. destruct I as [I|I].
    + exists h. split; [left; reflexivity|]. destruct (selects k e h); subst b; reflexivity.
    + destruct (IH I) as (b0 & A & B). exists b0. split; [right; exact A|exact B].
  - apply in_app_or in I. destruct I as [I|[I|[]]]; [right; exists b; auto|left; subst b; reflexivity].
Qed.
Lemma exec_elev : forall l c b, In b (exec l c) -> bc_elev b = call_elevation c \/ exists b0, In b0 l /\ bc_elev b = bc_elev b0.
Proof. intros l [e x y z|e x y z|e x y z] b I; cbn [exec] in I; apply update_elev in I; exact I. Qed.
Lemma run_elev : forall cs l b, In b (run cs l) -> (exists c, In c cs /\ bc_elev b = call_elevation c) \/ exists b0, In b0 l /\ bc_elev b = bc_elev b0.
Proof.
  unfold run. induction cs as [|c t IH]; intros l b I; cbn [fold_left] in I; [right; exists b; auto|]. destruct (IH _ _ I) as [(c0 & A & B)|(b0 & A & B)].
  - left. exists c0. split; [right; exact A|exact B].
  - destruct (exec_elev _ _ _ A) as [C|(b1 & C & E)]; [left; exists c; split; [left; reflexivity|congruence]|right; exists b1; split; [exact C|congruence]].
Qed.

(** ** Analyses *)
Lemma steps_up : forall d k l l', d == inject_Z k / 10000 -> Forall2 (step_up k) l l' -> Forall2 (up d) l l'.
Proof. intros d k l l' D F. induction F; constructor; auto. eapply step_up_up; eauto. Qed.

Lemma solve_up : forall d k solve ty circ E nu o B B' l mi, d == inject_Z k / 10000 -> built_step d k B B' -> (forall b, In b l -> same_reach d (nodes_of (b_mesh B)) (bc_elev b)) ->
  solve_built solve ty circ E nu o B' (map (raise_bc d) l) mi = solve_built solve ty circ E nu o B l mi.
Proof.
  intros d k solve ty circ E nu o B B' l mi D (P & N & _ & _ & M) H. pose proof (elements_up k _ _ N) as EU. unfold solve_built.
  destruct (tables_up d _ _ (steps_up d k _ _ D N) l H) as (-> & -> & ->). rewrite P, M, (matrices_up d k D ty circ E nu _ _ _ EU), (coefs_up d k D ty circ E nu _ _ _ EU), (F2_length _ _ _ _ _ EU).
  destruct (global_forces _ l); cbn [bind]; [|reflexivity]. destruct (global_disp _ l); cbn [bind]; [|reflexivity]. destruct (global_restrained _ l); cbn [bind]; [|reflexivity].
  destruct (elem_matrices _ _ _ _ _ _) as [ks|]; cbn [bind]; [|reflexivity]. destruct (if on_mt o then _ else _) as [cs|]; cbn [bind]; [|reflexivity].
  destruct ks as [ks|]; [|reflexivity]. destruct cs as [cs|]; [|reflexivity]. destruct (nan_free _ _); [|reflexivity].
  assert (SM : stiffness_model o (map (raise_section d) (b_pile B)) (b_mesh B') ks cs (springs_of (b_made B)) = stiffness_model o (b_pile B) (b_mesh B) ks cs (springs_of (b_made B))).
  { unfold stiffness_model, soil_model. rewrite (F2_length _ _ _ _ _ EU). assert (L : elem_length (elements_of (b_mesh B')) = elem_length (elements_of (b_mesh B))) by (apply functional_extensionality; intros e; apply (length_up k); exact EU). rewrite L. reflexivity. }
  rewrite SM. reflexivity.
Qed.

(** ** Result tables *)
Section Tables.
Variables (d : Q) (nodes nodes' : list Q).
Hypothesis NU : Forall2 (up d) nodes nodes'.
Lemma combine_rows : forall (z z' : list Q) (r : list triple), Forall2 (up d) z z' -> rows_up d (combine z r) (combine z' r).
Proof using. clear. intros z z' r F. revert r. unfold rows_up. induction F as [|a a' t t' U F IH]; intros [|h r]; cbn [combine]; constructor; auto. Qed.
Lemma disp_up : forall u, rows_up d (disp_rows nodes u) (disp_rows nodes' u).
Proof using NU. intros u. unfold disp_rows. rewrite (F2_length _ _ _ _ _ NU). apply combine_rows. exact NU. Qed.
Lemma F2_rev : forall A (P : A -> A -> Prop) l l', Forall2 P l l' -> Forall2 P (rev l) (rev l').
Proof using. clear. intros A P l l' F. induction F; cbn [rev]; [constructor|]. apply Forall2_app; [assumption|constructor; [assumption|constructor]]. Qed.
Lemma inner_up : forall z z', Forall2 (up d) z z' -> Forall2 (up d) (repeat_inner z) (repeat_inner z').
Proof using.
  clear. intros z z' F. unfold repeat_inner. pose proof (F2_rev _ _ _ _ F) as R. 
  assert (G : Forall2 (up d) (flat_map (fun x => [x; x]) (SolveModel.inner z)) (flat_map (fun x => [x; x]) (SolveModel.inner z'))).
  { unfold SolveModel.inner. assert (I : Forall2 (up d) (removelast (tl z)) (removelast (tl z'))) by (apply removelast_comp; destruct F; [constructor|assumption]). clear F R. induction I; cbn [flat_map app]; repeat (constructor; try assumption). }
  destruct F; [constructor|]. destruct R; [constructor|]. constructor; [assumption|]. apply Forall2_app; [exact G|]. constructor; [assumption|constructor].
Qed.
Lemma forces_up : forall q L, rows_up d (structural_forces nodes q L) (structural_forces nodes' q L).
Proof using NU. intros q L. unfold structural_forces. apply combine_rows. apply inner_up. exact NU. Qed.
Lemma reaction_up : forall r r', rows_up d r r' -> rows_up d (reaction_rows r) (reaction_rows r').
Proof using.
  clear. intros r r' F. unfold reaction_rows, rows_up in *. induction F as [|[z [[a b] c]] [z' [[a' b'] c']] t t' [U E] F IH]; cbn [map filter]; [constructor|]. cbn [fst snd] in U, E. injection E as <- <- <-.
  destruct (big (mask a) || big (mask b) || big (mask c)); [constructor; [split; [exact U|reflexivity]|exact IH]|exact IH].
Qed.
Lemma double_up : forall n e j, length nodes = S n -> (e < n)%nat -> (j < 2)%nat -> up d (nth (2 * e + j) (double_inner nodes) 0) (nth (2 * e + j) (double_inner nodes') 0).
Proof using NU.
  intros n e j L He Hj. assert (L' : length nodes' = S n) by (rewrite (F2_length _ _ _ _ _ NU); exact L).
  destruct (Nat.eq_dec e (n - 1)) as [-> |NE].
  - destruct j as [|[|]]; [| |lia].
    + rewrite !(own_node _ n) by (try assumption; lia). apply F2_nth; [exact NU|lia].
    + rewrite !(last_spring_node _ n) by (try assumption; lia). apply F2_nth; [exact NU|lia].
  - rewrite !(own_node _ n) by (try assumption; lia). apply F2_nth; [exact NU|lia].
Qed.
Lemma spring_list_in : forall n e j, In (e, j) (spring_list n) -> (e < n)%nat /\ (j < 2)%nat.
Proof using. clear. intros n e j I. unfold spring_list in I. apply in_flat_map in I. destruct I as (i & A & B). apply in_seq in A. destruct B as [B|[B|[]]]; injection B as <- <-; lia. Qed.
Lemma map_F2 : forall A B (P : B -> B -> Prop) (f g : A -> B) l, (forall a, In a l -> P (f a) (g a)) -> Forall2 P (map f l) (map g l).
Proof using. clear. intros A B P f g l H. induction l as [|a t IH]; cbn [map]; constructor; [apply H; left; reflexivity|]. apply IH. intros b I. apply H. right. exact I. Qed.
Lemma mobilised_up : forall M py mt u, ((0 < w_n M)%nat -> length nodes = S (w_n M)) -> alike_res (mob_up d) (springs_mob M nodes py mt u) (springs_mob M nodes' py mt u).
Proof using NU.
  intros M py mt u L. unfold springs_mob. destruct u as [u|].
  - destruct (py_stiffness M py u Secant) as [lp|]; cbn [bind]; [|reflexivity]. destruct (mt_stiffness M py mt u Secant) as [lm|]; cbn [bind]; [|reflexivity]. cbn [alike_res]. unfold mob_up.
    apply map_F2. intros [e j] I. apply spring_list_in in I. cbn [r_z r_p r_pmax r_m r_mmax]. split; [apply (double_up (w_n M)); [apply L; lia|tauto|tauto]|]. repeat split; reflexivity.
  - cbn [alike_res]. unfold mob_up. apply map_F2. intros [e j] I. apply spring_list_in in I. cbn [r_z r_p r_pmax r_m r_mmax]. split; [apply (double_up (w_n M)); [apply L; lia|tauto|tauto]|]. repeat split; reflexivity.
Qed.
Lemma result_of_up : forall M py mt hb mb o, ((0 < w_n M)%nat -> length nodes = S (w_n M)) -> alike_res (result_up d) (result_of M nodes py mt hb mb o) (result_of M nodes' py mt hb mb o).
Proof using NU.
  intros M py mt hb mb o L. unfold result_of. pose proof (mobilised_up M py mt (o_d o) L) as H. destruct (springs_mob M nodes py mt (o_d o)) as [a|], (springs_mob M nodes' py mt (o_d o)) as [b|]; cbn [alike_res] in H; try contradiction; cbn [bind]; [|exact H].
  destruct (base_report _ hb) as [h|]; cbn [bind]; [|reflexivity]. destruct (base_report _ mb) as [h2|]; cbn [bind]; [|reflexivity]. cbn [alike_res]. unfold result_up. cbn [res_disp res_forces res_reac res_mob res_hb res_mb res_iter].
  split; [destruct (o_d o); cbn [option_map both_or_none]; [apply disp_up|exact Logic.I]|]. split; [destruct (o_d o); cbn [option_map both_or_none]; [apply forces_up|exact Logic.I]|].
  split; [unfold reac_table; destruct (o_Q o); [apply reaction_up; apply disp_up|constructor]|]. split; [exact H|]. repeat split; reflexivity.
Qed.
Lemma solve_model_up : forall solve M soil F U r, ((0 < w_n M)%nat -> length nodes = S (w_n M)) -> alike_res (both_or_none (result_up d)) (solve_model solve M nodes soil F U r) (solve_model solve M nodes' soil F U r).
Proof using NU.
  intros solve M soil F U r L. unfold solve_model. destruct soil as [a|].
  - unfold winkler_result. destruct (winkler_model solve M F U r 100) as [w|]; cbn [bind]; [|reflexivity]. pose proof (result_of_up M (ResultModel.a_py a) (ResultModel.a_mt a) (ResultModel.a_hb a) (ResultModel.a_mb a) w L) as H.
    destruct (result_of M nodes _ _ _ _ w), (result_of M nodes' _ _ _ _ w); cbn [bind alike_res both_or_none] in *; try contradiction; exact H.
  - unfold beam_result. destruct (beam solve (w_n M) (w_mech M) F U r) as [[[u R] q]|]; [|reflexivity]. cbn [alike_res both_or_none]. unfold result_up. cbn [res_disp res_forces res_reac res_mob res_hb res_mb res_iter both_or_none].
    split; [apply disp_up|]. split; [apply forces_up|]. split; [apply reaction_up; apply disp_up|]. repeat split; reflexivity.
Qed.
End Tables.

(** ** Programs *)
Lemma inf_up : forall k z z', Forall2 (step_up k) z z' -> StressModel.influence z' = StressModel.influence z.
Proof.
  intros k z z' F. unfold StressModel.influence, StressModel.gradient.
  assert (G : grad_inner z' = grad_inner z).
  { induction F as [|a a' t t' U F IH]; [reflexivity|]. destruct F as [|b b' t t' U' F]; [reflexivity|]. destruct F as [|c c' t t' U2 F]; [reflexivity|].
    change ((c' - a') / 2 :: grad_inner (b' :: c' :: t') = (c - a) / 2 :: grad_inner (b :: c :: t)). rewrite IH, (step_minus _ _ _ _ _ U2 U). reflexivity. }
  pose proof (F2_rev _ _ _ _ F) as R. rewrite G.
  destruct F as [|a a' t t' U F]; [reflexivity|]. destruct F as [|b b' t t' U' F]; [reflexivity|].
  destruct R as [|y y' r r' V R]; [reflexivity|]. destruct R as [|w w' r r' V' R]; [reflexivity|].
  rewrite (step_minus _ _ _ _ _ U' U), (step_minus _ _ _ _ _ V V'). reflexivity.
Qed.

Section Session.
Variables (solve : solver) (d : Q) (k : Z) (fr fr' : frame).
Hypothesis D : d == inject_Z k / 10000.
Hypothesis NS : Forall2 (step_up k) (fr_nodes fr) (fr_nodes fr').
Hypothesis FR : fr_mech fr' = fr_mech fr /\ fr_L fr' = fr_L fr /\ fr_mtc fr' = fr_mtc fr /\ fr_soil fr' = fr_soil fr /\ fr_lateral fr' = fr_lateral fr /\ fr_axial fr' = fr_axial fr /\ fr_moment fr' = fr_moment fr /\
  fr_base_shear fr' = fr_base_shear fr /\ fr_base_moment fr' = fr_base_moment fr /\ fr_base_axial fr' = fr_base_axial fr /\ fr_hb fr' = fr_hb fr /\ fr_mb fr' = fr_mb fr /\ fr_qz fr' = fr_qz fr.

Lemma fr_n_up : fr_n fr' = fr_n fr. Proof using NS. unfold fr_n. rewrite (F2_length _ _ _ _ _ NS). reflexivity. Qed.
Lemma as_model_up : forall s, as_model fr' s = as_model fr s.
Proof using NS FR. intros s. unfold as_model. rewrite fr_n_up. destruct FR as (-> & -> & -> & _ & -> & -> & -> & -> & -> & -> & -> & -> & ->). reflexivity. Qed.
Lemma step_nth : forall l l' i j, Forall2 (step_up k) l l' -> (i < length l)%nat -> (j < length l)%nat -> nth i l' 0 - nth j l' 0 = nth i l 0 - nth j l 0.
Proof using.
  clear. intros l l' i j F I J. assert (G : forall i, (i < length l)%nat -> step_up k (nth i l 0) (nth i l' 0)).
  { clear - F. induction F as [|a a' t t' U F IH]; cbn [length]; intros [|i] I; [lia|lia|exact U|]. apply IH. lia. }
  exact (step_minus k _ _ _ _ (G i I) (G j J)).
Qed.
Lemma session_up : forall prog bcs s s', (forall o, In o prog -> sets_clear d (fr_nodes fr) o) -> (forall b, In b bcs -> same_reach d (fr_nodes fr) (bc_elev b)) -> state_range (fr_n fr) s s' ->
  Forall2 (answer_up d (fr_n fr)) (fst (session solve fr prog {| st_bcs := bcs; st_springs := s |})) (fst (session solve fr' (map (raise_op d) prog) {| st_bcs := map (raise_bc d) bcs; st_springs := s' |})).
Proof using D NS FR.
  induction prog as [|o t IH]; intros bcs s s' H HB SR; [constructor|]. pose proof (H o (or_introl eq_refl)) as H2. assert (HT : forall o', In o' t -> sets_clear d (fr_nodes fr) o') by (intros o' I; apply H; right; exact I).
  pose proof (steps_up d k _ _ D NS) as NU.
  destruct o as [c|g q| | |]; cbn [map raise_op session step].
  - cbn [st_bcs st_springs]. rewrite exec_up. specialize (IH (exec bcs c) s s' HT). destruct (session solve fr t _) as [r st2], (session solve fr' (map (raise_op d) t) _) as [r' st2']. cbn [fst] in *. constructor; [reflexivity|]. apply IH; [|exact SR].
    intros b I. destruct (exec_elev _ _ _ I) as [E|(b0 & I0 & E)]; rewrite E; [exact H2|apply HB; exact I0].
  - unfold table_state. cbn [st_bcs st_springs]. destruct FR as (_ & _ & _ & FS & _). rewrite FS. destruct (fr_soil fr).
    + rewrite fr_n_up. pose proof (call_range (fr_n fr) spring_dim (fun i => nth i (fr_nodes fr) 0) (fun i => nth i (fr_nodes fr') 0) g q s s') as C.
      destruct (GetterModel.call (fr_n fr) spring_dim (fun i => nth i (fr_nodes fr) 0) g q s) as [t1 s1], (GetterModel.call (fr_n fr) spring_dim (fun i => nth i (fr_nodes fr') 0) g q s') as [t1' s1']. cbn [fst snd] in C.
      destruct C as [C1 C2]; [|exact SR|].
      { intros POS i j I J. apply step_nth; [exact NS| |]; unfold fr_n in *; lia. }
      specialize (IH bcs s1 s1' HT HB C2). destruct (session solve fr t _) as [r st2], (session solve fr' (map (raise_op d) t) _) as [r' st2']. cbn [fst] in *. constructor; [exact C1|exact IH].
    + specialize (IH bcs s s' HT HB SR). destruct (session solve fr t _) as [r st2], (session solve fr' (map (raise_op d) t) _) as [r' st2']. cbn [fst] in *. constructor; [exact Logic.I|exact IH].
  - specialize (IH bcs s s' HT HB SR). destruct (session solve fr t _) as [r st2], (session solve fr' (map (raise_op d) t) _) as [r' st2']. cbn [fst] in *. constructor; [|exact IH].
    cbn [answer_up]. rewrite (solve_range solve fr' _ s s') by (rewrite fr_n_up; exact SR). unfold solve_state. cbn [st_bcs st_springs]. destruct (tables_up d _ _ NU bcs HB) as (-> & -> & ->). rewrite as_model_up.
    destruct (global_forces _ bcs); cbn [bind]; [|reflexivity]. destruct (global_disp _ bcs); cbn [bind]; [|reflexivity]. destruct (global_restrained _ bcs); cbn [bind]; [|reflexivity].
    assert (AR : when (fr_soil fr') (arrays_of fr' s) = when (fr_soil fr) (arrays_of fr s)) by (unfold arrays_of; destruct FR as (_ & _ & _ & -> & _ & _ & _ & _ & _ & _ & -> & -> & _); reflexivity).
    rewrite AR. apply solve_model_up; [exact NU|]. cbn [as_model w_n]. unfold fr_n. lia.
  - specialize (IH bcs s s' HT HB SR). destruct (session solve fr t _) as [r st2], (session solve fr' (map (raise_op d) t) _) as [r' st2']. cbn [fst] in *. constructor; [|exact IH].
    cbn [answer_up]. rewrite (shaft_range fr' _ s s') by (rewrite fr_n_up; exact SR). unfold shaft_state. rewrite fr_n_up, (inf_up k _ _ NS). destruct FR as (_ & _ & _ & -> & _). reflexivity.
  - specialize (IH bcs s s' HT HB SR). destruct (session solve fr t _) as [r st2], (session solve fr' (map (raise_op d) t) _) as [r' st2']. cbn [fst] in *. constructor; [|exact IH].
    cbn [answer_up]. unfold tip_state. destruct FR as (_ & _ & _ & -> & _ & _ & _ & _ & _ & _ & _ & _ & ->). reflexivity.
Qed.
End Session.

Lemma clear_reach : forall d nodes e, clear_of d nodes e -> same_reach d nodes e.
Proof.
  intros d nodes e H z I. destruct (H z I) as [E|[A B]]; [|lra]. assert (Z : Qabs (z - e) == 0) by (rewrite E; setoid_replace (e - e) with 0 by ring; reflexivity). rewrite Z.
  pose proof (Qabs_nonneg e). pose proof (Qabs_nonneg (e + d)). split; intros; lra.
Qed.

Section Live.
Variables (rnd : R -> Q) (ch ch' : chance) (sort sort' : list (Q * section) -> list (Q * section)) (o : options) (d : Q) (sections : list section) (gr wt : Q) (ys : list soil_layer) (x : list Q) (c : Q).
Hypothesis AL : alike ch ch'.
Hypothesis SO : sorts_alike d sort sort'.
Hypothesis WI : within d (map y_layer ys).
Hypothesis MV : forall p b m, make_pile sections = Ok p -> pile_bottom p = Ok b -> mesh p b (Some (map y_layer ys)) x c = Some m -> moves d m.
Notation here := (construct rnd ch sort o sections gr wt ys x c).
Notation there := (construct rnd ch' sort' o (map (raise_section d) sections) (gr + d) (wt + d) (map (raise_soil d) ys) (map (fun z => z + d) x) c).
Variables (solve : solver) (ty : elem_type) (circ : bool) (E nu : Q).

Lemma built_step_up : forall k B B', d == inject_Z k / 10000 -> built_step d k B B' -> built_up d B B'.
Proof using.
  clear. intros k B B' D (P & N & S1 & S2 & M). split; [exact P|]. split; [exact (steps_up d k _ _ D N)|]. split; [|auto].
  pose proof (elements_up k _ _ N) as EU. clear - EU D. induction EU as [|e e' t t' Q0 F IH]; constructor; auto. apply (pair_tops d k D). exact Q0.
Qed.
Lemma model_up : alike_res (both_or_none (built_up d)) here there.
Proof using AL SO WI MV.
  pose proof (construct_step rnd ch ch' sort sort' o d sections gr wt ys x c AL SO WI MV) as H. destruct here as [B|], there as [B'|]; cbn [alike_res] in *; try contradiction; auto.
  destruct B as [B|], B' as [B'|]; cbn [both_or_none] in *; try contradiction; auto. destruct H as (k & D & S0). exact (built_step_up k B B' D S0).
Qed.
Lemma analysis_up : forall cs mi, (forall B, here = Ok (Some B) -> forall q, In q cs -> same_reach d (nodes_of (b_mesh B)) (call_elevation q)) ->
  soil_analysis rnd ch' sort' solve ty circ E nu o (map (raise_section d) sections) (gr + d) (wt + d) (map (raise_soil d) ys) (map (fun z => z + d) x) c (map (raise_call d) cs) mi =
  soil_analysis rnd ch sort solve ty circ E nu o sections gr wt ys x c cs mi.
Proof using AL SO WI MV.
  intros cs mi H. unfold soil_analysis. pose proof (construct_step rnd ch ch' sort sort' o d sections gr wt ys x c AL SO WI MV) as G. destruct here as [B|e], there as [B'|e']; cbn [alike_res] in G; try contradiction; cbn [bind]; [|congruence].
  destruct B as [B|], B' as [B'|]; cbn [both_or_none] in G; try contradiction; [|reflexivity]. destruct G as (k & D & S0).
  change (run (map (raise_call d) cs) []) with (run (map (raise_call d) cs) (map (raise_bc d) [])). rewrite run_up. apply (solve_up d k); auto.
  intros b I. destruct (run_elev _ _ _ I) as [(q & J & ->)|(b0 & [] & _)]. exact (H B eq_refl q J).
Qed.
Lemma live_up : forall prog n, (forall B, here = Ok (Some B) -> (length (nodes_of (b_mesh B)) - 1)%nat = n) -> (forall B, here = Ok (Some B) -> forall q, In q prog -> sets_clear d (nodes_of (b_mesh B)) q) ->
  alike_res (both_or_none (Forall2 (answer_up d n))) (live rnd ch sort solve ty circ E nu o sections gr wt ys x c prog)
    (live rnd ch' sort' solve ty circ E nu o (map (raise_section d) sections) (gr + d) (wt + d) (map (raise_soil d) ys) (map (fun z => z + d) x) c (map (raise_op d) prog)).
Proof using AL SO WI MV.
  intros prog n H1 H2. unfold live. pose proof (construct_step rnd ch ch' sort sort' o d sections gr wt ys x c AL SO WI MV) as G. destruct here as [B|e], there as [B'|e']; cbn [alike_res] in G; try contradiction; cbn [bind]; [|exact G].
  destruct B as [B|], B' as [B'|]; cbn [both_or_none] in G; try contradiction; [|exact Logic.I]. destruct G as (k & D & P & N & _ & _ & M). pose proof (elements_up k _ _ N) as EU.
  rewrite P, M, (matrices_up d k D ty circ E nu _ _ _ EU), (coefs_up d k D ty circ E nu _ _ _ EU), (F2_length _ _ _ _ _ EU).
  destruct (elem_matrices _ _ _ _ _ _) as [ks|]; cbn [bind]; [|reflexivity]. destruct (if on_mt o then _ else _) as [cs|]; cbn [bind]; [|reflexivity].
  destruct ks as [ks|]; [|exact Logic.I]. destruct cs as [cs|]; [|exact Logic.I]. destruct (nan_free _ _); [|exact Logic.I]. cbn [alike_res both_or_none].
  assert (LS : live_springs B' = live_springs B) by (unfold live_springs; rewrite M; reflexivity). rewrite LS.
  assert (H3 : fr_n (live_frame o B ks cs) = n) by exact (H1 B eq_refl). rewrite <- H3.
  apply (session_up solve d k (live_frame o B ks cs) (live_frame o B' ks cs) D N) with (bcs := []).
  - cbn [live_frame fr_mech fr_L fr_mtc fr_soil fr_lateral fr_axial fr_moment fr_base_shear fr_base_moment fr_base_axial fr_hb fr_mb fr_qz]. rewrite M. repeat split; try reflexivity. apply functional_extensionality. intros e. apply (length_up k). exact EU.
  - intros q I. exact (H2 B eq_refl q I).
  - intros b [].
  - repeat split; reflexivity.
Qed.
End Live.

(** ** Models without soil *)
Lemma analyse_up : forall d solve ty circ E nu sections x c cs,
  (forall p b m, make_pile sections = Ok p -> pile_bottom p = Ok b -> mesh p b None x c = Some m -> moves d m /\ forall q, In q cs -> same_reach d (nodes_of m) (call_elevation q)) ->
  alike_res (both_or_none (beam_up d)) (analyse solve ty circ E nu sections x c cs) (analyse solve ty circ E nu (map (raise_section d) sections) (map (fun z => z + d) x) c (map (raise_call d) cs)).
Proof.
  intros d solve ty circ E nu sections x c cs H. unfold analyse. rewrite pile_up. destruct (make_pile sections) as [p|e] eqn:EP; cbn [bind]; [|reflexivity].
  pose proof (pile_length_up d p) as LU. destruct (pile_length p) as [len|e], (pile_length (map (raise_section d) p)) as [len'|e']; try contradiction; cbn [bind]; [|exact LU].
  pose proof (pile_bottom_up d p) as BU. destruct (pile_bottom p) as [b|e] eqn:EB, (pile_bottom (map (raise_section d) p)) as [b'|e']; try contradiction; cbn [bind]; [|exact BU]. subst b'.
  rewrite (proj2 (accept_up d len len' c b (b + d) b (b + d) LU (up_refl d b) (up_refl d b))). destruct (accept_model len c b None) as [[]|e]; cbn [bind]; [|reflexivity].
  pose proof (mesh_up d p b (b + d) None x c (up_refl d b)) as MU. cbn [option_map] in MU.
  destruct (mesh p b None x c) as [m|] eqn:EM, (mesh (map (raise_section d) p) (b + d) None (map (fun z => z + d) x) c) as [m'|]; try contradiction; [|exact Logic.I].
  destruct (H p b m eq_refl EB EM) as [(k & D & K) HR]. cbn [both_or_none] in MU. pose proof (nodes_up d k m m' D K MU) as N. pose proof (elements_up k m m' N) as EU. pose proof (steps_up d k _ _ D N) as NU.
  unfold beam_tables. change (run (map (raise_call d) cs) []) with (run (map (raise_call d) cs) (map (raise_bc d) [])). rewrite run_up.
  destruct (tables_up d _ _ NU (run cs [])) as (-> & -> & ->).
  { intros q I. destruct (run_elev _ _ _ I) as [(q0 & J & ->)|(b0 & [] & _)]. exact (HR q0 J). }
  rewrite (matrices_up d k D ty circ E nu _ _ _ EU), (F2_length _ _ _ _ _ EU).
  destruct (global_forces _ _); cbn [bind]; [|reflexivity]. destruct (global_disp _ _); cbn [bind]; [|reflexivity]. destruct (global_restrained _ _); cbn [bind]; [|reflexivity].
  destruct (elem_matrices _ _ _ _ _ _) as [[ks|]|]; cbn [bind]; [|exact Logic.I|reflexivity]. destruct (beam _ _ _ _ _ _) as [[[u R0] q]|]; [|reflexivity]. cbn [alike_res both_or_none].
  assert (L : map (elem_length (elements_of m')) (seq 0 (length (elements_of m))) = map (elem_length (elements_of m)) (seq 0 (length (elements_of m)))) by (apply map_ext; intros e; apply (length_up k); exact EU). rewrite L.
  unfold beam_up. cbn [t_d t_Q t_disp t_forces t_reac]. split; [reflexivity|]. split; [reflexivity|]. split; [apply disp_up; exact NU|]. split; [apply forces_up; exact NU|]. apply reaction_up. apply disp_up. exact NU.
Qed.

(** ** Weights *)
Section Weights.
Variables (d : Q) (k : Z).
Hypothesis D : d == inject_Z k / 10000.
Lemma volumes_up : forall (f : section -> Q) p es es', (forall s, f (raise_section d s) = f s) -> Forall2 (pair_up k) es es' -> volumes f (map (raise_section d) p) es' = volumes f p es.
Proof using D.
  intros f p es es' H F. unfold volumes. rewrite (parameter_up d k D Q f p es es' H F). generalize (parameter2elements (section_objs f p) es) as col.
  induction F as [|e e' t t' [A B] F IH]; intros [|v col]; try reflexivity. cbn [combine map fst snd]. rewrite IH, (step_minus _ _ _ _ _ A B). reflexivity.
Qed.
Lemma pile_weight_up : forall uw wt p es es', Forall2 (pair_up k) es es' -> effective_pile_weight uw (wt + d) (map (raise_section d) p) es' = effective_pile_weight uw wt p es.
Proof using D.
  intros uw wt p es es' F. unfold effective_pile_weight. rewrite (volumes_up s_area p es es') by auto. f_equal. generalize (volumes s_area p es) as col.
  induction F as [|e e' t t' P F IH]; intros [|v col]; try reflexivity. cbn [combine map fst snd]. rewrite IH, (leb_up d _ _ _ _ (proj1 (pair_tops d k D _ _ P)) (up_refl d wt)). reflexivity.
Qed.
Lemma soil_weight_up : forall wt p ls es es', Forall2 (pair_up k) es es' -> entrapped_soil_weight (wt + d) (map (raise_section d) p) (map (raise_layer d) ls) es' = entrapped_soil_weight wt p ls es.
Proof using D.
  intros wt p ls es es' F. unfold entrapped_soil_weight. rewrite (volumes_up s_entrapped p es es') by auto. f_equal. generalize (volumes s_entrapped p es) as col.
  induction F as [|e e' t t' P F IH]; intros [|v col]; try reflexivity. cbn [combine map fst snd]. rewrite IH. f_equal. clear IH. rewrite (ltb_up d _ _ _ _ (up_refl d wt) (proj1 (pair_tops d k D _ _ P))). generalize (Some 0) as acc.
  induction ls as [|l u IL]; intros acc; [reflexivity|]. cbn [map fold_left raise_layer l_top l_bottom l_weight]. rewrite (inside_up d k D _ _ _ _ P). apply IL.
Qed.
End Weights.
Lemma tip_stress_up : forall d tip water mud ls, both_or_none Qeq (tip_sig_v_eff tip water mud ls) (tip_sig_v_eff (tip + d) (water + d) mud (map (raise_layer d) ls)).
Proof.
  intros d tip water mud ls. unfold tip_sig_v_eff. rewrite (sort_map (raise_layer d) (fun l => - l_top l) (fun l => - l_top l)).
  - destruct (sort_by _ ls) as [|l t]; [exact Logic.I|]. cbn [map both_or_none]. unfold tip_layer_stress. cbn [raise_layer l_top l_bottom l_weight].
    rewrite !(leb_up d _ _ _ _ (up_refl d tip) (up_refl d (l_bottom l))), !(leb_up d _ _ _ _ (up_refl d water) (up_refl d (l_bottom l))), !(ltb_up d _ _ _ _ (up_refl d water) (up_refl d (l_top l))),
      !(ltb_up d _ _ _ _ (up_refl d tip) (up_refl d (l_top l))), !(ltb_up d _ _ _ _ (up_refl d (l_bottom l)) (up_refl d water)), !(leb_up d _ _ _ _ (up_refl d water) (up_refl d tip)).
    assert (E1 : l_top l + d - (l_bottom l + d) == l_top l - l_bottom l) by ring. assert (E2 : l_top l + d - (water + d) == l_top l - water) by ring. assert (E3 : water + d - (l_bottom l + d) == water - l_bottom l) by ring.
    assert (E4 : water + d - (tip + d) == water - tip) by ring. assert (E5 : l_top l + d - (tip + d) == l_top l - tip) by ring.
    destruct (Qle_bool tip (l_bottom l)); [|destruct (Qltb tip (l_top l) && Qltb (l_bottom l) water); [|reflexivity]]; destruct (Qle_bool water _); try destruct (Qltb water (l_top l)); rewrite ?E1, ?E2, ?E3, ?E4, ?E5; reflexivity.
  - intros x y. cbn [raise_layer l_top]. destruct (Qle_bool (- l_top x) (- l_top y)) eqn:E; [apply Qleb_true in E; apply Qleb_true|apply Qleb_false in E; apply Qleb_false]; lra.
Qed.
