(** Two models of one site whose springs are kept with different precision. *)
From Coq Require Import Reals Qreals List Bool Arith ZArith QArith Qabs Lia Lqa Setoid.
From Coq Require Lra.
From Verif Require Import Base LinAlg BCModel PileModel MeshModel StressModel BeamModel BeamProofs SolveModel SolveSpec SolveProofs SpringModel SpringSpec SpringProofs SoilProofs SpringProper WinklerModel CreateModel WholeModel AxialModel LateralModel
  EquilSpec ElasticSpec ElasticProofs WorkSpec WorkProofs StiffSpec StiffProofs CapacityModel FullModel FullSpec EditModel EditProofs NearSpec NearProofs StoreSpec.
From Verif Require LiveSpec BalanceProps.
From Verif Require Import GentleProofs.
Import ListNotations.
Local Open Scope Q_scope.

(** ** Stored numbers *)
Lemma Q2R_abs : forall q, Q2R (Qabs q) = Rabs (Q2R q).
Proof.
  intros q. destruct (Qlt_le_dec q 0) as [L|L].
  - assert (E : Qabs q == - q) by (apply Qabs_neg; lra). rewrite (Qeq_eqR _ _ E), Q2R_opp, Rabs_left; [reflexivity|]. rewrite <- RMicromega.Q2R_0. apply Qlt_Rlt, L.
  - assert (E : Qabs q == q) by (apply Qabs_pos; lra). rewrite (Qeq_eqR _ _ E), Rabs_right; [reflexivity|]. apply Rle_ge. rewrite <- RMicromega.Q2R_0. apply Qle_Rle, L.
Qed.

Definition pair_error (d : Q) : Q := 2 * d / (1 - d).

Lemma stored_close : forall d rnd rnd', 0 <= d -> d < 1 -> LiveSpec.accurate (Q2R d) rnd -> LiveSpec.accurate (Q2R d) rnd' -> forall x, close (pair_error d) (rnd x) (rnd' x).
Proof.
  intros d rnd rnd' D0 D1 A A' x.
  assert (H : forall f f' : R -> Q, LiveSpec.accurate (Q2R d) f -> LiveSpec.accurate (Q2R d) f' -> Qabs (f' x - f x) <= pair_error d * Qabs (f x)).
  { intros f f' F F'. specialize (F x). specialize (F' x).
    assert (G : (1 - d) * Qabs (f' x - f x) <= 2 * d * Qabs (f x)).
    { apply Rle_Qle. rewrite !Q2R_mult, !Q2R_abs, !Q2R_minus. replace (Q2R 1) with 1%R by (unfold Q2R; cbn; Lra.lra). replace (Q2R 2) with 2%R by (unfold Q2R; cbn; Lra.lra).
      assert (RD0 : (0 <= Q2R d)%R) by (rewrite <- RMicromega.Q2R_0; apply Qle_Rle, D0). assert (RD1 : (Q2R d < 1)%R) by (replace 1%R with (Q2R 1) by (unfold Q2R; cbn; Lra.lra); apply Qlt_Rlt, D1).
      set (r := Q2R (f x)) in *. set (r' := Q2R (f' x)) in *. set (e := Q2R d) in *.
      assert (T1 : (Rabs (r' - r) <= 2 * e * Rabs x)%R).
      { replace (r' - r)%R with ((r' - x) + (x - r))%R by Lra.lra. eapply Rle_trans; [apply Rabs_triang|]. rewrite (Rabs_minus_sym x r). Lra.lra. }
      assert (T2 : ((1 - e) * Rabs x <= Rabs r)%R).
      { pose proof (Rabs_triang (x - r) r) as T. replace (x - r + r)%R with x in T by Lra.lra. rewrite (Rabs_minus_sym x r) in T. Lra.lra. }
      assert (T3 : ((1 - e) * Rabs (r' - r) <= (1 - e) * (2 * e * Rabs x))%R) by (apply Rmult_le_compat_l; Lra.lra).
      assert (T4 : (2 * e * ((1 - e) * Rabs x) <= 2 * e * Rabs r)%R) by (apply Rmult_le_compat_l; Lra.lra). Lra.lra. }
    assert (E : pair_error d * Qabs (f x) == 2 * d * Qabs (f x) / (1 - d)) by (unfold pair_error; field; lra). rewrite E. apply Qle_shift_div_l; lra. }
  split; [apply H; assumption|]. assert (E : Qabs (rnd' x - rnd x) == Qabs (rnd x - rnd' x)) by (rewrite <- (Qabs_opp (rnd x - rnd' x)); apply Qabs_wd; ring). rewrite E. apply H; assumption.
Qed.

Lemma close_cons : forall d a b l l', close d (fst a) (fst b) -> close d (snd a) (snd b) -> close_points d l l' -> close_points d (a :: l) (b :: l').
Proof. intros d a b l l' A B [L H]. split; [cbn; lia|]. intros [|i] Hi; [split; assumption|]. apply (H i). cbn in Hi. lia. Qed.
Lemma close_nil : forall d, close_points d [] [].
Proof. intros d. split; [reflexivity|]. intros i Hi. cbn in Hi. lia. Qed.
Lemma close_zero : forall d x y, close d x y -> x == 0 -> y == 0.
Proof. intros d x y [A _] Z. rewrite Z in A. change (Qabs 0) with 0 in A. assert (E : y - 0 == y) by ring. rewrite E in A. pose proof (Qabs_nonneg y). assert (X : Qabs y <= 0) by lra. apply Qabs_Qle_condition in X. lra. Qed.

Section Stores.
Variables (e : Q) (rnd rnd' : R -> Q).
Hypothesis E0 : 0 <= e.
Hypothesis CL : forall x, close e (rnd x) (rnd' x).

Lemma points_close : forall y p, close_points e (points rnd y p) (points rnd' y p).
Proof using CL. induction y as [|a y IH]; intros [|b p]; try apply close_nil. apply close_cons; [apply CL|apply CL|apply IH]. Qed.
Lemma turned_close : forall c c', close_points e c c' -> close_points e (turned c) (turned c').
Proof using.
  induction c as [|a c IH]; intros [|b c'] [L H]; try discriminate L; [apply close_nil|].
  assert (N : forall x y, close e x y -> close e (x * (-1)) (y * (-1))).
  { intros x y [A B]. assert (X : Qabs (y * (-1) - x * (-1)) == Qabs (y - x)) by (rewrite <- (Qabs_opp (y - x)); apply Qabs_wd; ring).
    assert (Y : forall z, Qabs (z * (-1)) == Qabs z) by (intros z; rewrite <- (Qabs_opp z); apply Qabs_wd; ring). split; rewrite X, Y; assumption. }
  destruct (H O ltac:(cbn; lia)) as [A B]. cbn in A, B. cbn [turned map]. apply close_cons; cbn [fst snd]; [apply N; exact A|apply N; exact B|].
  apply IH. split; [cbn in L; lia|]. intros i Hi. apply (H (S i)). cbn. lia.
Qed.

Lemma store_curve_close : forall r, close_stored e (store_curve rnd r) (store_curve rnd' r).
Proof using CL.
  intros [[y p]|x]; [|reflexivity]. unfold store_curve. cbn [bind]. destruct (Nat.eqb (length y) 15 && Nat.eqb (length p) 15); [|reflexivity].
  destruct (all_some p) as [p'|]; cbn [option_map close_stored]; [|exact Logic.I]. constructor; [apply points_close|constructor].
Qed.
Lemma store_curves_close : forall r, close_stored e (store_curves rnd r) (store_curves rnd' r).
Proof using CL.
  intros [[T M]|x]; [|reflexivity]. unfold store_curves. cbn [bind]. destruct (_ && _); [|reflexivity].
  destruct (all_some (map all_some M)) as [M'|]; cbn [option_map close_stored]; [|exact Logic.I].
  generalize (combine (columns 0%R T) (columns 0%R M')). induction l as [|[t q] l IH]; [constructor|]. cbn [map fst snd]. constructor; [apply points_close|exact IH].
Qed.
Lemma store_axial_close : forall r, close_stored e (store_axial rnd r) (store_axial rnd' r).
Proof using CL.
  intros [[[z t]|]|x]; [| |reflexivity]; unfold store_axial; cbn [bind]; [|exact Logic.I]. destruct (Nat.eqb (length z) 15 && Nat.eqb (length t) 15); [|reflexivity].
  cbn [close_stored]. constructor; [apply turned_close, points_close|constructor].
Qed.
Lemma place_close : forall {A : Type} a (f : place -> res A) (s s' : res A -> stored_value), (forall r, close_stored e (s r) (s' r)) -> close_stored e (at_place a f s) (at_place a f s').
Proof using. intros A a f s s' H. unfold at_place. destruct (a_sig a); [|exact Logic.I]. destruct (a_D a); [|exact Logic.I]. apply H. Qed.

(** ** The springs of a model *)
Definition close_opt (v v' : option stored_value) : Prop := match v, v' with None, None => True | Some x, Some x' => close_stored e x x' | _, _ => False end.
Record close_made (M M' : @made stored_value) : Prop := {
  cm_py : forall i j, close_opt (m_py M i j) (m_py M' i j); cm_mt : forall i j, close_opt (m_mt M i j) (m_mt M' i j); cm_tz : forall i j, close_opt (m_tz M i j) (m_tz M' i j);
  cm_hb : close_opt (m_hb M) (m_hb M'); cm_mb : close_opt (m_mb M) (m_mb M'); cm_qz : close_opt (m_qz M) (m_qz M') }.

Lemma put_close : forall f f' i g g', (forall a j, close_opt (f a j) (f' a j)) -> (forall j, close_stored e (g j) (g' j)) -> forall a j, close_opt (put f i g a j) (put f' i g' a j).
Proof using. intros f f' i g g' H G a j. unfold put. destruct (Nat.eqb a i && (j <? 2)%nat); [apply G|apply H]. Qed.

Lemma visit_close : forall ch ta fp st y i M M', close_made M M' -> close_made (visit st (slayer_of rnd ch ta fp y, i) M) (visit st (slayer_of rnd' ch ta fp y, i) M').
Proof using CL.
  intros ch ta fp st y i M M' [P1 P2 P3 P4 P5 P6]. unfold visit. cbn [s_layer s_lat s_ax slayer_of].
  assert (AX : close_made
    (match option_map (axial_of rnd ch ta fp) (y_ax y) with None => M | Some ax => {| m_py := m_py M; m_mt := m_mt M; m_tz := if distributed_axial st then put (m_tz M) i (fun j => f_tz ax (shaft_args st (y_layer y) i j)) else m_tz M;
        m_hb := m_hb M; m_mb := m_mb M; m_qz := if tip_in st (y_layer y) && base_axial st then Some (f_qz ax (base_args st (y_layer y) i)) else m_qz M |} end)
    (match option_map (axial_of rnd' ch ta fp) (y_ax y) with None => M' | Some ax => {| m_py := m_py M'; m_mt := m_mt M'; m_tz := if distributed_axial st then put (m_tz M') i (fun j => f_tz ax (shaft_args st (y_layer y) i j)) else m_tz M';
        m_hb := m_hb M'; m_mb := m_mb M'; m_qz := if tip_in st (y_layer y) && base_axial st then Some (f_qz ax (base_args st (y_layer y) i)) else m_qz M' |} end)).
  { destruct (y_ax y) as [ax|]; cbn [option_map]; [|constructor; assumption]. constructor; cbn [m_py m_mt m_tz m_hb m_mb m_qz]; try assumption.
    - destruct (distributed_axial st); [|exact P3]. apply put_close; [exact P3|]. intros j. cbn [f_tz axial_of]. apply store_axial_close.
    - destruct (tip_in st (y_layer y) && base_axial st); [|exact P6]. cbn [close_opt f_qz axial_of]. apply store_axial_close. }
  revert AX. generalize (match option_map (axial_of rnd ch ta fp) (y_ax y) with None => M | Some ax => {| m_py := m_py M; m_mt := m_mt M; m_tz := if distributed_axial st then put (m_tz M) i (fun j => f_tz ax (shaft_args st (y_layer y) i j)) else m_tz M;
        m_hb := m_hb M; m_mb := m_mb M; m_qz := if tip_in st (y_layer y) && base_axial st then Some (f_qz ax (base_args st (y_layer y) i)) else m_qz M |} end).
  generalize (match option_map (axial_of rnd' ch ta fp) (y_ax y) with None => M' | Some ax => {| m_py := m_py M'; m_mt := m_mt M'; m_tz := if distributed_axial st then put (m_tz M') i (fun j => f_tz ax (shaft_args st (y_layer y) i j)) else m_tz M';
        m_hb := m_hb M'; m_mb := m_mb M'; m_qz := if tip_in st (y_layer y) && base_axial st then Some (f_qz ax (base_args st (y_layer y) i)) else m_qz M' |} end).
  intros N' N [Q1 Q2 Q3 Q4 Q5 Q6]. destruct (y_lat y) as [md|]; cbn [option_map]; [|constructor; assumption].
  change (has_py (lateral_of rnd' ch md)) with (has_py (lateral_of rnd ch md)). change (has_mt (lateral_of rnd' ch md)) with (has_mt (lateral_of rnd ch md)).
  change (has_hb (lateral_of rnd' ch md)) with (has_hb (lateral_of rnd ch md)). change (has_mb (lateral_of rnd' ch md)) with (has_mb (lateral_of rnd ch md)).
  constructor; cbn [m_py m_mt m_tz m_hb m_mb m_qz]; try assumption.
  - destruct (has_py (lateral_of rnd ch md) && distributed_lateral st); [|exact Q1]. apply put_close; [exact Q1|]. intros j. cbn [f_py lateral_of]. apply place_close, store_curve_close.
  - destruct (has_mt (lateral_of rnd ch md) && distributed_moment st); [|exact Q2]. apply put_close; [exact Q2|]. intros j. cbn [f_mt lateral_of]. apply place_close, store_curves_close.
  - destruct (tip_in st (y_layer y) && (has_hb (lateral_of rnd ch md) && base_shear st)); [|exact Q4]. cbn [close_opt f_hb lateral_of]. apply place_close, store_curve_close.
  - destruct (tip_in st (y_layer y) && (has_mb (lateral_of rnd ch md) && base_moment st)); [|exact Q5]. cbn [close_opt f_mb lateral_of]. apply place_close, store_curve_close.
Qed.

Lemma create_close : forall ch ta fp st ys, close_made (create_springs st (map (slayer_of rnd ch ta fp) ys)) (create_springs st (map (slayer_of rnd' ch ta fp) ys)).
Proof using CL.
  intros ch ta fp st ys. unfold create_springs.
  assert (G : forall M M', close_made M M' -> close_made (fold_left (fun m li => visit st li m) (work st (map (slayer_of rnd ch ta fp) ys)) M) (fold_left (fun m li => visit st li m) (work st (map (slayer_of rnd' ch ta fp) ys)) M')).
  2:{ apply G. constructor; intros; exact Logic.I. }
  induction ys as [|y t IH]; intros M M' CM; [exact CM|]. cbn [map]. unfold work in *. cbn [flat_map]. rewrite !fold_left_app. apply IH. cbn [s_layer slayer_of].
  clear IH. revert M M' CM. induction (filter _ _) as [|i l IH]; intros M M' CM; [exact CM|]. cbn [map fold_left]. apply IH, visit_close, CM.
Qed.

Lemma curve_close : forall v v', close_opt v v' -> close_points e (or_else no_points (curve_of v)) (or_else no_points (curve_of v')).
Proof using E0.
  assert (NP : close_points e no_points no_points).
  { split; [reflexivity|]. intros i Hi. unfold point, no_points. rewrite nth_repeat. cbn [fst snd]. split; (split; (vm_compute Qabs; apply Qmult_le_0_compat; [exact E0|discriminate])). }
  intros [v|] [v'|] H; cbn [close_opt] in H; try contradiction; [|exact NP].
  destruct v as [[cs|]|x], v' as [[cs'|]|x']; cbn [close_stored] in H; try contradiction; try exact NP.
  inversion H as [|c c' l l' H1 H2]; [exact NP|]. subst. inversion H2; [exact H1|exact NP].
Qed.
Lemma columns_close : forall v v', close_opt v v' -> Forall2 (close_points e) (or_else [] (columns_of v)) (or_else [] (columns_of v')).
Proof using E0.
  assert (NP : close_points e no_points no_points) by exact (curve_close None None Logic.I).
  intros [v|] [v'|] H; cbn [close_opt] in H; try contradiction.
  - destruct v as [[cs|]|x], v' as [[cs'|]|x']; cbn [close_stored] in H; try contradiction; cbn [columns_of or_else]; first [exact H|constructor].
  - cbn [columns_of or_else]. generalize 15%nat. intros n. induction n as [|n IH]; cbn [repeat]; constructor; [exact NP|exact IH].
Qed.
End Stores.

(** ** The first pass *)
Lemma zero_sum : forall l, (forall x, In x l -> 0 <= x) -> qsum l == 0 -> forall x, In x l -> x == 0.
Proof.
  induction l as [|a l IH]; intros N Z x I; [contradiction|]. cbn [qsum] in Z. pose proof (N a (or_introl eq_refl)) as A.
  assert (S0 : 0 <= qsum l) by (clear - N; induction l as [|b l IH]; [cbn; lra|]; cbn [qsum]; pose proof (N b (or_intror (or_introl eq_refl))); assert (0 <= qsum l) by (apply IH; intros y Hy; apply N; destruct Hy; [left; assumption|right; right; assumption]); lra).
  destruct I as [<-|I]; [lra|]. apply IH; [intros y Hy; apply N; right; exact Hy|lra|exact I].
Qed.
Lemma sum_zeros : forall l, (forall x, In x l -> x == 0) -> qsum l == 0.
Proof. induction l as [|a l IH]; intros H; [reflexivity|]. cbn [qsum]. rewrite (H a (or_introl eq_refl)), IH by (intros; apply H; right; assumption). reflexivity. Qed.

Lemma close_sums : forall d (f : Q * Q -> Q) c c', close_points d c c' -> (forall p, In p c' -> 0 <= f p) -> (forall p p', close d (fst p) (fst p') -> close d (snd p) (snd p') -> f p' == 0 -> f p == 0) ->
  qsum (map f c') == 0 -> qsum (map f c) == 0.
Proof.
  intros d f c c' [L H] N R Z. apply sum_zeros. intros x I. apply in_map_iff in I. destruct I as (p & <- & I). destruct (In_nth c p (0, 0) I) as (i & Hi & E).
  destruct (H i Hi) as [A B]. unfold point in A, B. rewrite E in A, B. apply (R p (nth i c' (0, 0)) A B). apply (zero_sum (map f c')); [|exact Z|].
  - intros y Iy. apply in_map_iff in Iy. destruct Iy as (q & <- & Iq). apply N, Iq.
  - apply in_map, nth_In. lia.
Qed.

Lemma ratio_value : forall dx p0 p1 k, ratio (dx, p0, p1) = Ok k -> k == Qabs ((p1 - p0) / dx).
Proof. intros dx p0 p1 k. unfold ratio. destruct (Qeq_bool dx 0); [discriminate|]. intros H. assert (E : k = Qabs ((p1 - p0) / dx)) by congruence. rewrite E. reflexivity. Qed.

Lemma lateral_initial : forall d u c k, origin (point c 0) -> ratio (lateral_terms Initial d c) = Ok k -> k == Qabs (snd (point c 1) / fst (point c 1)) /\ u == u.
Proof.
  intros d u c k [O1 O2] H. unfold lateral_terms in H. cbn [orb] in H. apply ratio_value in H. split; [|reflexivity]. rewrite H. apply Qabs_wd. change (pt c) with (point c). unfold Qdiv. rewrite O1, O2.
  assert (X : fst (point c 1) - 0 == fst (point c 1)) by ring. rewrite X. ring.
Qed.
Lemma axial_initial : forall d c k, length c = 15%nat -> origin (point c 7) -> ratio (axial_terms Initial d c) = Ok k -> k == Qabs (snd (point c 8) / fst (point c 8)).
Proof.
  intros d c k L [O1 O2] H. unfold axial_terms in H. cbn [orb] in H. rewrite L in H. change (zero_index 15) with 7%nat in H. apply ratio_value in H. rewrite H. change (pt c) with (point c). rewrite !abs_div.
  assert (X : Qabs (snd (point c 8) - snd (point c 7)) == Qabs (snd (point c 8))) by (apply Qabs_wd; rewrite O2; ring).
  assert (Y : Qabs (fst (point c 7) - fst (point c 8)) == Qabs (fst (point c 8))) by (rewrite <- (Qabs_opp (fst (point c 8))); apply Qabs_wd; rewrite O1; ring). rewrite X, Y. reflexivity.
Qed.

Section Values.
Variable d : Q.
Hypothesis D0 : 0 <= d.
Hypothesis D1 : d < 1.
Notation c0 := ((1 + d) / (1 - d)).

Lemma c0_nonneg : 0 <= c0.
Proof using D0 D1. apply Qle_shift_div_l; lra. Qed.

Lemma origin_shape : forall c, lateral_shape c -> origin (point c 0) /\ (forall p, In p c -> 0 <= fst p) /\ (forall p, In p c -> 0 <= snd p).
Proof.
  intros c (L & A & B & S & P). split; [split; assumption|]. split; [|exact P]. intros p I. destruct (In_nth c p (0, 0) I) as (i & Hi & <-). assert (Q0 : fst (nth 0 c (0, 0)) <= fst (nth i c (0, 0))) by (apply S; lia). change (fst (nth 0 c (0, 0)) == 0) in A. lra.
Qed.

Lemma py_value_close : forall u u' c c' k k', lateral_shape c -> lateral_shape c' -> close_points d c c' -> py_spring u c Initial = Ok k -> py_spring u' c' Initial = Ok k' -> k <= c0 * k'.
Proof using D0 D1.
  intros u u' c c' k k' LS LS' CP H H'. destruct (origin_shape c LS) as (O & N & _). destruct (origin_shape c' LS') as (O' & N' & _). unfold py_spring in H, H'.
  assert (K' : 0 <= k'). { destruct (Qeq_bool (qsum (map fst c')) 0); [assert (X : k' = 0) by congruence; rewrite X; lra|]. destruct (lateral_initial _ 0 c' k' O' H') as [-> _]. apply Qabs_nonneg. }
  destruct (Qeq_bool (qsum (map fst c)) 0) eqn:Z; [assert (X : k = 0) by congruence; rewrite X; apply Qmult_le_0_compat; [apply c0_nonneg|exact K']|].
  destruct (Qeq_bool (qsum (map fst c')) 0) eqn:Z'.
  - exfalso. apply Qeq_bool_neq in Z. apply Z. apply Qeq_bool_iff in Z'. apply (close_sums d fst c c' CP N'); [|exact Z']. intros p p' A _. apply (close_zero d). apply close_sym, A.
  - destruct (lateral_initial _ 0 c k O H) as [-> _]. destruct (lateral_initial _ 0 c' k' O' H') as [-> _]. destruct (close_at d c c' 1 CP). apply slope_close_abs; assumption.
Qed.
Lemma base_value_close : forall u u' c c' k k', lateral_shape c -> lateral_shape c' -> close_points d c c' -> base_spring u c Initial = Ok k -> base_spring u' c' Initial = Ok k' -> k <= c0 * k'.
Proof using D0 D1.
  intros u u' c c' k k' LS LS' CP H H'. destruct (origin_shape c LS) as (O & _ & N). destruct (origin_shape c' LS') as (O' & _ & N'). unfold base_spring in H, H'.
  assert (K' : 0 <= k'). { destruct (Qeq_bool (qsum (map snd c')) 0); [assert (X : k' = 0) by congruence; rewrite X; lra|]. destruct (lateral_initial _ 0 c' k' O' H') as [-> _]. apply Qabs_nonneg. }
  destruct (Qeq_bool (qsum (map snd c)) 0) eqn:Z; [assert (X : k = 0) by congruence; rewrite X; apply Qmult_le_0_compat; [apply c0_nonneg|exact K']|].
  destruct (Qeq_bool (qsum (map snd c')) 0) eqn:Z'.
  - exfalso. apply Qeq_bool_neq in Z. apply Z. apply Qeq_bool_iff in Z'. apply (close_sums d snd c c' CP N'); [|exact Z']. intros p p' _ A. apply (close_zero d). apply close_sym, A.
  - destruct (lateral_initial _ 0 c k O H) as [-> _]. destruct (lateral_initial _ 0 c' k' O' H') as [-> _]. destruct (close_at d c c' 1 CP). apply slope_close_abs; assumption.
Qed.

Lemma abs_zero : forall x, Qabs x == 0 -> x == 0.
Proof. intros x H. assert (X : Qabs x <= 0) by lra. apply Qabs_Qle_condition in X. lra. Qed.
Lemma axial_value_close : forall (f : Q * Q -> Q) u u' c c' k k', f = fst \/ f = snd -> axial_shape c -> axial_shape c' -> close_points d c c' ->
  (if Qeq_bool (qsum (map (fun p => Qabs (f p)) c)) 0 then Ok 0 else ratio (axial_terms Initial u c)) = Ok k ->
  (if Qeq_bool (qsum (map (fun p => Qabs (f p)) c')) 0 then Ok 0 else ratio (axial_terms Initial u' c')) = Ok k' -> k <= c0 * k'.
Proof using D0 D1.
  intros f u u' c c' k k' FS (L & A1 & A2 & _) (L' & B1 & B2 & _) CP H H'. assert (O : origin (point c 7)) by (split; assumption). assert (O' : origin (point c' 7)) by (split; assumption).
  assert (K' : 0 <= k'). { destruct (Qeq_bool (qsum (map _ c')) 0); [assert (X : k' = 0) by congruence; rewrite X; lra|]. rewrite (axial_initial _ c' k' L' O' H'). apply Qabs_nonneg. }
  destruct (Qeq_bool (qsum (map _ c)) 0) eqn:Z; [assert (X : k = 0) by congruence; rewrite X; apply Qmult_le_0_compat; [apply c0_nonneg|exact K']|].
  destruct (Qeq_bool (qsum (map _ c')) 0) eqn:Z'.
  - exfalso. apply Qeq_bool_neq in Z. apply Z. apply Qeq_bool_iff in Z'. apply (close_sums d _ c c' CP (fun p _ => Qabs_nonneg _)); [|exact Z'].
    intros p p' A B X. apply abs_zero in X. destruct FS as [-> | ->]; [rewrite (close_zero d _ _ (close_sym _ _ _ A) X)|rewrite (close_zero d _ _ (close_sym _ _ _ B) X)]; reflexivity.
  - rewrite (axial_initial _ c k L O H), (axial_initial _ c' k' L' O' H'). destruct (close_at d c c' 8 CP). apply slope_close_abs; assumption.
Qed.

Lemma first_close : forall rows rows' : list (list (Q * Q)), Forall2 (close_points d) rows rows' -> close_points d (first_points rows) (first_points rows').
Proof using.
  intros rows rows' F. assert (L : length rows' = length rows) by (induction F; cbn; [reflexivity|lia]). split; [unfold first_points; rewrite !map_length; exact L|].
  unfold first_points. intros i _. revert i. induction F as [|r r' rs rs' H F IH]; intros i; [exact (close_at d [] [] i (conj eq_refl (fun i H => False_ind _ (Nat.nlt_0_r i H))))|].
  destruct i as [|i]; [exact (close_at d r r' 0 H)|]. cbn [length] in L. exact (IH ltac:(lia) i).
Qed.
Lemma mt_value_close : forall u u' p p' pp pp' (rows rows' : list (list (Q * Q))) k k', absent_rows rows \/ turns pp rows 0 -> absent_rows rows' \/ turns pp' rows' 0 -> Forall2 (close_points d) rows rows' ->
  mt_spring u p pp rows Initial = Ok k -> mt_spring u' p' pp' rows' Initial = Ok k' -> 0 <= k' /\ k <= c0 * k'.
Proof using D0 D1.
  intros u u' p p' pp pp' rows rows' k k' G G' F H H'. change (mt_spring 0 p pp rows Initial = Ok k) in H. change (mt_spring 0 p' pp' rows' Initial = Ok k') in H'.
  assert (AB : forall rs : list (list (Q * Q)), absent_rows rs -> Qeq_bool (qsum (map (fun col => fst (pt col 0)) rs)) 0 = true).
  { intros rs A. apply Qeq_bool_iff, sum_zeros. intros y I. apply in_map_iff in I. destruct I as (col & <- & I). destruct col as [|q col]; [reflexivity|]. exact (A _ q I (or_introl eq_refl)). }
  assert (VAL : forall pp rs p k, absent_rows rs \/ turns pp rs 0 -> mt_spring 0 p pp rs Initial = Ok k -> (qsum (map fst (first_points rs)) == 0 /\ k = 0) \/ (~ qsum (map fst (first_points rs)) == 0 /\ k == Qabs (snd (point (first_points rs) 1) / fst (point (first_points rs) 1)))).
  { clear. intros pp rs p k G H. assert (ES : map fst (first_points rs) = map (fun col => fst (pt col 0)) rs) by (unfold first_points; rewrite map_map; reflexivity). rewrite ES.
    destruct (Qeq_bool (qsum (map (fun col => fst (pt col 0)) rs)) 0) eqn:Z.
    - left. split; [apply Qeq_bool_iff, Z|]. unfold mt_spring in H. rewrite Z in H. congruence.
    - right. split; [apply Qeq_bool_neq, Z|]. destruct G as [A|T].
      + exfalso. apply Qeq_bool_neq in Z. apply Z. apply sum_zeros. intros y I. apply in_map_iff in I. destruct I as (col & <- & I). destruct col as [|q col]; [reflexivity|]. exact (A _ q I (or_introl eq_refl)).
      + destruct (turns_spring pp rs 0 p Initial T Z) as (k1 & E1 & E2). assert (k1 = k) by congruence. subst k1. exact E2. }
  clear AB. pose proof (first_close rows rows' F) as CP. destruct (VAL _ _ _ _ G' H') as [[Z' K']|[NZ' K']].
  - subst k'. split; [apply Qle_refl|]. destruct (VAL _ _ _ _ G H) as [[Z K]|[NZ K]]; [subst k; rewrite Qmult_0_r; apply Qle_refl|]. exfalso. apply NZ.
    assert (NN : forall q, In q (first_points rows') -> 0 <= fst q).
    { intros q I. destruct G' as [A|(_ & _ & UP & [O1 _] & _)].
      - apply in_map_iff in I. destruct I as (col & <- & I). destruct col as [|q0 col]; [cbn; lra|]. unfold pt. cbn [nth]. rewrite (A _ q0 I (or_introl eq_refl)). lra.
      - destruct (In_nth _ _ (0, 0) I) as (i & Hi & <-). unfold first_points in Hi. rewrite map_length in Hi. pose proof (UP 0%nat i ltac:(lia)) as X. unfold pt in X at 2. unfold pt in O1 at 1. unfold pt in X at 1. lra. }
    apply (close_sums d fst _ _ CP NN); [|exact Z']. intros q q' A _. apply (close_zero d). apply close_sym, A.
  - split; [rewrite K'; apply Qabs_nonneg|]. destruct (VAL _ _ _ _ G H) as [[Z K]|[NZ K]]; [subst k; apply Qmult_le_0_compat; [apply c0_nonneg|rewrite K'; apply Qabs_nonneg]|].
    rewrite K, K'. destruct (close_at d _ _ 1 CP). apply slope_close_abs; assumption.
Qed.

(** the energies of the first pass *)
Lemma first_energy : forall M M' z z' K K' v, sound_model M z -> sound_model M' z' -> w_n M' = w_n M -> w_L M' = w_L M -> w_mech M' = w_mech M ->
  BalanceProps.no_timoshenko_mt M -> BalanceProps.no_timoshenko_mt M' ->
  close_option (fun mt mt' => exists py py', w_py M = Some py /\ w_py M' = Some py' /\ forall e j, (e < w_n M)%nat -> (j < 2)%nat ->
    (absent_rows (mt e j) \/ turns (map snd (py e j)) (mt e j) 0) /\ (absent_rows (mt' e j) \/ turns (map snd (py' e j)) (mt' e j) 0) /\ Forall2 (close_points d) (mt e j) (mt' e j)) (w_mt M) (w_mt M') ->
  close_option (fun py py' => forall e j, lateral_shape (py e j) /\ lateral_shape (py' e j) /\ close_points d (py e j) (py' e j)) (w_py M) (w_py M') ->
  close_option (fun tz tz' => forall e j, axial_shape (tz e j) /\ axial_shape (tz' e j) /\ close_points d (tz e j) (tz' e j)) (w_tz M) (w_tz M') ->
  close_option (fun c c' => lateral_shape c /\ lateral_shape c' /\ close_points d c c') (w_hb M) (w_hb M') -> close_option (fun c c' => lateral_shape c /\ lateral_shape c' /\ close_points d c c') (w_mb M) (w_mb M') ->
  close_option (fun c c' => axial_shape c /\ axial_shape c' /\ close_points d c c') (w_qz M) (w_qz M') ->
  build M zero Initial = Ok K -> build M' zero Initial = Ok K' -> energy (size M) K v <= c0 * energy (size M) K' v.
Proof using D0 D1.
  intros M M' z z' K K' v SM SM' EN EL EM NT NT' CM CP CZ CH CB CQ HB HB'.
  destruct (system_parts M zero Initial K HB) as (kp & kz & km & h & m & q & V & W). destruct (system_parts M' zero Initial K' HB') as (kp' & kz' & km' & h' & m' & q' & V' & W').
  assert (ES : size M' = size M) by (unfold size; rewrite EN; reflexivity). pose proof c0_nonneg as C0. assert (C1 : 1 <= c0) by (apply Qle_shift_div_l; lra).
  rewrite <- ES at 2. rewrite W, W'. rewrite EN in *. destruct V as (VP & VZ & VM & VH & VB & VQ). destruct V' as (VP' & VZ' & VM' & VH' & VB' & VQ'). rewrite EN in VP', VZ', VM', VH', VB', VQ'.
  assert (LH : h <= c0 * h') by (destruct (w_hb M) as [c|], (w_hb M') as [c'|]; cbn [close_option] in CH; try contradiction; [destruct CH as (S1 & S2 & S3); exact (base_value_close _ _ _ _ _ _ S1 S2 S3 VH VH')|rewrite VH, VH'; lra]).
  assert (LM : m <= c0 * m') by (destruct (w_mb M) as [c|], (w_mb M') as [c'|]; cbn [close_option] in CB; try contradiction; [destruct CB as (S1 & S2 & S3); exact (base_value_close _ _ _ _ _ _ S1 S2 S3 VB VB')|rewrite VB, VB'; lra]).
  assert (LQ : q <= c0 * q') by (destruct (w_qz M) as [c|], (w_qz M') as [c'|]; cbn [close_option] in CQ; try contradiction; [destruct CQ as (S1 & S2 & S3); exact (axial_value_close snd _ _ _ _ _ _ (or_intror eq_refl) S1 S2 S3 VQ VQ')|rewrite VQ, VQ'; lra]).
  pose proof (square_le _ _ (v (3 * w_n M + 1)%nat) LH). pose proof (square_le _ _ (v (3 * w_n M + 2)%nat) LM). pose proof (square_le _ _ (v (3 * w_n M)%nat) LQ).
  assert (SE0 : energy (3 * w_n M + 3) (jit_build (w_n M) (w_mech M)) v <= c0 * energy (3 * w_n M + 3) (jit_build (w_n M) (w_mech M')) v).
  { rewrite EM. assert (P : 0 <= energy (3 * w_n M + 3) (jit_build (w_n M) (w_mech M)) v) by (apply build_psd; intros e He; apply (sm_mech M z SM e He)). pose proof (Qmult_le_compat_r _ _ _ C1 P). lra. }
  assert (SE : sum (w_n M) (soil_work M kp kz km v v) <= c0 * sum (w_n M) (soil_work M' kp' kz' km' v v)).
  { rewrite <- sum_scale. apply sum_le. intros e He. destruct (sm_len M z SM e He) as [_ LP]. unfold soil_work. rewrite EL, !Qmult_plus_distr_r. apply Qplus_le_compat; [apply Qplus_le_compat|].
    - destruct (w_py M) as [py|], (w_py M') as [py'|]; cbn [close_option] in CP; try contradiction; [|lra]. destruct (VP py eq_refl e He) as [A1 A2]. destruct (VP' py' eq_refl e He) as [B1 B2].
      refine (Qle_trans _ _ _ (py_stiffer _ _ _ (c0 * fst (kp' e)) (c0 * snd (kp' e)) _ _ _ _) _); [lra| | |rewrite py_scaled; apply Qle_refl].
      + destruct (CP e 0%nat) as (S1 & S2 & S3). exact (py_value_close _ _ _ _ _ _ S1 S2 S3 A1 B1).
      + destruct (CP e 1%nat) as (S1 & S2 & S3). exact (py_value_close _ _ _ _ _ _ S1 S2 S3 A2 B2).
    - destruct (w_tz M) as [tz|], (w_tz M') as [tz'|]; cbn [close_option] in CZ; try contradiction; [|lra]. destruct (VZ tz eq_refl e He) as [A1 A2]. destruct (VZ' tz' eq_refl e He) as [B1 B2].
      refine (Qle_trans _ _ _ (tz_stiffer _ _ _ (c0 * fst (kz' e)) (c0 * snd (kz' e)) _ _ _ _) _); [lra| | |rewrite tz_scaled; apply Qle_refl].
      + destruct (CZ e 0%nat) as (S1 & S2 & S3). exact (axial_value_close fst _ _ _ _ _ _ (or_introl eq_refl) S1 S2 S3 A1 B1).
      + destruct (CZ e 1%nat) as (S1 & S2 & S3). exact (axial_value_close fst _ _ _ _ _ _ (or_introl eq_refl) S1 S2 S3 A2 B2).
    - destruct (w_mt M) as [mt|] eqn:EMT, (w_mt M') as [mt'|] eqn:EMT'; cbn [close_option] in CM; try contradiction; [|lra]. destruct CM as (py & py' & EP & EP' & CM).
      destruct (VM py mt EP eq_refl e He) as [[a0 A1] [a1 A2]]. destruct (VM' py' mt' EP' eq_refl e He) as [[b0 B1] [b1 B2]].
      assert (CE : w_mtc M' e = w_mtc M e).
      { destruct (NT e He) as [X|(x1 & x2 & x3 & X)]; [congruence|]. destruct (NT' e ltac:(rewrite EN; exact He)) as [Y|(y1 & y2 & y3 & Y)]; [congruence|]. rewrite X, Y, EL. reflexivity. }
      rewrite CE. destruct (CM e 0%nat He ltac:(lia)) as (G1 & G1' & F1). destruct (CM e 1%nat He ltac:(lia)) as (G2 & G2' & F2).
      refine (Qle_trans _ _ _ (mt_stiffer _ _ _ (c0 * fst (km' e)) (c0 * snd (km' e)) _ _ _ _) _); [exact (sm_mtc M z SM mt EMT e He)| | |rewrite mt_scaled; apply Qle_refl].
      + exact (proj2 (mt_value_close _ _ _ _ _ _ _ _ _ _ G1 G1' F1 A1 B1)).
      + exact (proj2 (mt_value_close _ _ _ _ _ _ _ _ _ _ G2 G2' F2 A2 B2)). }
  unfold size in *. lra.
Qed.
End Values.

(** ** Two states under the same prescribed displacements *)
Lemma least_energy : forall n K U s V R w, symmetric n K -> psd n K -> linear_state n K (fun _ => 0) U s V R -> (forall i, (i < n)%nat -> s i = true -> w i == V i) -> energy n K V <= energy n K w.
Proof.
  intros n K U s V R w SY PS (L1 & L2 & L3) W. set (x := fun i => w i - V i).
  assert (E : energy n K w == energy n K (fun i => V i + 1 * x i)) by (apply energy_ext; [intros; reflexivity|intros i Hi; unfold x; ring]).
  rewrite E, (energy_line n K V x 1 SY). pose proof (PS x) as PX.
  assert (Z : dot n V (mulv n K x) == 0).
  { rewrite (symmetric_work n K V x SY). unfold dot. apply sum_zero. intros i Hi. rewrite (L1 i Hi). destruct (s i) eqn:S; [unfold x; rewrite (W i Hi S); ring|rewrite (L2 i Hi S); ring]. }
  rewrite Z. lra.
Qed.
Lemma state_energy : forall n K U s V R, linear_state n K (fun _ => 0) U s V R -> energy n K V == dot n R V.
Proof. intros n K U s V R (L1 & _). unfold energy, dot. apply sum_ext. intros i Hi. rewrite (L1 i Hi). ring. Qed.

Lemma two_states : forall n K K' U s V R V' R' eps, symmetric n K -> symmetric n K' -> psd n K -> psd n K' -> 0 <= eps -> eps < 1 ->
  (forall v, energy n K v <= (1 + eps) * energy n K' v) -> (forall v, energy n K' v <= (1 + eps) * energy n K v) ->
  linear_state n K (fun _ => 0) U s V R -> linear_state n K' (fun _ => 0) U s V' R' ->
  0 <= dot n R V /\ 0 <= dot n R' V' /\ dot n R' V' <= (1 + eps) * dot n R V /\ dot n R V <= (1 + eps) * dot n R' V' /\
  forall i g, (i < n)%nat -> (forall j, (j < n)%nat -> s j = true -> g j == 0) -> (forall j, (j < n)%nat -> s j = false -> mulv n K g j == (if Nat.eqb j i then 1 else 0)) ->
    0 <= g i /\ (1 - eps) * (1 - eps) * ((V' i - V i) * (V' i - V i)) <= eps * eps * (g i * dot n R V).
Proof.
  intros n K K' U s V R V' R' eps SY SY' PS PS' E0 E1 N1 N2 L L'. pose proof (state_energy _ _ _ _ _ _ L) as W. pose proof (state_energy _ _ _ _ _ _ L') as W'.
  pose proof L as (L1 & L2 & L3). pose proof L' as (L1' & L2' & L3'). rewrite <- W, <- W'.
  assert (SE : forall i, (i < n)%nat -> s i = true -> V' i == V i) by (intros i Hi Z; rewrite (L3 i Hi Z), (L3' i Hi Z); reflexivity).
  split; [apply PS|]. split; [apply PS'|].
  split; [eapply Qle_trans; [apply (least_energy n K' U s V' R' V SY' PS' L'); intros i Hi Z; rewrite (SE i Hi Z); reflexivity|apply N2]|].
  split; [eapply Qle_trans; [apply (least_energy n K U s V R V' SY PS L SE)|apply N1]|].
  assert (G : (1 - eps) * (1 - eps) * energy n K (fun i => V' i - V i) <= eps * eps * energy n K V).
  { apply (near_solutions_first n K K' (fun _ => 0) V V' s eps SY SY' PS E0 E1).
    - intros w. split; [|apply N2]. specialize (N1 w). pose proof (PS' w) as P. set (a := energy n K w) in *. set (b := energy n K' w) in *.
      assert (G : (1 - eps) * a <= (1 - eps) * ((1 + eps) * b)) by (apply Qmult_le_l; lra). nra.
    - exact SE.
    - intros i Hi Z. rewrite (L1 i Hi), (L2 i Hi Z). ring.
    - intros i Hi Z. rewrite (L1' i Hi), (L2' i Hi Z). ring. }
  intros i g Hi GZ GU. set (x := fun i => V' i - V i) in *.
  assert (X : forall j, (j < n)%nat -> s j = true -> x j == 0) by (intros j Hj Z; unfold x; rewrite (SE j Hj Z); ring).
  assert (D1 : dot n x (mulv n K g) == x i).
  { rewrite (balanced_work _ K _ g _ x X GU). rewrite dot_sym. unfold dot. rewrite <- (sum_delta n i x Hi). apply sum_ext. intros j Hj. destruct (Nat.eqb j i); ring. }
  assert (D2 : energy n K g == g i).
  { unfold energy. rewrite (balanced_work _ K _ g _ g GZ GU). rewrite dot_sym. unfold dot. rewrite <- (sum_delta n i g Hi). apply sum_ext. intros j Hj. destruct (Nat.eqb j i); ring. }
  pose proof (work_square n K x g SY PS) as CS. rewrite D1, D2 in CS. change (V' i - V i) with (x i).
  pose proof (PS g) as PG. rewrite D2 in PG. split; [exact PG|]. assert (Q0 : 0 <= (1 - eps) * (1 - eps)) by nra.
  assert (T1 : (1 - eps) * (1 - eps) * (x i * x i) <= (1 - eps) * (1 - eps) * (energy n K x * g i)) by (rewrite !(Qmult_comm ((1 - eps) * (1 - eps))); apply Qmult_le_compat_r; assumption).
  assert (T2 : (1 - eps) * (1 - eps) * energy n K x * g i <= eps * eps * energy n K V * g i) by (apply Qmult_le_compat_r; assumption). rewrite W in T2. lra.
Qed.

Lemma eps_of : forall d, 0 <= d -> 7 * d < 1 -> 0 <= pair_error d /\ pair_error d < 1 /\ (1 + pair_error d) / (1 - pair_error d) == 1 + precision_error d /\ 0 <= precision_error d /\ precision_error d < 1.
Proof.
  intros d D0 D7. assert (A : 0 <= pair_error d) by (unfold pair_error; apply Qle_shift_div_l; lra). assert (B : pair_error d < 1) by (unfold pair_error; apply Qlt_shift_div_r; lra).
  split; [exact A|]. split; [exact B|]. unfold precision_error. split; [|split; [apply Qle_shift_div_l; lra|apply Qlt_shift_div_r; lra]].
  clear A B. unfold pair_error. field. repeat split; intros Z; lra.
Qed.

(** Two constructions of one model *)
Lemma constructs_close : forall e rnd rnd' ch sort o sections gr wt ys x c B B', 0 <= e -> (forall r, close e (rnd r) (rnd' r)) ->
  construct rnd ch sort o sections gr wt ys x c = Ok (Some B) -> construct rnd' ch sort o sections gr wt ys x c = Ok (Some B') -> close_made e (b_made B) (b_made B').
Proof.
  intros e rnd rnd' ch sort o sections gr wt ys x c B B' E0 CL H H'.
  destruct (construct_inv rnd ch sort o sections (mkSoil ys gr wt) x c B H) as (b & ta & fp & sg & E1 & _ & _ & E4 & E6 & E7 & E8 & E9 & E10).
  destruct (construct_inv rnd' ch sort o sections (mkSoil ys gr wt) x c B' H') as (b' & ta' & fp' & sg' & F1 & _ & _ & F4 & F6 & F7 & F8 & F9 & F10).
  cbn [so_ground so_water so_layers] in *.
  assert (P : b_pile B' = b_pile B) by congruence. rewrite P in *. assert (b' = b) by congruence. subst b'. assert (PM : b_mesh B' = b_mesh B) by congruence. rewrite PM in *.
  assert (sg' = sg) by congruence. subst sg'. assert (ta' = ta) by congruence. subst ta'. assert (fp' = fp) by congruence. subst fp'.
  unfold make_springs in E10, F10. destruct (first_error _); [discriminate|]. destruct (first_error _); [discriminate|].
  match type of E10 with Ok ?a = Ok ?b => assert (X : b = a) by congruence end. match type of F10 with Ok ?a = Ok ?b => assert (Y : b = a) by congruence end. rewrite X, Y. apply create_close; assumption.
Qed.
