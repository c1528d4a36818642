(** Proofs about pile-soil analyses in the elastic range of the springs. *)
From Coq Require Import List Bool Arith ZArith QArith Qabs Qminmax Lia Lqa Setoid Morphisms.
From Verif Require Import Base LinAlg PileModel BeamModel BeamProofs SolveModel SolveSpec SolveProofs SpringModel SpringSpec SpringProofs SoilProofs SpringProper WinklerModel WinklerSpec WinklerProofs WinklerWitness EquilSpec ElasticSpec.
Import ListNotations.
Local Open Scope Q_scope.

(** ** Single springs *)
Lemma straight_rest : forall c k u, straight c k u -> straight c k 0.
Proof. intros c k u H d p B OC. apply H; [|exact OC]. destruct (Qlt_le_dec u 0); [right|left]; lra. Qed.

Lemma ratio_line : forall dx p0 p1 k, ~ dx == 0 -> 0 <= k -> p1 - p0 == k * dx -> exists k', ratio (dx, p0, p1) = Ok k' /\ k' == k.
Proof.
  intros dx p0 p1 k N K E. unfold ratio. destruct (Qeq_bool dx 0) eqn:Z; [apply Qeq_bool_iff in Z; contradiction|].
  eexists; split; [reflexivity|]. rewrite E. assert (X : k * dx / dx == k) by (field; exact N). rewrite X. apply Qabs_pos, K.
Qed.
Lemma ratio_line_neg : forall dx p0 p1 k, ~ dx == 0 -> 0 <= k -> p1 - p0 == - (k * dx) -> exists k', ratio (dx, p0, p1) = Ok k' /\ k' == k.
Proof.
  intros dx p0 p1 k N K E. unfold ratio. destruct (Qeq_bool dx 0) eqn:Z; [apply Qeq_bool_iff in Z; contradiction|].
  eexists; split; [reflexivity|]. rewrite E. assert (X : - (k * dx) / dx == - k) by (field; exact N). rewrite X, Qabs_opp. apply Qabs_pos, K.
Qed.

Lemma two_way_terms : forall c k u kd, two_way c k u -> exists k', ratio (lateral_terms kd (Qabs u) c) = Ok k' /\ k' == k.
Proof.
  intros c k u kd (L & ST & [O1 O2] & K & P1 & LINE).
  assert (NE : c <> []) by (intros ->; cbn in L; lia). pose proof (strict_ordered c ST) as OR.
  pose proof (strict_lt c 1 0 ST ltac:(lia) ltac:(lia)) as X1.
  assert (VAL : forall d, 0 <= d -> d <= Qabs u -> resistance c d == k * d).
  { intros d A B. apply LINE; [left; split; assumption|]. apply resistance_on_curve; assumption. }
  unfold lateral_terms, pt. change (nth 0 c (0, 0)) with (point c 0). change (nth 1 c (0, 0)) with (point c 1).
  destruct (_ || Qeq_bool (Qabs u) 0)%bool eqn:Z.
  - apply ratio_line; [lra|exact K|]. rewrite P1, O1, O2. ring.
  - apply orb_false_elim in Z. destruct Z as [_ Z]. assert (NZ : ~ Qabs u == 0) by (intros W; apply Qeq_bool_iff in W; congruence).
    pose proof (Qabs_nonneg u) as NN. assert (AP : 0 < Qabs u) by (destruct (Qlt_le_dec 0 (Qabs u)); [assumption|exfalso; apply NZ; lra]).
    destruct kd; cbv zeta.
    + apply ratio_line; [exact NZ|exact K|]. rewrite VAL by lra. rewrite O2. ring.
    + apply ratio_line; [exact NZ|exact K|]. rewrite VAL by lra. rewrite O2. ring.
    + assert (D : 0 < Qmin (1#2000) (Qabs u) /\ Qmin (1#2000) (Qabs u) <= Qabs u).
      { split; [|apply Q.le_min_r]. destruct (Q.min_spec (1#2000) (Qabs u)) as [[_ E]|[_ E]]; rewrite E; [reflexivity|exact AP]. }
      destruct D as [D1 D2]. generalize dependent (Qmin (1#2000) (Qabs u)). intros dx D1 D2.
      apply ratio_line; [lra|exact K|]. rewrite !VAL by lra. ring.
Qed.

Lemma absent_sum : forall c, absent c -> qsum (map fst c) == 0.
Proof.
  induction c as [|p t IH]; intros A; [reflexivity|]. cbn [map qsum]. rewrite (A p (or_introl eq_refl)), IH; [reflexivity|].
  intros q Hq. apply A. right. exact Hq.
Qed.
Lemma absent_abs_sum : forall c, absent c -> qsum (map (fun p => Qabs (fst p)) c) == 0.
Proof.
  induction c as [|p t IH]; intros A; [reflexivity|]. cbn [map qsum]. rewrite (A p (or_introl eq_refl)), IH; [reflexivity|].
  intros q Hq. apply A. right. exact Hq.
Qed.

Lemma py_elastic : forall c k u kd, lateral_elastic c k u -> exists k', py_spring u c kd = Ok k' /\ k' == k.
Proof.
  intros c k u kd [E|[A Z]]; unfold py_spring.
  - pose proof E as (L & ST & [O1 _] & _). rewrite (disp_sum_nonzero c ST O1 L). apply two_way_terms, E.
  - destruct (Qeq_bool _ 0) eqn:W; [exists 0; split; [reflexivity|symmetry; exact Z]|]. pose proof (absent_sum c A) as X. apply Qeq_bool_iff in X. congruence.
Qed.

Lemma idle_sum : forall c, idle c -> qsum (map snd c) == 0.
Proof.
  induction c as [|p t IH]; intros A; [reflexivity|]. cbn [map qsum]. rewrite (A p (or_introl eq_refl)), IH; [reflexivity|].
  intros q Hq. apply A. right. exact Hq.
Qed.
Lemma idle_abs_sum : forall c, idle c -> qsum (map (fun p => Qabs (snd p)) c) == 0.
Proof.
  induction c as [|p t IH]; intros A; [reflexivity|]. cbn [map qsum]. rewrite (A p (or_introl eq_refl)), IH; [reflexivity|].
  intros q Hq. apply A. right. exact Hq.
Qed.

Lemma base_elastic : forall c k u kd, tip_elastic c k u -> exists k', base_spring u c kd = Ok k' /\ k' == k.
Proof.
  intros c k u kd [[E HD]|[A Z]]; unfold base_spring.
  2: { destruct (Qeq_bool _ 0) eqn:W; [exists 0; split; [reflexivity|symmetry; exact Z]|]. pose proof (idle_sum c A) as X. apply Qeq_bool_iff in X. congruence. }
  destruct (Qeq_bool _ 0) eqn:W; [|apply two_way_terms, E].
  exists 0. split; [reflexivity|]. destruct E as (L & ST & [O1 O2] & K & P1 & _).
  pose proof (res_sum_zero c HD O2 W (point c 1) ltac:(apply nth_In; lia)) as Z. rewrite P1 in Z.
  pose proof (strict_lt c 1 0 ST ltac:(lia) ltac:(lia)) as X1. assert (X : 0 < fst (point c 1)) by lra.
  symmetry. destruct (Qeq_dec k 0) as [|N]; [assumption|]. exfalso. apply Qmult_integral in Z. destruct Z; [contradiction|lra].
Qed.

Lemma about_middle_terms : forall c k u kd, about_middle c k u -> exists k', ratio (axial_terms kd u c) = Ok k' /\ k' == k.
Proof.
  intros c k u kd (m & L & OD & ST & [O1 O2] & K & P1 & LINE).
  assert (M0 : (0 < m)%nat) by (destruct m; [discriminate|lia]).
  assert (ZI : zero_index (length c) = m) by (rewrite L; apply zero_index_middle; assumption).
  assert (NE : rev c <> []) by (intros E; apply (f_equal (@length _)) in E; rewrite rev_length, L in E; cbn in E; lia).
  pose proof (strict_ordered _ ST) as OR.
  assert (XL : fst (point c (S m)) < fst (point c m)).
  { pose proof (strict_lt (rev c) (length c - 1 - m) (length c - 1 - S m) ST ltac:(lia) ltac:(rewrite rev_length; lia)) as X.
    rewrite !point_rev in X by lia. replace (length c - 1 - (length c - 1 - m))%nat with m in X by lia.
    replace (length c - 1 - (length c - 1 - S m))%nat with (S m) in X by lia. exact X. }
  assert (VAL : forall d, (0 <= d /\ d <= u) \/ (u <= d /\ d <= 0) -> interp d (rev c) == k * d).
  { intros d B. apply LINE; [exact B|]. apply interp_on_curve; assumption. }
  unfold axial_terms. cbv zeta. rewrite ZI. unfold pt. change (nth m c (0, 0)) with (point c m). change (nth (S m) c (0, 0)) with (point c (S m)).
  destruct (_ || Qeq_bool u 0)%bool eqn:Z.
  - apply ratio_line_neg; [lra|exact K|]. rewrite P1, O1, O2. ring.
  - apply orb_false_elim in Z. destruct Z as [_ Z]. assert (NZ : ~ u == 0) by (intros W; apply Qeq_bool_iff in W; congruence).
    assert (SG : (0 <= u /\ u <= u) \/ (u <= u /\ u <= 0)) by (destruct (Qlt_le_dec u 0); [right|left]; lra).
    destruct kd.
    + apply ratio_line; [exact NZ|exact K|]. rewrite VAL by exact SG. rewrite O2. ring.
    + apply ratio_line; [exact NZ|exact K|]. rewrite VAL by exact SG. rewrite O2. ring.
    + pose proof (Qabs_nonneg u) as NN.
      assert (D : 0 < Qmin (1#2000) (Qabs u) /\ Qmin (1#2000) (Qabs u) <= Qabs u).
      { split; [|apply Q.le_min_r]. destruct (Q.min_spec (1#2000) (Qabs u)) as [[_ E]|[_ E]]; rewrite E; [reflexivity|]. apply Qabs_pos_iff, NZ. }
      destruct D as [D1 D2]. generalize dependent (Qmin (1#2000) (Qabs u)). intros dx D1 D2.
      destruct (Qltb 0 u) eqn:SU.
      * apply Qltb_true in SU. rewrite Qabs_pos in D2 by lra. apply ratio_line; [lra|exact K|]. rewrite VAL by exact SG. rewrite VAL by (left; lra). ring.
      * apply Qltb_false in SU. rewrite Qabs_neg in D2 by lra. apply ratio_line_neg; [lra|exact K|]. rewrite VAL by exact SG. rewrite VAL by (right; lra). ring.
Qed.

Lemma middle_sum : forall c k u, about_middle c k u -> Qeq_bool (qsum (map (fun p => Qabs (fst p)) c)) 0 = false.
Proof.
  intros c k u (m & L & OD & ST & [O1 O2] & _). destruct (Qeq_bool _ 0) eqn:W; [|reflexivity].
  assert (M0 : (0 < m)%nat) by (destruct m; [discriminate|lia]).
  pose proof (abs_sum_zero fst c W (point c (S m)) ltac:(apply nth_In; lia)) as Z.
  pose proof (strict_lt (rev c) (length c - 1 - m) (length c - 1 - S m) ST ltac:(lia) ltac:(rewrite rev_length; lia)) as X.
  rewrite !point_rev in X by lia. replace (length c - 1 - (length c - 1 - m))%nat with m in X by lia.
  replace (length c - 1 - (length c - 1 - S m))%nat with (S m) in X by lia. lra.
Qed.

Lemma tz_elastic : forall c k u kd, axial_elastic c k u -> exists k', tz_spring u c kd = Ok k' /\ k' == k.
Proof.
  intros c k u kd [E|[A Z]]; unfold tz_spring.
  - rewrite (middle_sum c k u E). apply about_middle_terms, E.
  - destruct (Qeq_bool _ 0) eqn:W; [exists 0; split; [reflexivity|symmetry; exact Z]|]. pose proof (absent_abs_sum c A) as X. apply Qeq_bool_iff in X. congruence.
Qed.

Lemma base_axial_elastic : forall c k u kd, tip_axial_elastic c k u -> exists k', base_axial_spring u c kd = Ok k' /\ k' == k.
Proof.
  intros c k u kd [E|[A Z]]; unfold base_axial_spring.
  2: { destruct (Qeq_bool _ 0) eqn:W; [exists 0; split; [reflexivity|symmetry; exact Z]|]. pose proof (idle_abs_sum c A) as X. apply Qeq_bool_iff in X. congruence. }
  destruct (Qeq_bool _ 0) eqn:W; [|apply about_middle_terms, E].
  exists 0. split; [reflexivity|]. destruct E as (m & L & OD & ST & [O1 O2] & K & P1 & _).
  assert (M0 : (0 < m)%nat) by (destruct m; [discriminate|lia]).
  pose proof (abs_sum_zero snd c W (point c (S m)) ltac:(apply nth_In; lia)) as Z. rewrite P1 in Z.
  pose proof (strict_lt (rev c) (length c - 1 - m) (length c - 1 - S m) ST ltac:(lia) ltac:(rewrite rev_length; lia)) as X.
  rewrite !point_rev in X by lia. replace (length c - 1 - (length c - 1 - m))%nat with m in X by lia.
  replace (length c - 1 - (length c - 1 - S m))%nat with (S m) in X by lia.
  symmetry. destruct (Qeq_dec k 0) as [|N]; [assumption|]. exfalso. apply Qmult_integral in Z. destruct Z; [contradiction|lra].
Qed.

(** *** Moment springs *)
Lemma rotation_curve : forall p pp rows c, pp <> [] -> nondecreasing pp ->
  Forall2 (fun (row : curve) (q : Q * Q) => length row = length pp /\ forall x, In x row -> fst x == fst q /\ snd x == snd q) rows c ->
  forall t, c = point c 0 :: t -> origin (point c 0) -> Forall2 qp (mt_curve p pp rows) c.
Proof.
  intros p pp rows c NE ND F t E [O1 O2]. unfold mt_curve. rewrite E in F |- *. inversion F as [|r0 q0 rs qs _ F']; subst.
  constructor; [split; cbn; symmetry; assumption|]. cbn [tl]. clear -NE ND F'. induction F' as [|row q rs qs [LR X] _ IH]; cbn [map]; constructor; [|exact IH].
  assert (NEC : forall f : Q * Q -> Q, combine pp (map f row) <> []).
  { intros f W. apply (f_equal (@length _)) in W. rewrite combine_length, map_length, LR, Nat.min_id in W. destruct pp; [contradiction|discriminate]. }
  split; cbn [fst snd]; apply interp_const; try apply NEC; try (apply combine_ordered; exact ND).
  - intros [a b] IN. apply in_combine_r in IN. apply in_map_iff in IN. destruct IN as (x & <- & IN). exact (proj1 (X x IN)).
  - intros [a b] IN. apply in_combine_r in IN. apply in_map_iff in IN. destruct IN as (x & <- & IN). exact (proj2 (X x IN)).
Qed.

Lemma rows_sum : forall (pp : list Q) rows (c : list (Q * Q)), pp <> [] -> Forall2 (fun (row : curve) (q : Q * Q) => length row = length pp /\ forall x, In x row -> fst x == fst q /\ snd x == snd q) rows c ->
  qsum (map (fun col => fst (pt col 0)) rows) == qsum (map fst c).
Proof.
  intros pp rows c NE F. induction F as [|row q rs qs [LR X] _ IH]; [reflexivity|]. cbn [map qsum]. rewrite IH.
  assert (IN : In (pt row 0) row) by (apply nth_In; rewrite LR; destruct pp; [contradiction|cbn; lia]).
  rewrite (proj1 (X _ IN)). reflexivity.
Qed.

Lemma const_rows : forall (pp : list Q) (rows : list curve),
  (forall row, In row rows -> length row = length pp /\ forall x, In x row -> fst x == fst (point row 0) /\ snd x == snd (point row 0)) ->
  Forall2 (fun (row : curve) (q : Q * Q) => length row = length pp /\ forall x, In x row -> fst x == fst q /\ snd x == snd q) rows (map (fun row => point row 0) rows).
Proof. intros pp rows H. induction rows as [|r t IH]; cbn [map]; constructor; [apply H; left; reflexivity|]. apply IH. intros row IN. apply H. right. exact IN. Qed.

Lemma mt_elastic : forall pp rows k t p kd, rotation_elastic pp rows k t -> exists k', mt_spring t p pp rows kd = Ok k' /\ k' == k.
Proof.
  intros pp rows k t p kd (NE & ND & CR & E). pose proof (const_rows pp rows CR) as F. set (c := map (fun row => point row 0) rows) in *. clearbody c. unfold mt_spring. pose proof (rows_sum pp rows c NE F) as RS.
  destruct E as [E|[A Z]].
  - pose proof E as (L & ST & OR & K & P1 & LINE). destruct (Qeq_bool (qsum _) 0) eqn:W.
    + apply Qeq_bool_iff in W. rewrite RS in W. apply Qeq_bool_iff in W. pose proof (disp_sum_nonzero c ST (proj1 OR) L). congruence.
    + destruct c as [|q0 c']; [cbn in L; lia|]. pose proof (rotation_curve p pp rows (q0 :: c') NE ND F c' eq_refl OR) as RC.
      pose proof (mt_terms_comp kd _ _ (Qabs t) (Qabs t) ltac:(reflexivity) RC) as TC.
      destruct (mt_terms kd (Qabs t) (mt_curve p pp rows)) as [[dt m0] m1]. set (c := q0 :: c') in *.
      assert (NEc : c <> []) by discriminate. pose proof (strict_ordered c ST) as ORD.
      pose proof (strict_lt c 1 0 ST ltac:(lia) ltac:(lia)) as X1. destruct OR as [O1 O2].
      assert (VAL : forall d, 0 <= d -> d <= Qabs t -> moment_at c d == k * d).
      { intros d A B. apply LINE; [left; split; assumption|]. apply moment_on_curve; assumption. }
      assert (G : exists dt' m0' m1', mt_terms kd (Qabs t) c = (dt', m0', m1') /\ 0 < dt' /\ m1' - m0' == k * dt').
      { unfold mt_terms, pt. change (nth 0 c (0, 0)) with (point c 0). change (nth 1 c (0, 0)) with (point c 1).
        destruct (_ || Qeq_bool (Qabs t) 0)%bool eqn:ZZ.
        - do 3 eexists. split; [reflexivity|]. split; [lra|]. rewrite P1, O1, O2. ring.
        - apply orb_false_elim in ZZ. destruct ZZ as [_ ZZ]. assert (NZ : ~ Qabs t == 0) by (intros W'; apply Qeq_bool_iff in W'; congruence).
          pose proof (Qabs_nonneg t) as NN. assert (AP : 0 < Qabs t) by (destruct (Qlt_le_dec 0 (Qabs t)); [assumption|exfalso; apply NZ; lra]).
          destruct kd; cbv zeta; do 3 eexists; (split; [reflexivity|]).
          + split; [exact AP|]. rewrite VAL by lra. rewrite O2. ring.
          + split; [exact AP|]. rewrite VAL by lra. rewrite O2. ring.
          + assert (D : 0 < Qmin ((1#100) * fst (point c 1)) (Qabs t) /\ Qmin ((1#100) * fst (point c 1)) (Qabs t) <= Qabs t).
            { split; [|apply Q.le_min_r]. destruct (Q.min_spec ((1#100) * fst (point c 1)) (Qabs t)) as [[_ Em]|[_ Em]]; rewrite Em; lra. }
            destruct D as [D1 D2]. generalize dependent (Qmin ((1#100) * fst (point c 1)) (Qabs t)). intros dx D1 D2.
            split; [exact D1|]. rewrite !VAL by lra. ring. }
      destruct G as (dt' & m0' & m1' & G & DP & EQ). rewrite G in TC. destruct TC as (T1 & T2 & T3). cbn [fst snd] in T1, T2, T3.
      destruct (Qeq_bool dt 0) eqn:Z; [apply Qeq_bool_iff in Z; lra|]. eexists; split; [reflexivity|].
      assert (X : m1 - m0 == k * dt) by (rewrite T1, T2, T3; exact EQ). rewrite X.
      rewrite Qabs_pos by (apply Qmult_le_0_compat; [exact K|lra]). field. lra.
  - destruct (Qeq_bool (qsum _) 0) eqn:W; [exists 0; split; [reflexivity|symmetry; exact Z]|].
    assert (Y : qsum (map (fun col => fst (pt col 0)) rows) == 0) by (rewrite RS; apply absent_sum, A). apply Qeq_bool_iff in Y. congruence.
Qed.

(** ** The stiffness matrix *)
Lemma elastic_req : forall (a b : res Q) k, (exists x, a = Ok x /\ x == k) -> (exists x, b = Ok x /\ x == k) -> req Qeq a b.
Proof. intros a b k (x & -> & E) (y & -> & E'). cbn. rewrite E, E'. reflexivity. Qed.

Lemma straight_within : forall c k u v, straight c k u -> (0 <= v /\ v <= u) \/ (u <= v /\ v <= 0) -> straight c k v.
Proof. intros c k u v H B d p D OC. apply H; [|exact OC]. destruct B, D; lra. Qed.

Section Matrix.
Variables (M : wmodel) (ks : slopes) (u u' : vec) (kd kd' : kind).
Hypothesis EL : elastic M ks u.
Hypothesis EL' : elastic M ks u'.

Lemma node_of : forall n e j, (e < n)%nat -> (j < 2)%nat -> spring_node n e j = e \/ spring_node n e j = S e.
Proof.
  clear. intros n e j He Hj. unfold spring_node. destruct (Nat.eqb e (n - 1)) eqn:E, (Nat.eqb j 1) eqn:F; cbn; try apply Nat.eqb_eq in E; try apply Nat.eqb_eq in F; lia.
Qed.

Lemma py_at : forall w k py e j, elastic M ks w -> w_py M = Some py -> (e < w_n M)%nat -> (j < 2)%nat ->
  exists x, py_spring (spring_disp (w_n M) w 1 e j) (py e j) k = Ok x /\ x == k_py ks e j.
Proof.
  clear. intros w k py e j (A & _) P He Hj. rewrite spring_disp_node by assumption. apply py_elastic. apply (A py P e j _ He Hj), node_of; assumption.
Qed.

Lemma soil_elements_elastic : req elems_eq (soil_elements M u kd) (soil_elements M u' kd').
Proof.
  unfold soil_elements. pose proof EL as (_ & T & R & _). pose proof EL' as (_ & T' & R' & _). apply (req_bind _ _ elems_eq).
  - unfold opt_res. destruct (w_py M) as [py|] eqn:P; [|intros e i j; reflexivity]. eapply req_bind.
    + apply collect_comp. intros e He. apply both_comp. intros j Hj. apply (elastic_req _ _ (k_py ks e j)); apply py_at; assumption.
    + intros l l' HL e. destruct (kpair_comp l l' e HL). apply madd_comp; [intros i j; reflexivity|apply elem_py_comp; auto].
  - intros k1 k1' H1. apply (req_bind _ _ elems_eq).
    + unfold opt_res. destruct (w_tz M) as [tz|] eqn:Z; [|exact H1]. eapply req_bind.
      * apply collect_comp. intros e He. apply both_comp. intros j Hj. rewrite !spring_disp_node by assumption. rewrite !Nat.add_0_r.
        apply (elastic_req _ _ (k_tz ks e j)); apply tz_elastic; [apply (T tz eq_refl e j _ He Hj)|apply (T' tz eq_refl e j _ He Hj)]; apply node_of; assumption.
      * intros l l' HL e. destruct (kpair_comp l l' e HL). apply madd_comp; [apply H1|apply elem_tz_comp; auto].
    + intros k2 k2' H2. unfold opt_res. destruct (w_mt M) as [mt|]; [|exact H2]. destruct (R mt eq_refl) as (py & P & RR). destruct (R' mt eq_refl) as (py' & P' & RR').
      rewrite P in P' |- *. injection P' as <-. eapply req_bind.
      * apply collect_comp. intros e He. apply both_comp. intros j Hj.
        destruct (py_at u Secant py e j EL P He Hj) as (x & -> & _). destruct (py_at u' Secant py e j EL' P He Hj) as (y & -> & _). cbn [bind].
        apply (elastic_req _ _ (k_mt ks e j)); apply mt_elastic; rewrite spring_disp_node by assumption; [apply (RR e j _ He Hj)|apply (RR' e j _ He Hj)]; apply node_of; assumption.
      * intros l l' HL e. destruct (kpair_comp l l' e HL). apply madd_comp; [apply H2|apply mt_matrix_comp; auto].
Qed.

Lemma add_base_elastic : forall p o f K K', (1 <= p <= 3)%nat -> (forall c, o = Some c -> req Qeq (f (u (size M - p)%nat) c kd) (f (u' (size M - p)%nat) c kd')) -> same_all K K' ->
  req same_all (add_base M p o f u kd K) (add_base M p o f u' kd' K').
Proof.
  clear. intros p o f K K' Hp Hf HK. unfold add_base, opt_res. destruct o as [c|]; [|exact HK]. eapply req_bind; [apply Hf; reflexivity|].
  intros x y E i j. unfold add_diag. destruct (_ && _)%bool; rewrite (HK i j); [rewrite E|]; reflexivity.
Qed.

Lemma build_elastic : req same_all (build M u kd) (build M u' kd').
Proof.
  unfold build. pose proof EL as (_ & _ & _ & H & B & A). pose proof EL' as (_ & _ & _ & H' & B' & A').
  assert (S1 : (size M - 1 = 3 * w_n M + 2)%nat) by (unfold size; lia). assert (S2 : (size M - 2 = 3 * w_n M + 1)%nat) by (unfold size; lia).
  assert (S3 : (size M - 3 = 3 * w_n M)%nat) by (unfold size; lia).
  eapply req_bind; [apply soil_elements_elastic|]. intros a b E.
  eapply req_bind; [apply add_base_elastic; [lia| |apply jit_build_comp, E]|].
  { intros c C. rewrite S2. apply (elastic_req _ _ (k_hb ks)); apply base_elastic; [apply H|apply H']; exact C. }
  intros K1 K1' E1. eapply req_bind; [apply add_base_elastic; [lia| |exact E1]|].
  { intros c C. rewrite S1. apply (elastic_req _ _ (k_mb ks)); apply base_elastic; [apply B|apply B']; exact C. }
  intros K2 K2' E2. apply add_base_elastic; [lia| |exact E2].
  intros c C. rewrite S3. apply (elastic_req _ _ (k_qz ks)); apply base_axial_elastic; [apply A|apply A']; exact C.
Qed.
End Matrix.

Lemma collect_exists : forall (n : nat) (f : nat -> nat -> res Q), (forall e j, (e < n)%nat -> (j < 2)%nat -> exists x, f e j = Ok x) -> exists l, collect n (fun e => both (f e)) = Ok l.
Proof.
  intros n f H. induction n as [|n IH]; [exists []; reflexivity|]. cbn [collect]. destruct IH as [l ->]; [intros; apply H; lia|]. cbn [bind].
  unfold both. destruct (H n 0%nat ltac:(lia) ltac:(lia)) as [a ->]. destruct (H n 1%nat ltac:(lia) ltac:(lia)) as [b ->]. cbn [bind]. eexists. reflexivity.
Qed.

Lemma elastic_builds : forall M ks u kd, elastic M ks u -> exists K, build M u kd = Ok K.
Proof.
  intros M ks u kd EL. pose proof EL as (P & T & R & H & B & A). unfold build.
  assert (SE : exists k, soil_elements M u kd = Ok k).
  { unfold soil_elements, opt_res.
    assert (X1 : forall py, w_py M = Some py -> exists l, py_stiffness M py u kd = Ok l).
    { intros py E. apply collect_exists. intros e j He Hj. destruct (py_at M ks u kd py e j EL E He Hj) as (x & Ex & _). exists x. exact Ex. }
    assert (X2 : forall tz, w_tz M = Some tz -> exists l, tz_stiffness M tz u kd = Ok l).
    { intros tz E. apply collect_exists. intros e j He Hj. rewrite spring_disp_node by assumption. rewrite Nat.add_0_r.
      destruct (tz_elastic _ _ _ kd (T tz E e j _ He Hj (node_of _ e j He Hj))) as (x & Ex & _). exists x. exact Ex. }
    assert (X3 : forall mt, w_mt M = Some mt -> exists py l, w_py M = Some py /\ mt_stiffness M py mt u kd = Ok l).
    { intros mt E. destruct (R mt E) as (py & EP & RR). exists py.
      destruct (collect_exists (w_n M) (fun e j => bind (py_spring (spring_disp (w_n M) u 1 e j) (py e j) Secant) (fun ks0 =>
        mt_spring (spring_disp (w_n M) u 2 e j) (ks0 * spring_disp (w_n M) u 1 e j) (map snd (py e j)) (mt e j) kd))) as [l El].
      - intros e j He Hj. destruct (py_at M ks u Secant py e j EL EP He Hj) as (x & -> & _). cbn [bind]. rewrite (spring_disp_node _ u 2) by assumption.
        destruct (mt_elastic _ _ _ _ (x * spring_disp (w_n M) u 1 e j) kd (RR e j _ He Hj (node_of _ e j He Hj))) as (y & Ey & _). exists y. exact Ey.
      - exists l. split; [exact EP|exact El]. }
    destruct (w_py M) as [py|]; [destruct (X1 py eq_refl) as [l ->]|]; cbn [bind]; (destruct (w_tz M) as [tz|]; [destruct (X2 tz eq_refl) as [l2 ->]|]); cbn [bind];
      (destruct (w_mt M) as [mt|]; [destruct (X3 mt eq_refl) as (py' & l3 & EP & EM); first [discriminate EP|injection EP as <-; rewrite EM]|]); cbn [bind]; eexists; reflexivity. }
  destruct SE as [k ->]. cbn [bind].
  assert (S1 : (size M - 1 = 3 * w_n M + 2)%nat) by (unfold size; lia). assert (S2 : (size M - 2 = 3 * w_n M + 1)%nat) by (unfold size; lia).
  assert (S3 : (size M - 3 = 3 * w_n M)%nat) by (unfold size; lia). unfold add_base, opt_res. rewrite S1, S2, S3.
  destruct (w_hb M) as [c1|]; [destruct (base_elastic _ _ _ kd (H c1 eq_refl)) as (x1 & -> & _)|]; cbn [bind];
    (destruct (w_mb M) as [c2|]; [destruct (base_elastic _ _ _ kd (B c2 eq_refl)) as (x2 & -> & _)|]); cbn [bind];
    (destruct (w_qz M) as [c3|]; [destruct (base_axial_elastic _ _ _ kd (A c3 eq_refl)) as (x3 & -> & _)|]); cbn [bind]; eexists; reflexivity.
Qed.

(** ** Mixtures *)
Lemma straight_abs_rest : forall c k u, straight c k u -> straight c k (Qabs 0).
Proof. intros c k u H. exact (straight_rest c k u H). Qed.

Lemma straight_mix : forall c k u v w x y, straight c k u -> straight c k v -> 0 <= x -> 0 <= y -> x + y <= 1 -> w == x * u + y * v -> straight c k w.
Proof.
  intros c k u v w x y HU HV X Y XY E.
  assert (C : (0 <= w /\ w <= u) \/ (u <= w /\ w <= 0) \/ (0 <= w /\ w <= v) \/ (v <= w /\ w <= 0)).
  { assert (XU : forall a, 0 <= a -> 0 <= x * a) by (intros a A; apply Qmult_le_0_compat; assumption).
    assert (YU : forall a, 0 <= a -> 0 <= y * a) by (intros a A; apply Qmult_le_0_compat; assumption).
    assert (ZU : forall a, 0 <= a -> 0 <= (1 - x - y) * a) by (intros a A; apply Qmult_le_0_compat; [lra|assumption]).
    destruct (Qlt_le_dec u v) as [L|L], (Qlt_le_dec w 0) as [N|N].
    - right; left. pose proof (YU (v - u) ltac:(lra)). destruct (Qlt_le_dec u 0); [pose proof (ZU (- u) ltac:(lra)); lra|].
      pose proof (XU u ltac:(lra)). pose proof (YU v ltac:(lra)). lra.
    - pose proof (XU (v - u) ltac:(lra)). destruct (Qlt_le_dec v 0); [pose proof (XU (- u) ltac:(lra)); pose proof (YU (- v) ltac:(lra)); right; left; lra|].
      pose proof (ZU v ltac:(lra)). right; right; left. lra.
    - pose proof (XU (u - v) ltac:(lra)). destruct (Qlt_le_dec v 0); [pose proof (ZU (- v) ltac:(lra)); right; right; right; lra|].
      pose proof (XU u ltac:(lra)). pose proof (YU v ltac:(lra)). lra.
    - pose proof (YU (u - v) ltac:(lra)). destruct (Qlt_le_dec u 0); [pose proof (XU (- u) ltac:(lra)); pose proof (YU (- v) ltac:(lra)); right; left; lra|].
      pose proof (ZU u ltac:(lra)). left. lra. }
  destruct C as [C|[C|[C|C]]]; [apply (straight_within c k u)|apply (straight_within c k u)|apply (straight_within c k v)|apply (straight_within c k v)]; auto.
Qed.

Lemma straight_abs_mix : forall c k u v w x y, straight c k (Qabs u) -> straight c k (Qabs v) -> Qabs x + Qabs y <= 1 -> w == x * u + y * v -> straight c k (Qabs w).
Proof.
  intros c k u v w x y HU HV XY E.
  assert (S1 : straight c k (Qabs x * Qabs u + Qabs y * Qabs v)).
  { apply (straight_mix c k (Qabs u) (Qabs v) _ (Qabs x) (Qabs y)); auto using Qabs_nonneg. reflexivity. }
  apply (straight_within c k _ _ S1). left. split; [apply Qabs_nonneg|]. rewrite E, <- !Qabs_Qmult. apply Qabs_triangle.
Qed.

Lemma two_way_mix : forall c k u v w x y, two_way c k u -> two_way c k v -> Qabs x + Qabs y <= 1 -> w == x * u + y * v -> two_way c k w.
Proof.
  intros c k u v w x y (A & B & C & D & E & F) (_ & _ & _ & _ & _ & F') XY EW. repeat (split; [assumption|]). apply (straight_abs_mix c k u v w x y); assumption.
Qed.
Lemma lateral_mix : forall c k u v w x y, lateral_elastic c k u -> lateral_elastic c k v -> Qabs x + Qabs y <= 1 -> w == x * u + y * v -> lateral_elastic c k w.
Proof. intros c k u v w x y [A|A] [B|B] XY E; try (right; assumption). left. apply (two_way_mix c k u v w x y); assumption. Qed.
Lemma tip_mix : forall c k u v w x y, tip_elastic c k u -> tip_elastic c k v -> Qabs x + Qabs y <= 1 -> w == x * u + y * v -> tip_elastic c k w.
Proof. intros c k u v w x y [[A H]|A] [[B _]|B] XY E; try (right; assumption). left. split; [|exact H]. apply (two_way_mix c k u v w x y); assumption. Qed.
Lemma rotation_mix : forall pp rows k u v w x y, rotation_elastic pp rows k u -> rotation_elastic pp rows k v -> Qabs x + Qabs y <= 1 -> w == x * u + y * v -> rotation_elastic pp rows k w.
Proof. intros pp rows k u v w x y (A & B & C & D) (_ & _ & _ & D') XY E. repeat (split; [assumption|]). apply (lateral_mix _ k u v w x y); assumption. Qed.
Lemma middle_mix : forall c k u v w x y, about_middle c k u -> about_middle c k v -> 0 <= x -> 0 <= y -> x + y <= 1 -> w == x * u + y * v -> about_middle c k w.
Proof.
  intros c k u v w x y (m & A & B & C & D & E & F & G) (m' & _ & _ & _ & _ & _ & _ & G') X Y XY EW. exists m. repeat (split; [assumption|]). apply (straight_mix _ k u v w x y); assumption.
Qed.
Lemma axial_mix : forall c k u v w x y, axial_elastic c k u -> axial_elastic c k v -> 0 <= x -> 0 <= y -> x + y <= 1 -> w == x * u + y * v -> axial_elastic c k w.
Proof. intros c k u v w x y [A|A] [B|B] X Y XY E; try (right; assumption). left. apply (middle_mix c k u v w x y); assumption. Qed.
Lemma tip_axial_mix : forall c k u v w x y, tip_axial_elastic c k u -> tip_axial_elastic c k v -> 0 <= x -> 0 <= y -> x + y <= 1 -> w == x * u + y * v -> tip_axial_elastic c k w.
Proof. intros c k u v w x y [A|A] [B|B] X Y XY E; try (right; assumption). left. apply (middle_mix c k u v w x y); assumption. Qed.

Lemma elastic_mix : forall M k u v w x y, elastic M k u -> elastic M k v -> 0 <= x -> 0 <= y -> x + y <= 1 -> mix (size M) x y u v w -> elastic M k w.
Proof.
  intros M k u v w x y (P & T & R & H & B & A) (P' & T' & R' & H' & B' & A') X Y XY MX.
  assert (XY' : Qabs x + Qabs y <= 1) by (rewrite !Qabs_pos by assumption; exact XY).
  assert (W : forall i, (i < 3 * w_n M + 3)%nat -> w i == x * u i + y * v i) by (intros i Hi; apply MX; unfold size; lia).
  split; [|split; [|split; [|split; [|split]]]].
  - intros py E e j a He Hj Ha. apply (lateral_mix _ _ (u (3 * a + 1)%nat) (v (3 * a + 1)%nat) _ x y); auto. apply W. lia.
  - intros tz E e j a He Hj Ha. apply (axial_mix _ _ (u (3 * a)%nat) (v (3 * a)%nat) _ x y); auto. apply W. lia.
  - intros mt E. destruct (R mt E) as (py & EP & RR). destruct (R' mt E) as (py' & EP' & RR'). rewrite EP in EP'. injection EP' as <-.
    exists py. split; [exact EP|]. intros e j a He Hj Ha. apply (rotation_mix _ _ _ (u (3 * a + 2)%nat) (v (3 * a + 2)%nat) _ x y); auto. apply W. lia.
  - intros c E. apply (tip_mix _ _ (u (3 * w_n M + 1)%nat) (v (3 * w_n M + 1)%nat) _ x y); auto. apply W. lia.
  - intros c E. apply (tip_mix _ _ (u (3 * w_n M + 2)%nat) (v (3 * w_n M + 2)%nat) _ x y); auto. apply W. lia.
  - intros c E. apply (tip_axial_mix _ _ (u (3 * w_n M)%nat) (v (3 * w_n M)%nat) _ x y); auto. apply W. lia.
Qed.

Lemma elastic_rest : forall M k u, elastic M k u -> elastic M k zero.
Proof.
  intros M k u E. apply (elastic_mix M k u u zero 0 0); try lra; try assumption. intros i _. unfold zero. ring.
Qed.

(** ** The analysis *)
Lemma elastic_initial : forall M ks u kd, elastic M ks u -> exists K K0, build M u kd = Ok K /\ build M zero Initial = Ok K0 /\ same (size M) K K0.
Proof.
  intros M ks u kd EL. destruct (elastic_builds M ks u kd EL) as [K B]. destruct (elastic_builds M ks zero Initial (elastic_rest M ks u EL)) as [K0 B0].
  exists K, K0. split; [exact B|]. split; [exact B0|]. pose proof (build_elastic M ks u zero kd Initial EL (elastic_rest M ks u EL)) as R. rewrite B, B0 in R.
  intros i j _ _. apply R.
Qed.

Lemma elastic_comp : forall M k u w, elastic M k u -> veq (size M) w u -> elastic M k w.
Proof. intros M k u w E V. apply (elastic_mix M k u u w 1 0); try lra; try assumption. intros i Hi. rewrite (V i Hi). ring. Qed.

Lemma elastic_analysis : forall solve M ks F U0 r K V R max_iter, solver_ok solve -> build M zero Initial = Ok K -> stable (size M) K (supports_of r U0) ->
  linear_state (size M) K F U0 (supports_of r U0) V R -> elastic M ks V -> (exists i, (i < size M)%nat /\ ~ F i == 2 * R i) -> (1 <= max_iter)%nat ->
  exists o v R', winkler_model solve M F U0 r max_iter = Ok o /\ o_iter o = 2%nat /\ o_d o = Some v /\ veq (size M) v V /\ o_Q o = Some R' /\ veq (size M) R' R.
Proof.
  intros solve M ks F U0 r K V R m SO B ST (L1 & L2 & L3) EL (i & Hi & NZ) Hm.
  destruct (proj2 (solve_equations_succeeds solve (size M) K F U0 (supports_of r U0) SO) ST) as [[U1 R1] S1].
  destruct (solve_equations_sound solve (size M) K F U0 (supports_of r U0) U1 R1 SO S1) as (E1 & E2 & E3).
  destruct (solution_unique (size M) K F (supports_of r U0) U1 R1 V R ST) as [UV RV]; auto.
  { intros a Ha Hs. rewrite (E3 a Ha Hs), (L3 a Ha Hs). reflexivity. }
  pose proof (elastic_comp M ks V U1 EL UV) as EL1.
  destruct (elastic_initial M ks U1 Secant EL1) as (Ks & K0 & BS & B0 & SS). rewrite B in B0. injection B0 as <-.
  destruct (elastic_initial M ks U1 Tangent EL1) as (Kt & K0 & BT & B0 & SS'). rewrite B in B0. injection B0 as <-.
  destruct (model_linear solve M F U0 r K U1 R1 Ks Kt SO B S1 BS SS BT SS' ltac:(exists i; split; [exact Hi|]; rewrite (RV i Hi); exact NZ) m Hm) as (o & v & R' & A1 & A2 & A3 & A4 & A5 & A6 & _).
  exists o, v, R'. split; [exact A1|]. split; [exact A2|]. split; [exact A3|]. split; [intros a Ha; rewrite (A4 a Ha); apply UV, Ha|].
  split; [exact A5|]. intros a Ha. rewrite (A6 a Ha). apply RV, Ha.
Qed.

(** ** Small displacements are elastic *)
Lemma slope_division : forall a b, 0 < b -> a == a / b * b. Proof. intros. field. lra. Qed.

Lemma first_segment : forall c u, lateral_curve c -> Qabs u <= fst (point c 1) -> two_way c (snd (point c 1) / fst (point c 1)) u.
Proof.
  intros c u (L & ST & HD & O) B. pose proof (strict_lt c 1 0 ST ltac:(lia) ltac:(lia)) as X1. pose proof O as [O1 O2].
  assert (NE : c <> []) by (intros ->; cbn in L; lia). assert (X : 0 < fst (point c 1)) by lra.
  pose proof (hardening_ge c (point c 1) NE HD ltac:(apply nth_In; lia)) as Y.
  split; [exact L|]. split; [exact ST|]. split; [exact O|]. split; [apply Qle_shift_div_l; lra|]. split; [apply slope_division, X|].
  intros d p D OC. apply (on_curve_unique c d p _ ST NE OC). left. exists 0%nat. split; [lia|]. pose proof (Qabs_nonneg u).
  split; [exact X1|]. split; [lra|]. split; [lra|]. rewrite O1, O2. field. lra.
Qed.

Lemma middle_segment : forall c u m, length c = (2 * m + 1)%nat -> Nat.odd m = true -> strict (rev c) -> hardening (rev c) -> origin (point c m) ->
  fst (point c (S m)) <= u -> u <= 0 -> about_middle c (snd (point c (S m)) / fst (point c (S m))) u.
Proof.
  intros c u m L OD ST HD O B1 B2. assert (M0 : (0 < m)%nat) by (destruct m; [discriminate|lia]). pose proof O as [O1 O2].
  assert (NE : rev c <> []) by (intros E; apply (f_equal (@length _)) in E; rewrite rev_length, L in E; cbn in E; lia).
  set (j := (length c - 1 - S m)%nat).
  assert (PJ : point (rev c) j = point c (S m)) by (unfold j; rewrite point_rev by lia; f_equal; lia).
  assert (PJ' : point (rev c) (S j) = point c m) by (unfold j; rewrite point_rev by lia; f_equal; lia).
  assert (JL : (S j < length (rev c))%nat) by (rewrite rev_length; unfold j; lia).
  pose proof (strict_lt (rev c) (S j) j ST ltac:(lia) JL) as X. rewrite PJ, PJ' in X.
  assert (XN : fst (point c (S m)) < 0) by lra.
  assert (Y : snd (point c (S m)) <= 0).
  { pose proof (interp_mono (rev c) (fst (point (rev c) j)) (fst (point (rev c) (S j))) NE (strict_ordered _ ST) HD ltac:(rewrite PJ, PJ'; lra)) as IM.
    rewrite !interp_at_point in IM by (auto; lia). rewrite PJ, PJ' in IM. lra. }
  exists m. split; [exact L|]. split; [exact OD|]. split; [exact ST|]. split; [exact O|].
  assert (DV : snd (point c (S m)) == snd (point c (S m)) / fst (point c (S m)) * fst (point c (S m))) by (field; lra).
  split.
  { assert (E : snd (point c (S m)) / fst (point c (S m)) == (- snd (point c (S m))) / (- fst (point c (S m)))) by (field; lra). rewrite E. apply Qle_shift_div_l; lra. }
  split; [exact DV|]. intros d p D OC. apply (on_curve_unique (rev c) d p _ ST NE OC). left. exists j. split; [exact JL|]. rewrite PJ, PJ'.
  split; [exact X|]. split; [destruct D; lra|]. split; [destruct D; lra|]. rewrite O1, O2. field. lra.
Qed.

(** a curve that starts with one slope in both directions is straight above its middle too *)
Lemma middle_segment_up : forall c u m, length c = (2 * m + 1)%nat -> Nat.odd m = true -> strict (rev c) -> hardening (rev c) -> origin (point c m) -> same_start c ->
  0 <= u -> u <= fst (point c (m - 1)) -> about_middle c (snd (point c (S m)) / fst (point c (S m))) u.
Proof.
  intros c u m L OD ST HD O SS B1 B2. assert (M0 : (0 < m)%nat) by (destruct m; [discriminate|lia]). pose proof O as [O1 O2].
  assert (NE : rev c <> []) by (intros E; apply (f_equal (@length _)) in E; rewrite rev_length, L in E; cbn in E; lia).
  set (j := (length c - 1 - m)%nat).
  assert (PJ : point (rev c) j = point c m) by (unfold j; rewrite point_rev by lia; f_equal; lia).
  assert (PJ' : point (rev c) (S j) = point c (m - 1)) by (unfold j; rewrite point_rev by lia; f_equal; lia).
  assert (PI : point (rev c) (j - 1) = point c (S m)) by (unfold j; rewrite point_rev by lia; f_equal; lia).
  assert (JL : (S j < length (rev c))%nat) by (rewrite rev_length; unfold j; lia). assert (J0 : (0 < j)%nat) by (unfold j; lia).
  pose proof (strict_lt (rev c) (S j) j ST ltac:(lia) JL) as X. rewrite PJ, PJ' in X.
  pose proof (strict_lt (rev c) j (j - 1) ST ltac:(lia) ltac:(lia)) as X'. rewrite PJ, PI in X'.
  assert (XN : fst (point c (S m)) < 0) by lra. specialize (SS m L).
  destruct (middle_segment c 0 m L OD ST HD O ltac:(lra) ltac:(lra)) as (m' & L' & _ & _ & _ & K0 & DV & _).
  assert (m' = m) by lia. subst m'. exists m. split; [exact L|]. split; [exact OD|]. split; [exact ST|]. split; [exact O|]. split; [exact K0|]. split; [exact DV|].
  intros d p D OC. apply (on_curve_unique (rev c) d p _ ST NE OC). left. exists j. split; [exact JL|]. rewrite PJ, PJ'.
  split; [exact X|]. split; [destruct D; lra|]. split; [destruct D; lra|]. rewrite O1, O2.
  assert (E : snd (point c (m - 1)) == snd (point c (S m)) / fst (point c (S m)) * fst (point c (m - 1))).
  { apply (Qmult_inj_r _ _ (fst (point c (S m)))); [lra|]. rewrite SS. field. lra. }
  rewrite E. field. lra.
Qed.

(** a property of small positive numbers *)
Definition eventually (P : Q -> Prop) : Prop := exists t0, 0 < t0 /\ forall t, 0 < t -> t <= t0 -> P t.
Lemma eventually_and : forall P P', eventually P -> eventually P' -> eventually (fun t => P t /\ P' t).
Proof.
  intros P P' (a & A & HA) (b & B & HB). exists (Qmin a b). split; [destruct (Q.min_spec a b) as [[_ E]|[_ E]]; rewrite E; assumption|].
  intros t T L. pose proof (Q.le_min_l a b). pose proof (Q.le_min_r a b). split; [apply HA|apply HB]; lra.
Qed.
Lemma eventually_all : forall n (P : nat -> Q -> Prop), (forall e, (e < n)%nat -> eventually (P e)) -> eventually (fun t => forall e, (e < n)%nat -> P e t).
Proof.
  induction n as [|n IH]; intros P H; [exists 1; split; [reflexivity|intros; lia]|].
  destruct (eventually_and _ _ (IH P ltac:(intros; apply H; lia)) (H n ltac:(lia))) as (t0 & T0 & X). exists t0. split; [exact T0|].
  intros t T L e He. destruct (X t T L) as [A B]. destruct (Nat.eq_dec e n) as [->|]; [exact B|]. apply A. lia.
Qed.
Lemma eventually_imp : forall (P P' : Q -> Prop), (forall t, 0 < t -> P t -> P' t) -> eventually P -> eventually P'.
Proof. intros P P' I (a & A & H). exists a. split; [exact A|]. intros t T L. apply I; [exact T|]. apply H; assumption. Qed.

Lemma small_abs : forall u x, 0 < x -> eventually (fun t => Qabs (t * u) <= x).
Proof.
  intros u x X. pose proof (Qabs_nonneg u) as N. exists (x / (Qabs u + 1)). split; [apply Qlt_shift_div_l; lra|].
  intros t T L. rewrite Qabs_Qmult, (Qabs_pos t) by lra. pose proof (Qmult_le_compat_r _ _ (Qabs u + 1) L ltac:(lra)) as H.
  assert (E : x / (Qabs u + 1) * (Qabs u + 1) == x) by (field; lra). rewrite E in H. pose proof (Qmult_le_0_compat t 1 ltac:(lra) ltac:(lra)). lra.
Qed.

Definition slope1 (c : curve) : Q := snd (point c 1) / fst (point c 1).
Definition slope_mid (c : curve) : Q := snd (point c (S (zero_index (length c)))) / fst (point c (S (zero_index (length c)))).
Definition first_row (rows : list curve) : curve := map (fun row => point row 0) rows.

Lemma absent_slope : forall c i, absent c -> snd (point c i) / fst (point c i) == 0.
Proof.
  intros c i A. assert (E : fst (point c i) == 0).
  { unfold point. destruct (Nat.lt_ge_cases i (length c)) as [L|L]; [apply A, nth_In, L|rewrite nth_overflow by exact L; reflexivity]. }
  unfold Qdiv. rewrite E. change (/ 0) with 0. ring.
Qed.
Lemma idle_slope : forall c i, idle c -> snd (point c i) / fst (point c i) == 0.
Proof.
  intros c i A. assert (E : snd (point c i) == 0).
  { unfold point. destruct (Nat.lt_ge_cases i (length c)) as [L|L]; [apply A, nth_In, L|rewrite nth_overflow by exact L; reflexivity]. }
  unfold Qdiv. rewrite E. ring.
Qed.

Lemma lateral_small : forall c u, lateral_curve c \/ absent c -> eventually (fun t => lateral_elastic c (slope1 c) (t * u)).
Proof.
  intros c u [L|A]; [|exists 1; split; [reflexivity|]; intros; right; split; [exact A|apply absent_slope, A]].
  pose proof L as (LL & ST & HD & [O1 O2]). pose proof (strict_lt c 1 0 ST ltac:(lia) ltac:(lia)) as X1.
  apply (eventually_imp _ _ (fun t _ B => or_introl (first_segment c (t * u) L B)) (small_abs u (fst (point c 1)) ltac:(lra))).
Qed.
Lemma tip_small : forall c u, lateral_curve c \/ idle c -> eventually (fun t => tip_elastic c (slope1 c) (t * u)).
Proof.
  intros c u [L|A]; [|exists 1; split; [reflexivity|]; intros; right; split; [exact A|apply idle_slope, A]].
  pose proof L as (LL & ST & HD & [O1 O2]). pose proof (strict_lt c 1 0 ST ltac:(lia) ltac:(lia)) as X1.
  apply (eventually_imp _ _ (fun t _ B => or_introl (conj (first_segment c (t * u) L B) HD)) (small_abs u (fst (point c 1)) ltac:(lra))).
Qed.
Lemma middle_small : forall c u, middle_curve c -> u <= 0 \/ same_start c -> eventually (fun t => about_middle c (slope_mid c) (t * u)).
Proof.
  intros c u (m & L & OD & ST & HD & O) U. assert (M0 : (0 < m)%nat) by (destruct m; [discriminate|lia]). pose proof O as [O1 O2].
  assert (ZI : zero_index (length c) = m) by (rewrite L; apply zero_index_middle; assumption).
  destruct (Qlt_le_dec 0 u) as [P|N0].
  - destruct U as [U|SS]; [lra|].
    pose proof (strict_lt (rev c) (length c - 1 - (m - 1)) (length c - 1 - m) ST ltac:(lia) ltac:(rewrite rev_length; lia)) as X.
    rewrite !point_rev in X by lia. replace (length c - 1 - (length c - 1 - m))%nat with m in X by lia.
    replace (length c - 1 - (length c - 1 - (m - 1)))%nat with (m - 1)%nat in X by lia.
    apply (eventually_imp (fun t => Qabs (t * u) <= fst (point c (m - 1)))).
    + intros t T B. pose proof (Qmult_le_0_compat t u ltac:(lra) ltac:(lra)) as N. unfold slope_mid. rewrite ZI.
      rewrite Qabs_pos in B by lra. apply middle_segment_up; auto; lra.
    + apply small_abs. lra.
  - pose proof (strict_lt (rev c) (length c - 1 - m) (length c - 1 - S m) ST ltac:(lia) ltac:(rewrite rev_length; lia)) as X.
    rewrite !point_rev in X by lia. replace (length c - 1 - (length c - 1 - m))%nat with m in X by lia.
    replace (length c - 1 - (length c - 1 - S m))%nat with (S m) in X by lia.
    apply (eventually_imp (fun t => Qabs (t * u) <= - fst (point c (S m)))).
    + intros t T B. pose proof (Qmult_le_0_compat t (- u) ltac:(lra) ltac:(lra)) as N. unfold slope_mid. rewrite ZI.
      rewrite Qabs_neg in B by lra. apply middle_segment; auto; lra.
    + apply small_abs. lra.
Qed.
Lemma axial_small : forall c u, middle_curve c \/ absent c -> u <= 0 \/ same_start c -> eventually (fun t => axial_elastic c (slope_mid c) (t * u)).
Proof.
  intros c u [L|A] U; [|exists 1; split; [reflexivity|]; intros; right; split; [exact A|apply absent_slope, A]].
  apply (eventually_imp _ _ (fun t _ B => or_introl B) (middle_small c u L U)).
Qed.
Lemma tip_axial_small : forall c u, middle_curve c \/ idle c -> u <= 0 \/ same_start c -> eventually (fun t => tip_axial_elastic c (slope_mid c) (t * u)).
Proof.
  intros c u [L|A] U; [|exists 1; split; [reflexivity|]; intros; right; split; [exact A|apply idle_slope, A]].
  apply (eventually_imp _ _ (fun t _ B => or_introl B) (middle_small c u L U)).
Qed.
Lemma settling_either : forall M u, settling M u -> either_way M u.
Proof. intros M u SE. split; [intros tz _ e j a He _ Ha; left; apply SE; lia|intros c _; left; apply SE; lia]. Qed.
Lemma rotation_small : forall pp rows u, fixed_rows pp rows -> eventually (fun t => rotation_elastic pp rows (slope1 (first_row rows)) (t * u)).
Proof.
  intros pp rows u (A & B & C & D). apply (eventually_imp _ _ (fun t _ E => conj A (conj B (conj C E))) (lateral_small (first_row rows) u D)).
Qed.

Definition first_slopes (M : wmodel) : slopes := {|
  k_py := fun e j => match w_py M with Some py => slope1 (py e j) | None => 0 end;
  k_tz := fun e j => match w_tz M with Some tz => slope_mid (tz e j) | None => 0 end;
  k_mt := fun e j => match w_mt M with Some mt => slope1 (first_row (mt e j)) | None => 0 end;
  k_hb := match w_hb M with Some c => slope1 c | None => 0 end;
  k_mb := match w_mb M with Some c => slope1 c | None => 0 end;
  k_qz := match w_qz M with Some c => slope_mid c | None => 0 end |}.

Lemma eventually_nodes : forall n (P : nat -> nat -> nat -> Q -> Prop), (forall e j a, (e < n)%nat -> (j < 2)%nat -> a = e \/ a = S e -> eventually (P e j a)) ->
  eventually (fun t => forall e j a, (e < n)%nat -> (j < 2)%nat -> a = e \/ a = S e -> P e j a t).
Proof.
  intros n P H. apply (eventually_imp (fun t => forall e, (e < n)%nat -> forall j, (j < 2)%nat -> P e j e t /\ P e j (S e) t)).
  - intros t _ X e j a He Hj [->| ->]; apply (X e He j Hj).
  - apply eventually_all. intros e He. apply eventually_all. intros j Hj. apply eventually_and; apply H; auto.
Qed.
Lemma eventually_const : forall P : Q -> Prop, (forall t, P t) -> eventually P.
Proof. intros P H. exists 1. split; [reflexivity|]. intros t _ _. apply H. Qed.

Lemma small_elastic : forall M u, regular M -> either_way M u -> eventually (fun t => elastic M (first_slopes M) (fun i => t * u i)).
Proof.
  intros M u (P & T & R & H & B & A) [SE SQ]. unfold elastic, first_slopes. cbn [k_py k_tz k_mt k_hb k_mb k_qz].
  apply eventually_and.
  { destruct (w_py M) as [py|]; [|apply eventually_const; intros; discriminate].
    apply (eventually_imp (fun t => forall e j a, (e < w_n M)%nat -> (j < 2)%nat -> a = e \/ a = S e -> lateral_elastic (py e j) (slope1 (py e j)) (t * u (3 * a + 1)%nat))).
    - intros t _ X py' E. injection E as <-. exact X.
    - apply eventually_nodes. intros e j a He Hj _. apply lateral_small. apply (P py eq_refl e j He Hj). }
  apply eventually_and.
  { destruct (w_tz M) as [tz|]; [|apply eventually_const; intros; discriminate].
    apply (eventually_imp (fun t => forall e j a, (e < w_n M)%nat -> (j < 2)%nat -> a = e \/ a = S e -> axial_elastic (tz e j) (slope_mid (tz e j)) (t * u (3 * a)%nat))).
    - intros t _ X tz' E. injection E as <-. exact X.
    - apply eventually_nodes. intros e j a He Hj Ha. apply axial_small; [apply (T tz eq_refl e j He Hj)|]. apply (SE tz eq_refl e j a He Hj Ha). }
  apply eventually_and.
  { destruct (w_mt M) as [mt|]; [|apply eventually_const; intros; discriminate]. destruct (R mt eq_refl) as (py & EP & RR).
    apply (eventually_imp (fun t => forall e j a, (e < w_n M)%nat -> (j < 2)%nat -> a = e \/ a = S e -> rotation_elastic (map snd (py e j)) (mt e j) (slope1 (first_row (mt e j))) (t * u (3 * a + 2)%nat))).
    - intros t _ X mt' E. injection E as <-. exists py. split; [exact EP|exact X].
    - apply eventually_nodes. intros e j a He Hj _. apply rotation_small. apply (RR e j He Hj). }
  apply eventually_and; [|apply eventually_and].
  - destruct (w_hb M) as [c|]; [|apply eventually_const; intros; discriminate].
    apply (eventually_imp _ _ (fun t _ X c' (E : Some c = Some c') => eq_rect c (fun c' => tip_elastic c' (slope1 c) (t * u (3 * w_n M + 1)%nat)) X c' (f_equal (fun o => match o with Some x => x | None => c end) E)) (tip_small c _ (H c eq_refl))).
  - destruct (w_mb M) as [c|]; [|apply eventually_const; intros; discriminate].
    apply (eventually_imp _ _ (fun t _ X c' (E : Some c = Some c') => eq_rect c (fun c' => tip_elastic c' (slope1 c) (t * u (3 * w_n M + 2)%nat)) X c' (f_equal (fun o => match o with Some x => x | None => c end) E)) (tip_small c _ (B c eq_refl))).
  - destruct (w_qz M) as [c|]; [|apply eventually_const; intros; discriminate].
    apply (eventually_imp _ _ (fun t _ X c' (E : Some c = Some c') => eq_rect c (fun c' => tip_axial_elastic c' (slope_mid c) (t * u (3 * w_n M)%nat)) X c' (f_equal (fun o => match o with Some x => x | None => c end) E)) (tip_axial_small c _ (A c eq_refl) (SQ c eq_refl))).
Qed.
