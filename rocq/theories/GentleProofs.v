(** Springs that are moved less than to the first point of their curve: one stiffness for all purposes.  Unlike in
    ElasticProofs nothing is asked of the rest of the curve, so storage in single precision may merge its points. *)
From Coq Require Import List Bool Arith ZArith QArith Qabs Qminmax Lia Lqa Setoid.
From Verif Require Import Base LinAlg BCModel PileModel BeamModel BeamProofs SolveModel SolveSpec SolveProofs SpringModel SpringSpec SpringProofs SpringProper SoilProofs WinklerModel WinklerSpec WinklerWitness
  EquilSpec ElasticSpec ElasticProofs WholeModel ApartSpec ApartProofs ApartCalls StillProofs.
Import ListNotations.
Local Open Scope Q_scope.

(** ** Curves *)
Definition starts (c : curve) (u : Q) : Prop := origin (pt c 0) /\ Qabs u < fst (pt c 1).

Lemma starts_value : forall c u d, starts c u -> 0 <= d -> d <= Qabs u -> resistance c d == snd (pt c 1) / fst (pt c 1) * d.
Proof.
  intros c u d [[O1 O2] L] D0 D1. destruct c as [|[x0 y0] [|[x1 y1] t]]; unfold pt in *; cbn [nth fst snd] in *; try lra.
  unfold resistance. assert (QM : x1 <= qmax (map fst ((x0, y0) :: (x1, y1) :: t))) by (apply qmax_ge; right; left; reflexivity).
  destruct (Qltb _ d) eqn:T; [apply Qltb_true in T; lra|]. rewrite interp_cons. destruct (Qltb d x1) eqn:T1; [|apply Qltb_false in T1; lra].
  destruct (Qltb d x0) eqn:T0; [apply Qltb_true in T0; lra|]. rewrite O1, O2. field. lra.
Qed.

Lemma ratio_abs : forall dx p0 p1 k, ~ dx == 0 -> p1 - p0 == k * dx -> exists k', ratio (dx, p0, p1) = Ok k' /\ k' == Qabs k.
Proof.
  intros dx p0 p1 k N E. unfold ratio. destruct (Qeq_bool dx 0) eqn:Z; [apply Qeq_bool_iff in Z; contradiction|].
  eexists; split; [reflexivity|]. rewrite E. assert (X : k * dx / dx == k) by (field; exact N). rewrite X. reflexivity.
Qed.
Lemma starts_terms : forall c u kd, starts c u -> exists k', ratio (lateral_terms kd (Qabs u) c) = Ok k' /\ k' == Qabs (snd (pt c 1) / fst (pt c 1)).
Proof.
  intros c u kd S0. pose proof (starts_value c u) as V. pose proof S0 as [[O1 O2] L]. pose proof (Qabs_nonneg u) as NN. set (k := snd (pt c 1) / fst (pt c 1)) in *.
  assert (P1 : snd (pt c 1) == k * fst (pt c 1)) by (unfold k; field; lra).
  unfold lateral_terms. destruct (_ || Qeq_bool (Qabs u) 0)%bool eqn:Z.
  - apply ratio_abs; [lra|]. rewrite O1, O2, P1. ring.
  - apply orb_false_elim in Z. destruct Z as [_ Z]. assert (NZ : ~ Qabs u == 0) by (intros W; apply Qeq_bool_iff in W; congruence).
    assert (AP : 0 < Qabs u) by (destruct (Qlt_le_dec 0 (Qabs u)); [assumption|exfalso; apply NZ; lra]).
    destruct kd; cbv zeta.
    + apply ratio_abs; [exact NZ|]. rewrite (V _ S0) by lra. rewrite O2. ring.
    + apply ratio_abs; [exact NZ|]. rewrite (V _ S0) by lra. rewrite O2. ring.
    + assert (D : 0 < Qmin (1#2000) (Qabs u) /\ Qmin (1#2000) (Qabs u) <= Qabs u).
      { split; [|apply Q.le_min_r]. destruct (Q.min_spec (1#2000) (Qabs u)) as [[_ E]|[_ E]]; rewrite E; [reflexivity|exact AP]. }
      destruct D as [D1 D2]. generalize dependent (Qmin (1#2000) (Qabs u)). intros dx D1 D2.
      apply ratio_abs; [lra|]. rewrite !(V _ S0) by lra. ring.
Qed.
Lemma starts_rest : forall c u, starts c u -> starts c 0.
Proof. intros c u [A B]. split; [exact A|]. pose proof (Qabs_nonneg u). cbn. lra. Qed.

Lemma terms_req : forall c u kd, starts c u -> req Qeq (ratio (lateral_terms kd (Qabs u) c)) (ratio (lateral_terms Initial (Qabs 0) c)).
Proof. intros c u kd S0. apply (elastic_req _ _ (Qabs (snd (pt c 1) / fst (pt c 1)))); apply starts_terms; [exact S0|eapply starts_rest; exact S0]. Qed.
Lemma py_gentle : forall c u kd, absent c \/ starts c u -> req Qeq (py_spring u c kd) (py_spring 0 c Initial).
Proof.
  intros c u kd [A|S0]; unfold py_spring.
  - pose proof (absent_sum c A) as X. apply Qeq_bool_iff in X. rewrite X. cbn. reflexivity.
  - destruct (Qeq_bool _ 0); [cbn; reflexivity|]. apply terms_req, S0.
Qed.
Lemma base_gentle : forall c u kd, idle c \/ starts c u -> req Qeq (base_spring u c kd) (base_spring 0 c Initial).
Proof.
  intros c u kd [A|S0]; unfold base_spring.
  - pose proof (idle_sum c A) as X. apply Qeq_bool_iff in X. rewrite X. cbn. reflexivity.
  - destruct (Qeq_bool _ 0); [cbn; reflexivity|]. apply terms_req, S0.
Qed.
Lemma axial_rest : forall c u kd, u == 0 -> axial_terms kd u c = axial_terms Initial 0 c.
Proof. intros c u kd E. apply Qeq_bool_iff in E. unfold axial_terms. cbv zeta. rewrite E, orb_true_r. reflexivity. Qed.
(** An axial spring pressed down by less than to the first point of its curve.  The points are in decreasing order, the eighth at the origin. *)
Definition presses (c : curve) (u : Q) : Prop := length c = 15%nat /\ origin (pt c 7) /\ (forall i j, (i <= j < 15)%nat -> fst (pt c j) <= fst (pt c i)) /\
  0 < fst (pt c 6) /\ fst (pt c 8) < u /\ u <= 0.

Lemma presses_value : forall c u d, presses c u -> u <= d -> d <= 0 -> interp d (rev c) == snd (pt c 8) / fst (pt c 8) * d.
Proof.
  intros c u d (L & [O1 O2] & DE & P6 & P8 & U0) D1 D0.
  do 15 (destruct c as [|[? ?] c]; [discriminate L|]). destruct c; [|discriminate L].
  pose proof (DE 8%nat 9%nat ltac:(lia)) as A9. pose proof (DE 8%nat 10%nat ltac:(lia)) as A10. pose proof (DE 8%nat 11%nat ltac:(lia)) as A11. pose proof (DE 8%nat 12%nat ltac:(lia)) as A12.
  pose proof (DE 8%nat 13%nat ltac:(lia)) as A13. clear DE. unfold pt in *. cbn [nth fst snd] in *. cbn [rev app].
  do 6 (rewrite interp_cons; match goal with |- context [if Qltb d ?x then _ else _] => destruct (Qltb d x) eqn:?T; [apply Qltb_true in T; exfalso; lra|clear T] end).
  rewrite interp_cons. match goal with |- context [if Qltb d ?x then _ else _] => destruct (Qltb d x) eqn:T7 end.
  - match goal with |- context [if Qltb d ?x then _ else _] => destruct (Qltb d x) eqn:T8; [apply Qltb_true in T8; exfalso; lra|clear T8] end. rewrite O1, O2. field. lra.
  - apply Qltb_false in T7. assert (Z : d == 0) by lra. rewrite interp_cons. match goal with |- context [if Qltb d ?x then _ else _] => destruct (Qltb d x) eqn:T6; [|apply Qltb_false in T6; exfalso; lra] end.
    match goal with |- context [if Qltb d ?x then _ else _] => destruct (Qltb d x) eqn:T5; [apply Qltb_true in T5; exfalso; lra|clear T5] end. rewrite O1, O2, Z. field. split; lra.
Qed.
Lemma presses_terms : forall c u kd, presses c u -> exists k', ratio (axial_terms kd u c) = Ok k' /\ k' == Qabs (snd (pt c 8) / fst (pt c 8)).
Proof.
  intros c u kd P. pose proof (presses_value c u) as V. pose proof P as (L & [O1 O2] & _ & P6 & P8 & U0). set (k := snd (pt c 8) / fst (pt c 8)) in *.
  assert (K8 : snd (pt c 8) == k * fst (pt c 8)) by (unfold k; field; lra).
  assert (NG : forall dx p0 p1, ~ dx == 0 -> p1 - p0 == - k * dx -> exists k', ratio (dx, p0, p1) = Ok k' /\ k' == Qabs k).
  { intros dx p0 p1 N E. destruct (ratio_abs dx p0 p1 (- k) N E) as (k' & A & B). exists k'. split; [exact A|]. rewrite B. apply Qabs_opp. }
  unfold axial_terms. rewrite L. change (zero_index 15) with 7%nat. cbv zeta. destruct (_ || Qeq_bool u 0)%bool eqn:Z.
  - apply NG; [lra|]. rewrite O1, O2, K8. ring.
  - apply orb_false_elim in Z. destruct Z as [_ Z]. assert (NZ : ~ u == 0) by (intros W; apply Qeq_bool_iff in W; congruence). assert (UN : u < 0) by lra.
    assert (UA : Qabs u == - u) by (apply Qabs_neg; exact U0).
    assert (SEC : exists k', ratio (u, snd (pt c 7), interp u (rev c)) = Ok k' /\ k' == Qabs k).
    { apply ratio_abs; [exact NZ|]. rewrite (V u P (Qle_refl _) U0), O2. ring. }
    destruct kd; try exact SEC.
    assert (PB : Qltb 0 u = false) by (apply Qltb_false; exact U0). 
    assert (DX : 0 < Qmin (1#2000) (Qabs u) /\ Qmin (1#2000) (Qabs u) <= - u).
    { destruct (Q.min_dec (1#2000) (Qabs u)) as [X|X]; pose proof (Q.le_min_r (1#2000) (Qabs u)); rewrite X in *; split; lra. }
    rewrite PB. apply NG; [lra|]. rewrite (V u P (Qle_refl _) U0). rewrite (V (u + Qmin (1#2000) (Qabs u)) P) by lra. ring.
Qed.
Lemma presses_rest : forall c u, presses c u -> presses c 0.
Proof. intros c u (A & B & C & D & E & F). repeat (split; [assumption|]). split; lra. Qed.
Lemma presses_req : forall c u kd, presses c u -> req Qeq (ratio (axial_terms kd u c)) (ratio (axial_terms Initial 0 c)).
Proof. intros c u kd S0. apply (elastic_req _ _ (Qabs (snd (pt c 8) / fst (pt c 8)))); apply presses_terms; [exact S0|eapply presses_rest; exact S0]. Qed.

(** An axial spring pulled up by less than to the first point of its curve, which starts with the same slope both ways *)
Definition even_start (c : curve) : Prop := snd (pt c 6) * fst (pt c 8) == snd (pt c 8) * fst (pt c 6).
Definition pulls (c : curve) (u : Q) : Prop := length c = 15%nat /\ origin (pt c 7) /\ (forall i j, (i <= j < 15)%nat -> fst (pt c j) <= fst (pt c i)) /\
  fst (pt c 8) < 0 /\ even_start c /\ u < fst (pt c 6) /\ 0 <= u.
Lemma pulls_value : forall c u d, pulls c u -> 0 <= d -> d <= u -> interp d (rev c) == snd (pt c 6) / fst (pt c 6) * d.
Proof.
  intros c u d (L & [O1 O2] & DE & P8 & _ & P6 & U0) D0 D1.
  do 15 (destruct c as [|[? ?] c]; [discriminate L|]). destruct c; [|discriminate L].
  pose proof (DE 8%nat 9%nat ltac:(lia)) as A9. pose proof (DE 8%nat 10%nat ltac:(lia)) as A10. pose proof (DE 8%nat 11%nat ltac:(lia)) as A11. pose proof (DE 8%nat 12%nat ltac:(lia)) as A12.
  pose proof (DE 8%nat 13%nat ltac:(lia)) as A13. clear DE. unfold pt in *. cbn [nth fst snd] in *. cbn [rev app].
  do 7 (rewrite interp_cons; match goal with |- context [if Qltb d ?x then _ else _] => destruct (Qltb d x) eqn:?T; [apply Qltb_true in T; exfalso; lra|clear T] end).
  rewrite interp_cons. match goal with |- context [if Qltb d ?x then _ else _] => destruct (Qltb d x) eqn:T6; [|apply Qltb_false in T6; exfalso; lra] end.
  match goal with |- context [if Qltb d ?x then _ else _] => destruct (Qltb d x) eqn:T7; [apply Qltb_true in T7; exfalso; lra|clear T7] end. rewrite O1, O2. field. lra.
Qed.
Lemma pulls_terms : forall c u kd, pulls c u -> exists k', ratio (axial_terms kd u c) = Ok k' /\ k' == Qabs (snd (pt c 6) / fst (pt c 6)).
Proof.
  intros c u kd P. pose proof (pulls_value c u) as V. pose proof P as (L & [O1 O2] & _ & P8 & EV & P6 & U0). set (k := snd (pt c 6) / fst (pt c 6)) in *.
  assert (K8 : snd (pt c 8) == k * fst (pt c 8)).
  { unfold even_start in EV. assert (X : snd (pt c 8) == snd (pt c 8) * fst (pt c 6) / fst (pt c 6)) by (field; lra). rewrite X, <- EV. unfold k. field. lra. }
  assert (NG : forall dx p0 p1, ~ dx == 0 -> p1 - p0 == - k * dx -> exists k', ratio (dx, p0, p1) = Ok k' /\ k' == Qabs k).
  { intros dx p0 p1 N E. destruct (ratio_abs dx p0 p1 (- k) N E) as (k' & A & B). exists k'. split; [exact A|]. rewrite B. apply Qabs_opp. }
  unfold axial_terms. rewrite L. change (zero_index 15) with 7%nat. cbv zeta. destruct (_ || Qeq_bool u 0)%bool eqn:Z.
  - apply NG; [lra|]. rewrite O1, O2, K8. ring.
  - apply orb_false_elim in Z. destruct Z as [_ Z]. assert (NZ : ~ u == 0) by (intros W; apply Qeq_bool_iff in W; congruence). assert (UP : 0 < u) by lra.
    assert (UA : Qabs u == u) by (apply Qabs_pos; exact U0).
    assert (SEC : exists k', ratio (u, snd (pt c 7), interp u (rev c)) = Ok k' /\ k' == Qabs k).
    { apply ratio_abs; [exact NZ|]. rewrite (V u P U0 (Qle_refl _)), O2. ring. }
    destruct kd; try exact SEC.
    assert (PB : Qltb 0 u = true) by (apply Qltb_true; exact UP).
    assert (DX : 0 < Qmin (1#2000) (Qabs u) /\ Qmin (1#2000) (Qabs u) <= u).
    { destruct (Q.min_dec (1#2000) (Qabs u)) as [X|X]; pose proof (Q.le_min_r (1#2000) (Qabs u)); rewrite X in *; split; lra. }
    rewrite PB. apply ratio_abs; [lra|]. rewrite (V u P U0 (Qle_refl _)). rewrite (V (u - Qmin (1#2000) (Qabs u)) P) by lra. ring.
Qed.
Lemma pulls_rest : forall c u, pulls c u -> pulls c 0.
Proof. intros c u (A & B & C & D & E & F & G). repeat (split; [assumption|]). split; lra. Qed.
Definition leans (c : curve) (u : Q) : Prop := presses c u \/ pulls c u.
Lemma leans_req : forall c u kd, leans c u -> req Qeq (ratio (axial_terms kd u c)) (ratio (axial_terms Initial 0 c)).
Proof.
  intros c u kd [P|P]; [apply presses_req, P|]. apply (elastic_req _ _ (Qabs (snd (pt c 6) / fst (pt c 6)))); apply pulls_terms; [exact P|eapply pulls_rest; exact P].
Qed.

Lemma req_refl_Q : forall a : res Q, req Qeq a a.
Proof. intros [x|e]; cbn; reflexivity. Qed.
Lemma tz_gentle : forall c u kd, absent c \/ u == 0 \/ leans c u -> req Qeq (tz_spring u c kd) (tz_spring 0 c Initial).
Proof.
  intros c u kd [A|[E|P]]; unfold tz_spring.
  - assert (X : qsum (map (fun p => Qabs (fst p)) c) == 0).
    { induction c as [|q c IH]; [reflexivity|]. cbn [map qsum]. rewrite IH by (intros q' I'; apply A; right; exact I'). rewrite (A q (or_introl eq_refl)). reflexivity. }
    apply Qeq_bool_iff in X. rewrite X. cbn. reflexivity.
  - rewrite (axial_rest c u kd E). apply req_refl_Q.
  - destruct (Qeq_bool _ 0); [cbn; reflexivity|]. apply leans_req, P.
Qed.
Lemma qz_gentle : forall c u kd, idle c \/ u == 0 \/ presses c u -> req Qeq (base_axial_spring u c kd) (base_axial_spring 0 c Initial).
Proof.
  intros c u kd [A|[E|P]]; unfold base_axial_spring.
  - assert (X : qsum (map (fun p => Qabs (snd p)) c) == 0).
    { induction c as [|q c IH]; [reflexivity|]. cbn [map qsum]. rewrite IH by (intros q' I'; apply A; right; exact I'). rewrite (A q (or_introl eq_refl)). reflexivity. }
    apply Qeq_bool_iff in X. rewrite X. cbn. reflexivity.
  - rewrite (axial_rest c u kd E). apply req_refl_Q.
  - destruct (Qeq_bool _ 0); [cbn; reflexivity|]. apply presses_req, P.
Qed.

(** *** Moment springs whose curves do not depend on the lateral resistance *)
Lemma interp_flat : forall c x v, c <> [] -> (forall q, In q c -> snd q == v) -> interp x c == v.
Proof.
  induction c as [|[x0 y0] [|[x1 y1] t] IH]; intros x v NE H; [contradiction|exact (H _ (or_introl eq_refl))|].
  rewrite interp_cons. destruct (Qltb x x1).
  - pose proof (H (x0, y0) (or_introl eq_refl)) as A. pose proof (H (x1, y1) (or_intror (or_introl eq_refl))) as B. cbn [snd] in A, B.
    destruct (Qltb x x0); [exact A|]. rewrite A, B. unfold Qdiv, Qminus. ring.
  - apply IH; [discriminate|]. intros q I'. apply H. right. exact I'.
Qed.
Definition same_points (row : curve) : Prop := forall q, In q row -> fst q == fst (pt row 0) /\ snd q == snd (pt row 0).
Definition absent_rows (rows : list curve) : Prop := forall row q, In row rows -> In q row -> fst q == 0.
Definition first_points (rows : list curve) : curve := map (fun row => pt row 0) rows.
Definition turns (pp : list Q) (rows : list curve) (u : Q) : Prop := pp <> [] /\ (forall row, In row rows -> length row = length pp /\ same_points row) /\
  (forall i j, (i <= j < length rows)%nat -> fst (pt (first_points rows) i) <= fst (pt (first_points rows) j)) /\ starts (first_points rows) u.

Lemma turns_curve : forall p pp rows u, turns pp rows u -> Forall2 qp (mt_curve p pp rows) (first_points rows).
Proof.
  intros p pp rows u (NE & CR & _ & [O1 O2] & LT). unfold mt_curve. destruct rows as [|r0 rs]; [cbn in LT; pose proof (Qabs_nonneg u); lra|].
  cbn [first_points map tl] in *. unfold pt in O1, O2 at 1. cbn [nth] in O1, O2. constructor; [split; cbn [fst snd]; symmetry; assumption|].
  assert (CR' : forall row, In row rs -> length row = length pp /\ same_points row) by (intros row I'; apply CR; right; exact I').
  clear CR O1 O2 LT r0. induction rs as [|row rs IH]; cbn [map]; constructor; [|apply IH; intros row' I'; apply CR'; right; exact I'].
  destruct (CR' row (or_introl eq_refl)) as [LR SP].
  assert (NEC : forall f : Q * Q -> Q, combine pp (map f row) <> []).
  { intros f W. apply (f_equal (@length _)) in W. rewrite combine_length, map_length, LR, Nat.min_id in W. destruct pp; [contradiction|discriminate]. }
  split; cbn [fst snd]; apply interp_flat; try apply NEC; intros [a b] IN; apply in_combine_r in IN; apply in_map_iff in IN; destruct IN as (x & <- & IN); apply (SP x IN).
Qed.
Lemma turns_value : forall pp rows u d, turns pp rows u -> 0 <= d -> d <= Qabs u -> moment_at (first_points rows) d == snd (pt (first_points rows) 1) / fst (pt (first_points rows) 1) * d.
Proof.
  intros pp rows u d (NE & CR & UP & ST) D0 D1. pose proof (starts_value _ u d ST D0 D1) as V. destruct ST as [[O1 O2] LT]. assert (LF : length (first_points rows) = length rows) by apply map_length.
  set (c := first_points rows) in *. clearbody c. destruct c as [|a [|b t]]; [cbn in LT; pose proof (Qabs_nonneg u); lra|cbn in LT; pose proof (Qabs_nonneg u); lra|].
  assert (QM : fst b <= qmax (map fst (a :: b :: t))) by (apply qmax_ge; right; left; reflexivity). unfold resistance in V. change (pt (a :: b :: t) 1) with b in *.
  destruct (Qltb (qmax (map fst (a :: b :: t))) d) eqn:T; [apply Qltb_true in T; lra|]. unfold moment_at.
  destruct (Qltb (fst (last_pt (a :: b :: t))) d) eqn:T2; [|exact V]. apply Qltb_true in T2. exfalso.
  assert (E : last_pt (a :: b :: t) = pt (a :: b :: t) (length rows - 1)). { unfold last_pt, pt. rewrite last_point by discriminate. rewrite LF. reflexivity. }
  rewrite E in T2. pose proof (UP 1%nat (length rows - 1)%nat) as X. cbn [length] in LF. specialize (X ltac:(lia)). change (pt (a :: b :: t) 1) with b in X. lra.
Qed.
Lemma turns_spring : forall pp rows u p kd, turns pp rows u -> Qeq_bool (qsum (map (fun col => fst (pt col 0)) rows)) 0 = false ->
  exists k, mt_spring u p pp rows kd = Ok k /\ k == Qabs (snd (pt (first_points rows) 1) / fst (pt (first_points rows) 1)).
Proof.
  intros pp rows u p kd TU NZ. unfold mt_spring. rewrite NZ. pose proof (mt_terms_comp kd _ _ (Qabs u) (Qabs u) ltac:(reflexivity) (turns_curve p pp rows u TU)) as TC.
  destruct (mt_terms kd (Qabs u) (SpringModel.mt_curve p pp rows)) as [[dt m0] m1].
  pose proof (fun d => turns_value pp rows u d TU) as V. destruct TU as (_ & _ & _ & [O1 O2] & LT). set (c := first_points rows) in *. set (k := snd (pt c 1) / fst (pt c 1)) in *. pose proof (Qabs_nonneg u) as NN.
  assert (P1 : snd (pt c 1) == k * fst (pt c 1)) by (unfold k; field; lra).
  assert (G : exists dt' m0' m1', mt_terms kd (Qabs u) c = (dt', m0', m1') /\ 0 < dt' /\ m1' - m0' == k * dt').
  { unfold mt_terms. destruct (_ || Qeq_bool (Qabs u) 0)%bool eqn:ZZ.
    - do 3 eexists. split; [reflexivity|]. split; [lra|]. rewrite P1, O1, O2. ring.
    - apply orb_false_elim in ZZ. destruct ZZ as [_ ZZ]. assert (NZ' : ~ Qabs u == 0) by (intros W'; apply Qeq_bool_iff in W'; congruence).
      assert (AP : 0 < Qabs u) by (destruct (Qlt_le_dec 0 (Qabs u)); [assumption|exfalso; apply NZ'; lra]).
      destruct kd; cbv zeta; do 3 eexists; (split; [reflexivity|]).
      + split; [exact AP|]. rewrite V by lra. rewrite O2. ring.
      + split; [exact AP|]. rewrite V by lra. rewrite O2. ring.
      + assert (D : 0 < Qmin ((1#100) * fst (pt c 1)) (Qabs u) /\ Qmin ((1#100) * fst (pt c 1)) (Qabs u) <= Qabs u).
        { split; [|apply Q.le_min_r]. destruct (Q.min_spec ((1#100) * fst (pt c 1)) (Qabs u)) as [[_ Em]|[_ Em]]; rewrite Em; lra. }
        destruct D as [D1 D2]. generalize dependent (Qmin ((1#100) * fst (pt c 1)) (Qabs u)). intros dx D1 D2. split; [exact D1|]. rewrite !V by lra. ring. }
  destruct G as (dt' & m0' & m1' & G & DP & EQ). rewrite G in TC. destruct TC as (T1 & T2 & T3). cbn [fst snd] in T1, T2, T3.
  destruct (Qeq_bool dt 0) eqn:Z; [apply Qeq_bool_iff in Z; lra|]. eexists; split; [reflexivity|].
  assert (X : m1 - m0 == k * dt) by (rewrite T1, T2, T3; exact EQ). rewrite X, Qabs_Qmult, (Qabs_pos dt) by lra. field. lra.
Qed.
Lemma turns_rest : forall pp rows u, turns pp rows u -> turns pp rows 0.
Proof. intros pp rows u (A & B & C & D). repeat (split; [assumption|]). exact (starts_rest _ u D). Qed.
Lemma mt_gentle : forall pp rows u p p' kd kd', absent_rows rows \/ turns pp rows u -> req Qeq (mt_spring u p pp rows kd) (mt_spring 0 p' pp rows kd').
Proof.
  intros pp rows u p p' kd kd' [A|T].
  - assert (X : qsum (map (fun col => fst (pt col 0)) rows) == 0).
    { induction rows as [|r rs IH]; [reflexivity|]. cbn [map qsum]. rewrite IH by (intros row q I1 I2; apply (A row q); [right; exact I1|exact I2]).
      destruct r as [|q r]; [reflexivity|]. unfold pt. cbn [nth]. rewrite (A (q :: r) q (or_introl eq_refl) (or_introl eq_refl)). reflexivity. }
    apply Qeq_bool_iff in X. unfold mt_spring. rewrite X. cbn. reflexivity.
  - destruct (Qeq_bool (qsum (map (fun col => fst (pt col 0)) rows)) 0) eqn:Z; [unfold mt_spring; rewrite Z; cbn; reflexivity|].
    apply (elastic_req _ _ (Qabs (snd (pt (first_points rows) 1) / fst (pt (first_points rows) 1)))); apply turns_spring; [exact T|exact Z|eapply turns_rest; exact T|exact Z].
Qed.
Lemma req_sym_trans : forall a b c : res Q, req Qeq a b -> req Qeq c b -> req Qeq a c.
Proof. intros [x|e] [y|e'] [z|e'']; cbn; intros A B; try contradiction; try (rewrite A, B; reflexivity); congruence. Qed.

(** ** Matrices *)
Definition gentle (M : wmodel) (u : vec) : Prop := 
  (forall mt, w_mt M = Some mt -> exists py, w_py M = Some py /\ forall e j a, (e < w_n M)%nat -> (j < 2)%nat -> a = e \/ a = S e -> absent_rows (mt e j) \/ turns (map snd (py e j)) (mt e j) (u (3 * a + 2)%nat)) /\
  (forall py, w_py M = Some py -> forall e j a, (e < w_n M)%nat -> (j < 2)%nat -> a = e \/ a = S e -> absent (py e j) \/ starts (py e j) (u (3 * a + 1)%nat)) /\
  (forall tz, w_tz M = Some tz -> forall e j a, (e < w_n M)%nat -> (j < 2)%nat -> a = e \/ a = S e -> absent (tz e j) \/ u (3 * a)%nat == 0 \/ leans (tz e j) (u (3 * a)%nat)) /\
  (forall c, w_hb M = Some c -> idle c \/ starts c (u (3 * w_n M + 1)%nat)) /\
  (forall c, w_mb M = Some c -> idle c \/ starts c (u (3 * w_n M + 2)%nat)) /\
  (forall c, w_qz M = Some c -> idle c \/ u (3 * w_n M)%nat == 0 \/ presses c (u (3 * w_n M)%nat)).

Lemma build_gentle : forall M u kd, gentle M u -> req same_all (build M u kd) (build M zero Initial).
Proof.
  intros M u kd (GR & GP & GT & GH & GM & GQ). unfold build.
  assert (S1 : (size M - 1 = 3 * w_n M + 2)%nat) by (unfold size; lia). assert (S2 : (size M - 2 = 3 * w_n M + 1)%nat) by (unfold size; lia).
  assert (S3 : (size M - 3 = 3 * w_n M)%nat) by (unfold size; lia).
  eapply req_bind.
  { instantiate (1 := elems_eq). unfold soil_elements. apply (req_bind _ _ elems_eq).
    - unfold opt_res. destruct (w_py M) as [py|] eqn:P; [|intros e i j; reflexivity]. eapply req_bind.
      + apply collect_comp. intros e He. apply both_comp. intros j Hj. rewrite !spring_disp_node by assumption. apply py_gentle. apply (GP py eq_refl e j _ He Hj), node_of; assumption.
      + intros l l' HL e. destruct (kpair_comp l l' e HL). apply madd_comp; [intros i j; reflexivity|apply elem_py_comp; auto].
    - intros k1 k1' H1. unfold opt_res. apply (req_bind _ _ elems_eq).
      + destruct (w_tz M) as [tz|] eqn:Z; [|exact H1]. eapply req_bind.
        * apply collect_comp. intros e He. apply both_comp. intros j Hj. rewrite !spring_disp_node by assumption. rewrite !Nat.add_0_r.
          apply tz_gentle. apply (GT tz eq_refl e j _ He Hj), node_of; assumption.
        * intros l l' HL e. destruct (kpair_comp l l' e HL). apply madd_comp; [apply H1|apply elem_tz_comp; auto].
      + intros k2 k2' H2. destruct (w_mt M) as [mt|]; [|exact H2]. destruct (GR mt eq_refl) as (py & P & RR). rewrite P in GP |- *. eapply req_bind.
        * apply collect_comp. intros e He. apply both_comp. intros j Hj. apply (req_bind _ _ Qeq).
          -- rewrite !spring_disp_node by assumption. pose proof (GP py eq_refl e j _ He Hj (node_of _ e j He Hj)) as A. eapply req_sym_trans; [apply py_gentle; exact A|].
             apply py_gentle. destruct A as [A|A]; [left; exact A|right; eapply starts_rest; exact A].
          -- intros s1 s2 _. rewrite !(spring_disp_node _ _ 2) by assumption. apply mt_gentle. apply (RR e j _ He Hj), node_of; assumption.
        * intros l l' HL e. destruct (kpair_comp l l' e HL). apply madd_comp; [apply H2|apply mt_matrix_comp; auto]. }
  intros a b E. eapply req_bind; [apply add_base_elastic; [lia| |apply jit_build_comp, E]|].
  { intros c C. rewrite S2. apply base_gentle, GH, C. }
  intros K1 K1' E1. eapply req_bind; [apply add_base_elastic; [lia| |exact E1]|].
  { intros c C. rewrite S1. apply base_gentle, GM, C. }
  intros K2 K2' E2. apply add_base_elastic; [lia| |exact E2].
  intros c C. rewrite S3. apply qz_gentle, GQ, C.
Qed.

Lemma gentle_same : forall M u kd K, gentle M u -> build M zero Initial = Ok K -> exists K', build M u kd = Ok K' /\ same_all K' K.
Proof. intros M u kd K G B. pose proof (build_gentle M u kd G) as H. rewrite B in H. destruct (build M u kd) as [K'|]; [|contradiction H]. exists K'. split; [reflexivity|exact H]. Qed.

Lemma gentle_comp : forall M u v, veq (size M) v u -> gentle M u -> gentle M v.
Proof.
  intros M u v E (GR & GP & GT & GH & GM & GQ). unfold size in E.
  assert (SC : forall c x y, y == x -> starts c x -> starts c y) by (intros c x y XY [A B]; split; [exact A|rewrite XY; exact B]).
  split.
  { intros mt P. destruct (GR mt P) as (py & PY & RR). exists py. split; [exact PY|]. intros e j a He Hj Ha. destruct (RR e j a He Hj Ha) as [A|(A & B & C & S0)]; [left; exact A|right]. repeat (split; [assumption|]). apply (SC _ (u (3 * a + 2)%nat)); [apply E; destruct Ha; lia|exact S0]. }
  split.
  { intros py P e j a He Hj Ha. destruct (GP py P e j a He Hj Ha) as [A|S0]; [left; exact A|right]. apply (SC _ (u (3 * a + 1)%nat)); [apply E; destruct Ha; lia|exact S0]. }
  assert (PC : forall c x y, y == x -> presses c x -> presses c y) by (intros c x y XY (A1 & A2 & A3 & A4 & A5 & A6); repeat (split; [assumption|]); split; lra).
  split.
  { assert (LC : forall c x y, y == x -> leans c x -> leans c y).
    { intros c x y XY [P|(A1 & A2 & A3 & A4 & A5 & A6 & A7)]; [left; apply (PC c x y XY P)|right]. repeat (split; [assumption|]). split; lra. }
    intros tz T e j a He Hj Ha. assert (EA : v (3 * a)%nat == u (3 * a)%nat) by (apply E; destruct Ha; lia). destruct (GT tz T e j a He Hj Ha) as [A|[Z|P]]; [left; exact A|right; left; lra|right; right; apply (LC _ _ _ EA P)]. }
  split.
  { intros c C. destruct (GH c C) as [A|S0]; [left; exact A|right]. apply (SC _ _ _ (E (3 * w_n M + 1)%nat ltac:(lia)) S0). }
  split.
  { intros c C. destruct (GM c C) as [A|S0]; [left; exact A|right]. apply (SC _ _ _ (E (3 * w_n M + 2)%nat ltac:(lia)) S0). }
  intros c C. assert (EA : v (3 * w_n M)%nat == u (3 * w_n M)%nat) by (apply E; lia). destruct (GQ c C) as [A|[Z|P]]; [left; exact A|right; left; lra|right; right; apply (PC _ _ _ EA P)].
Qed.

(** Two passes are enough, and find the state of the linear structure. *)
Lemma gentle_analysis : forall solve M F U0 r K V R max_iter, solver_ok solve -> build M zero Initial = Ok K -> stable (size M) K (supports_of r U0) ->
  linear_state (size M) K F U0 (supports_of r U0) V R -> gentle M V -> (exists i, (i < size M)%nat /\ ~ F i == 2 * R i) -> (1 <= max_iter)%nat ->
  exists o v R', winkler_model solve M F U0 r max_iter = Ok o /\ o_iter o = 2%nat /\ o_d o = Some v /\ veq (size M) v V /\ o_Q o = Some R' /\ veq (size M) R' R.
Proof.
  intros solve M F U0 r K V R m SO B ST (L1 & L2 & L3) EL (i & Hi & NZ) Hm.
  destruct (proj2 (solve_equations_succeeds solve (size M) K F U0 (supports_of r U0) SO) ST) as [[U1 R1] S1].
  destruct (solve_equations_sound solve (size M) K F U0 (supports_of r U0) U1 R1 SO S1) as (E1 & E2 & E3).
  destruct (solution_unique (size M) K F (supports_of r U0) U1 R1 V R ST) as [UV RV]; auto.
  { intros a Ha Hs. rewrite (E3 a Ha Hs), (L3 a Ha Hs). reflexivity. }
  pose proof (gentle_comp M V U1 UV EL) as EL1.
  destruct (gentle_same M U1 Secant K EL1 B) as (Ks & BS & SS). destruct (gentle_same M U1 Tangent K EL1 B) as (Kt & BT & SS').
  destruct (model_linear solve M F U0 r K U1 R1 Ks Kt SO B S1 BS ltac:(intros a b _ _; apply SS) BT ltac:(intros a b _ _; apply SS') ltac:(exists i; split; [exact Hi|]; rewrite (RV i Hi); exact NZ) m Hm) as (o & v & R' & A1 & A2 & A3 & A4 & A5 & A6 & _).
  exists o, v, R'. split; [exact A1|]. split; [exact A2|]. split; [exact A3|]. split; [intros a Ha; rewrite (A4 a Ha); apply UV, Ha|].
  split; [exact A5|]. intros a Ha. rewrite (A6 a Ha). apply RV, Ha.
Qed.
