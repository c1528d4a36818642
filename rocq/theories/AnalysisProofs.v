(** Analysis of a pile in soil. *)
From Coq Require Import List Bool Arith ZArith QArith Qabs Qminmax Reals Qreals Permutation Lia Lqa Lra.
From Verif Require Import Base LinAlg BCModel PileModel PileSpec PileProofs PileProps MeshModel MeshSpec ConicSpec PisaModel StressModel StressSpec StressProofs StressProps ShaftProofs GridProofs BeamModel SolveModel SpringModel WinklerModel
  CreateModel CreateProofs CreateProps WholeModel WholeSpec WholeProofs AxialModel AxialSpec AxialProofs AxialProps LateralModel LateralSpec LateralProofs LateralProps MomentProofs StartProofs ResistProofs
  CapacityModel CapacitySpec CapacityProofs FullModel FullSpec FullProofs CallProofs SiteProofs SpringSpec SpringProofs SolveSpec SoilProofs WinklerProofs BalanceSpec BalanceProofs BalanceProps WholeProps WinklerProps SolveProofs BCSpec BCProofs.
Import ListNotations SpringModel.
Local Open Scope Q_scope.

(** ** Stiffness of usable springs *)
Lemma qsum_zero : forall l, (forall v, In v l -> v == 0) -> qsum l == 0.
Proof. induction l as [|a l IH]; intros H; [reflexivity|]. cbn [qsum]. rewrite (H a (or_introl eq_refl)), IH by (intros; apply H; right; auto). reflexivity. Qed.

Lemma ratio_ok : forall dx p0 p1, ~ dx == 0 -> exists s, ratio (dx, p0, p1) = Ok s.
Proof. intros dx p0 p1 H. unfold ratio. destruct (Qeq_bool dx 0) eqn:E; [apply Qeq_bool_iff in E; contradiction|]. eauto. Qed.

Lemma lateral_ratio : forall k d c, 0 <= d -> fst (xy c 0) == 0 -> 0 < fst (xy c 1) -> exists s, ratio (lateral_terms k d c) = Ok s.
Proof.
  intros k d c D Z P. unfold lateral_terms. destruct ((match k with Initial => true | _ => false end) || Qeq_bool d 0) eqn:E.
  - apply ratio_ok. unfold pt. rewrite Z. Lqa.lra.
  - apply orb_false_iff in E. destruct E as [E1 E2]. apply Qeq_bool_neq in E2. assert (0 < d) by (destruct (Qlt_le_dec 0 d); auto; exfalso; apply E2; Lqa.lra).
    destruct k; [discriminate| |]; apply ratio_ok; [Lqa.lra|]. destruct (Q.min_dec (1 # 2000) d) as [X|X]; rewrite X; Lqa.lra.
Qed.
Lemma usable_py_ok : forall u c k, usable_py c -> exists s, py_spring u c k = Ok s.
Proof.
  intros u c k [(L & X0 & _) [H|H]]; unfold py_spring.
  - assert (E : Qeq_bool (qsum (map fst c)) 0 = true). { apply Qeq_bool_iff, qsum_zero. intros v I. apply in_map_iff in I. destruct I as (q & <- & I). auto. } rewrite E. eauto.
  - destruct (Qeq_bool _ 0); [eauto|]. apply lateral_ratio; auto. apply Qabs_nonneg.
Qed.
Lemma usable_base_ok : forall u c k, usable_base c -> exists s, base_spring u c k = Ok s.
Proof.
  intros u c k [(L & X0 & _) [H|H]]; unfold base_spring.
  - assert (E : Qeq_bool (qsum (map snd c)) 0 = true). { apply Qeq_bool_iff, qsum_zero. intros v I. apply in_map_iff in I. destruct I as (q & <- & I). auto. } rewrite E. eauto.
  - destruct (Qeq_bool _ 0); [eauto|]. apply lateral_ratio; auto. apply Qabs_nonneg.
Qed.
Lemma axial_ratio : forall k d c, length c = 15%nat -> fst (xy c 7) == 0 -> fst (xy c 8) < 0 -> exists s, ratio (axial_terms k d c) = Ok s.
Proof.
  intros k d c L Z P. unfold axial_terms. rewrite L. change (zero_index 15) with 7%nat. destruct ((match k with Initial => true | _ => false end) || Qeq_bool d 0) eqn:E.
  - apply ratio_ok. unfold pt. rewrite Z. Lqa.lra.
  - apply orb_false_iff in E. destruct E as [E1 E2]. apply Qeq_bool_neq in E2.
    destruct k; [discriminate| |]; apply ratio_ok; [auto|]. assert (0 < Qabs d).
    { pose proof (Qabs_nonneg d). destruct (Qlt_le_dec 0 (Qabs d)); auto. exfalso. apply E2. pose proof (Qle_Qabs d). pose proof (Qle_Qabs (- d)). rewrite Qabs_opp in *. Lqa.lra. }
    destruct (Q.min_dec (1 # 2000) (Qabs d)) as [X|X]; rewrite X; Lqa.lra.
Qed.
Lemma usable_tz_ok : forall u c k, usable_tz c -> exists s, tz_spring u c k = Ok s.
Proof.
  intros u c k [(L & X0 & _) [H|H]]; unfold tz_spring.
  - assert (E : Qeq_bool (qsum (map (fun p => Qabs (fst p)) c)) 0 = true). { apply Qeq_bool_iff, qsum_zero. intros v I. apply in_map_iff in I. destruct I as (q & <- & I). rewrite (H q I). reflexivity. } rewrite E. eauto.
  - destruct (Qeq_bool _ 0); [eauto|]. destruct H as [H _]. apply axial_ratio; auto.
Qed.
Lemma usable_qz_ok : forall u c k, usable_qz c -> exists s, base_axial_spring u c k = Ok s.
Proof.
  intros u c k [(L & X0 & _) [H|H]]; unfold base_axial_spring.
  - assert (E : Qeq_bool (qsum (map (fun p => Qabs (snd p)) c)) 0 = true). { apply Qeq_bool_iff, qsum_zero. intros v I. apply in_map_iff in I. destruct I as (q & <- & I). rewrite (H q I). reflexivity. } rewrite E. eauto.
  - destruct (Qeq_bool _ 0); [eauto|]. destruct H as [H _]. apply axial_ratio; auto.
Qed.
Lemma usable_mt_ok : forall u p pp cols k, length pp = 15%nat -> usable_mt cols -> exists s, mt_spring u p pp cols k = Ok s.
Proof.
  intros u p pp cols k LP (L & C & _ & _ & H). unfold mt_spring. destruct H as [H|H].
  - assert (E : Qeq_bool (qsum (map (fun col => fst (pt col 0)) cols)) 0 = true).
    { apply Qeq_bool_iff, qsum_zero. intros v I. apply in_map_iff in I. destruct I as (col & <- & I). apply (H col _ I). unfold pt. apply nth_In. rewrite (proj1 (C col I)). lia. } rewrite E. eauto.
  - destruct (Qeq_bool _ 0); [eauto|]. set (c := mt_curve p pp cols).
    assert (P : 0 < fst (pt c 1)).
    { destruct cols as [|c0 [|c1 t]]; [discriminate L|discriminate L|]. unfold c, mt_curve, pt. cbn [tl map nth fst]. cbn [nth] in H.
      assert (L1 : length c1 = 15%nat) by (apply (C c1); right; left; auto). apply interp_strictly_above.
      - intros Z. apply (f_equal (@length _)) in Z. rewrite combine_length, map_length, LP, L1 in Z. discriminate Z.
      - intros [a b] I. cbn [snd]. apply in_combine_r in I. apply in_map_iff in I. destruct I as (q & <- & I). auto. }
    assert (T : ~ fst (fst (mt_terms k (Qabs u) c)) == 0).
    { unfold mt_terms. destruct ((match k with Initial => true | _ => false end) || Qeq_bool (Qabs u) 0) eqn:E.
      - cbn [fst]. change (fst (pt c 0)) with 0. Lqa.lra.
      - apply orb_false_iff in E. destruct E as [E1 E2]. apply Qeq_bool_neq in E2. assert (0 < Qabs u) by (pose proof (Qabs_nonneg u); destruct (Qlt_le_dec 0 (Qabs u)); auto; exfalso; apply E2; Lqa.lra).
        destruct k; [discriminate| |]; cbn [fst]; [Lqa.lra|]. destruct (Q.min_dec ((1 # 100) * fst (pt c 1)) (Qabs u)) as [X|X]; rewrite X; Lqa.lra. }
    destruct (mt_terms k (Qabs u) c) as [[dt m0] m1]. cbn [fst] in T. destruct (Qeq_bool dt 0) eqn:E; [apply Qeq_bool_iff in E; contradiction|]. eauto.
Qed.

(** ** The stiffness matrix *)
Lemma collect_done : forall A n (f : nat -> res A), (forall e, (e < n)%nat -> exists a, f e = Ok a) -> exists l, collect n f = Ok l.
Proof.
  intros A n f. induction n as [|n IH]; intros H; [exists []; reflexivity|]. cbn [collect]. destruct IH as (l & ->); [intros; apply H; lia|]. destruct (H n ltac:(lia)) as (a & ->). cbn [bind]. eauto.
Qed.
Lemma both_ok : forall A (f : nat -> res A), (forall j, exists a, f j = Ok a) -> exists a, SpringModel.both f = Ok a.
Proof. intros A f H. unfold SpringModel.both. destruct (H 0%nat) as (a & ->). destruct (H 1%nat) as (b & ->). cbn [bind]. eauto. Qed.
Lemma opt_ok : forall A B (o : option A) (d : B) f, (forall a, o = Some a -> exists b, f a = Ok b) -> exists b, opt_res o d f = Ok b.
Proof. intros A B [a|] d f H; cbn [opt_res]; eauto. Qed.

Record usable_model (M : wmodel) : Prop := {
  um_py : forall py e j, w_py M = Some py -> usable_py (py e j);
  um_tz : forall tz e j, w_tz M = Some tz -> usable_tz (tz e j);
  um_mt : forall mt e j, w_mt M = Some mt -> usable_mt (mt e j);
  um_hb : forall c, w_hb M = Some c -> usable_base c;
  um_mb : forall c, w_mb M = Some c -> usable_base c;
  um_qz : forall c, w_qz M = Some c -> usable_qz c;
  um_pair : w_mt M <> None -> w_py M <> None }.

Lemma usable_builds : forall M, usable_model M -> forall u k, exists K, build M u k = Ok K.
Proof.
  intros M [P1 P2 P3 P4 P5 P6 PP] u k. unfold build, soil_elements.
  destruct (opt_ok _ _ (w_py M) (w_mech M) (fun py => bind (py_stiffness M py u k) (fun l => Ok (fun e => madd (w_mech M e) (elem_py (w_L M e) (fst (kpair l e)) (snd (kpair l e))))))) as (k1 & ->).
  { intros py E. unfold py_stiffness. destruct (collect_done _ (w_n M) (fun e => SpringModel.both (fun j => py_spring (spring_disp (w_n M) u 1 e j) (py e j) k))) as (l & ->); [|cbn [bind]; eauto].
    intros e _. apply both_ok. intros j. apply usable_py_ok. auto. }
  cbn [bind]. match goal with |- context [opt_res (w_tz M) ?d ?f] => destruct (opt_ok _ _ (w_tz M) d f) as (k2 & ->) end.
  { intros tz E. unfold tz_stiffness. destruct (collect_done _ (w_n M) (fun e => SpringModel.both (fun j => tz_spring (spring_disp (w_n M) u 0 e j) (tz e j) k))) as (l & ->); [|cbn [bind]; eauto].
    intros e _. apply both_ok. intros j. apply usable_tz_ok. auto. }
  cbn [bind]. match goal with |- context [opt_res (w_mt M) ?d ?f] => destruct (opt_ok _ _ (w_mt M) d f) as (k3 & ->) end.
  { intros mt E. destruct (w_py M) as [py|] eqn:EP; [|exfalso; apply PP; congruence]. unfold mt_stiffness.
    match goal with |- context [collect (w_n M) ?f] => destruct (collect_done _ (w_n M) f) as (l & ->) end; [|cbn [bind]; eauto].
    intros e _. apply both_ok. intros j. destruct (usable_py_ok (spring_disp (w_n M) u 1 e j) (py e j) Secant) as (s & ->); [auto|]. cbn [bind]. apply usable_mt_ok; [|auto].
    rewrite map_length. apply (P1 py e j eq_refl). }
  cbn [bind]. unfold add_base.
  match goal with |- context [opt_res (w_hb M) ?d ?f] => destruct (opt_ok _ _ (w_hb M) d f) as (K1 & ->) end.
  { intros c E. destruct (usable_base_ok (u (size M - 2)%nat) c k (P4 c E)) as (s & ->). cbn [bind]. eauto. }
  cbn [bind]. match goal with |- context [opt_res (w_mb M) ?d ?f] => destruct (opt_ok _ _ (w_mb M) d f) as (K2 & ->) end.
  { intros c E. destruct (usable_base_ok (u (size M - 1)%nat) c k (P5 c E)) as (s & ->). cbn [bind]. eauto. }
  cbn [bind]. apply opt_ok. intros c E. destruct (usable_qz_ok (u (size M - 3)%nat) c k (P6 c E)) as (s & ->). cbn [bind]. eauto.
Qed.

(** ** The iteration *)
Lemma loop_total : forall solve n bld F U0 sup, (forall u k, exists K, bld u k = Ok K) ->
  (forall u K, bld u Secant = Ok K -> solve_equations solve n K F U0 sup <> None) ->
  forall fuel iter d U K Rg last, exists r, loop solve n bld F U0 sup fuel iter d U K Rg last = Ok r.
Proof.
  intros solve n bld F U0 sup B S0. induction fuel as [|f IH]; intros iter d U K Rg last; [cbn; eauto|]. cbn [loop].
  destruct (solve_equations solve n K Rg U sup) as [[u R]|]; [|eauto]. cbv zeta. set (d' := fun i => d i + u i).
  destruct (B d' Secant) as (Ks & EK). rewrite EK. cbn [bind]. destruct (_ && _); [|].
  - destruct (solve_equations solve n Ks F U0 sup) as [[u' R']|] eqn:E; [eauto|]. exfalso. exact (S0 d' Ks EK E).
  - destruct (Nat.eqb (S iter) 100); [eauto|]. destruct (B d' Tangent) as (Kt & ->). cbn [bind]. apply IH.
Qed.
Lemma loop_errors : forall solve n bld F U0 sup, (forall u k, exists K, bld u k = Ok K) ->
  forall fuel iter d U K Rg last e, loop solve n bld F U0 sup fuel iter d U K Rg last = Err e -> e = LinAlgError.
Proof.
  intros solve n bld F U0 sup B. induction fuel as [|f IH]; intros iter d U K Rg last e; [discriminate|]. cbn [loop].
  destruct (solve_equations solve n K Rg U sup) as [[u R]|]; [|discriminate]. cbv zeta. set (d' := fun i => d i + u i).
  destruct (B d' Secant) as (Ks & EK). rewrite EK. cbn [bind]. destruct (_ && _); [|].
  - destruct (solve_equations solve n Ks F U0 sup) as [[u' R']|] eqn:E; [discriminate|]. congruence.
  - destruct (Nat.eqb (S iter) 100); [discriminate|]. destruct (B d' Tangent) as (Kt & ->). cbn [bind]. apply IH.
Qed.


Lemma usable_stiffness : forall o p m ks cs g, usable g -> (on_mt o = true -> on_py o = true) -> usable_model (stiffness_model o p m ks cs g).
Proof.
  intros o p m ks cs g (P1 & P2 & P3 & P4 & P5 & P6) PP. unfold stiffness_model, soil_model, when_on. constructor; cbn [w_py w_tz w_mt w_hb w_mb w_qz].
  - intros py e j E. destruct (on_py o); [injection E as <-; auto|discriminate].
  - intros py e j E. destruct (on_tz o); [injection E as <-; auto|discriminate].
  - intros py e j E. destruct (on_mt o); [injection E as <-; auto|discriminate].
  - intros py E. destruct (on_hb o); [injection E as <-; auto|discriminate].
  - intros py E. destruct (on_mb o); [injection E as <-; auto|discriminate].
  - intros py E. destruct (on_qz o); [injection E as <-; auto|discriminate].
  - destruct (on_mt o); [|congruence]. rewrite PP by reflexivity. discriminate.
Qed.

(** ** Springs that resist every displacement *)
Lemma interp_positive : forall t x0 y0 d, (forall q, In q t -> 0 < snd q) -> t <> [] -> 0 <= y0 -> x0 < d -> 0 < interp d ((x0, y0) :: t).
Proof.
  intros t x0 y0 d H NE Y X. destruct t as [|[x1 y1] t]; [contradiction|]. rewrite interp_cons.
  destruct (Qltb d x1) eqn:E1; [|apply interp_strictly_above; [discriminate|auto]]. apply Qltb_true in E1.
  destruct (Qltb d x0) eqn:E0; [apply Qltb_true in E0; Lqa.lra|]. pose proof (H (x1, y1) (or_introl eq_refl)) as P. cbn [snd] in P.
  assert (W : 0 < (d - x0) / (x1 - x0)) by (apply Qlt_shift_div_l; Lqa.lra).
  assert (W1 : (d - x0) / (x1 - x0) < 1) by (apply Qlt_shift_div_r; Lqa.lra).
  assert (Z : y0 + (y1 - y0) / (x1 - x0) * (d - x0) == y0 * (1 - (d - x0) / (x1 - x0)) + y1 * ((d - x0) / (x1 - x0))) by (field; Lqa.lra).
  rewrite Z. assert (0 <= y0 * (1 - (d - x0) / (x1 - x0))) by (apply Qmult_le_0_compat; Lqa.lra).
  assert (0 < y1 * ((d - x0) / (x1 - x0))) by (apply Qmult_lt_0_compat; auto). Lqa.lra.
Qed.
Lemma interp_skip : forall t d x1 y1 r, (forall q, In q t -> fst q <= d) -> x1 <= d -> interp d (t ++ (x1, y1) :: r) = interp d ((x1, y1) :: r).
Proof.
  induction t as [|[x0 y0] t IH]; intros d x1 y1 r H X; [reflexivity|]. rewrite <- (IH d x1 y1 r) by (auto; intros q I; apply H; right; auto).
  destruct t as [|[x2 y2] t].
  - cbn [app]. rewrite interp_cons. assert (E : Qltb d x1 = false) by (apply Qltb_false; auto). rewrite E. reflexivity.
  - change (((x0, y0) :: (x2, y2) :: t) ++ (x1, y1) :: r) with ((x0, y0) :: (x2, y2) :: (t ++ (x1, y1) :: r)). rewrite interp_cons.
    assert (E : Qltb d x2 = false) by (apply Qltb_false; apply (H (x2, y2)); right; left; auto). rewrite E. reflexivity.
Qed.
Lemma interp_negative : forall t d, (forall q, In q t -> snd q < 0) -> t <> [] -> forall x1 y1 r, y1 <= 0 -> d < x1 -> interp d (t ++ (x1, y1) :: r) < 0.
Proof.
  induction t as [|[x0 y0] t IH]; intros d H NE x1 y1 r Y X; [contradiction|].
  assert (P : y0 < 0) by (apply (H (x0, y0)); left; auto). destruct t as [|[x2 y2] t].
  - cbn [app]. rewrite interp_cons. assert (E : Qltb d x1 = true) by (apply Qltb_true; auto). rewrite E. destruct (Qltb d x0) eqn:E0; auto. apply Qltb_false in E0.
    assert (W : 0 <= (d - x0) / (x1 - x0)) by (apply Qle_shift_div_l; Lqa.lra).
    assert (W1 : (d - x0) / (x1 - x0) < 1) by (apply Qlt_shift_div_r; Lqa.lra).
    assert (Z : y0 + (y1 - y0) / (x1 - x0) * (d - x0) == - ((- y0) * (1 - (d - x0) / (x1 - x0)) + (- y1) * ((d - x0) / (x1 - x0)))) by (field; Lqa.lra).
    rewrite Z. assert (0 < (- y0) * (1 - (d - x0) / (x1 - x0))) by (apply Qmult_lt_0_compat; Lqa.lra).
    assert (0 <= (- y1) * ((d - x0) / (x1 - x0))) by (apply Qmult_le_0_compat; auto; Lqa.lra). Lqa.lra.
  - change (((x0, y0) :: (x2, y2) :: t) ++ (x1, y1) :: r) with ((x0, y0) :: (x2, y2) :: (t ++ (x1, y1) :: r)). rewrite interp_cons.
    assert (P2 : y2 < 0) by (apply (H (x2, y2)); right; left; auto). destruct (Qltb d x2) eqn:E2.
    + apply Qltb_true in E2. destruct (Qltb d x0) eqn:E0; auto. apply Qltb_false in E0.
      assert (W : 0 <= (d - x0) / (x2 - x0)) by (apply Qle_shift_div_l; Lqa.lra).
      assert (W1 : (d - x0) / (x2 - x0) < 1) by (apply Qlt_shift_div_r; Lqa.lra).
      assert (Z : y0 + (y2 - y0) / (x2 - x0) * (d - x0) == - ((- y0) * (1 - (d - x0) / (x2 - x0)) + (- y2) * ((d - x0) / (x2 - x0)))) by (field; Lqa.lra).
      rewrite Z. assert (0 < (- y0) * (1 - (d - x0) / (x2 - x0))) by (apply Qmult_lt_0_compat; Lqa.lra).
      assert (0 <= (- y2) * ((d - x0) / (x2 - x0))) by (apply Qmult_le_0_compat; auto; Lqa.lra). Lqa.lra.
    + apply (IH d); auto; [intros q I; apply H; right; auto|discriminate].
Qed.

Lemma ratio_pos : forall dx p0 p1, ~ dx == 0 -> ~ p0 == p1 -> exists s, ratio (dx, p0, p1) = Ok s /\ 0 < s.
Proof.
  intros dx p0 p1 H N. unfold ratio. destruct (Qeq_bool dx 0) eqn:E; [apply Qeq_bool_iff in E; contradiction|]. eexists. split; [reflexivity|].
  assert (Z : ~ (p1 - p0) / dx == 0). { intros Z. apply N. assert ((p1 - p0) / dx * dx == 0) by (rewrite Z; ring). rewrite Qmult_comm, Qmult_div_r in H0 by auto. Lqa.lra. }
  pose proof (Qabs_nonneg ((p1 - p0) / dx)). destruct (Qlt_le_dec 0 (Qabs ((p1 - p0) / dx))); auto. exfalso. apply Z.
  pose proof (Qle_Qabs ((p1 - p0) / dx)). pose proof (Qle_Qabs (- ((p1 - p0) / dx))). rewrite Qabs_opp in *. Lqa.lra.
Qed.

Lemma qsum_pos : forall l, (forall v, In v l -> 0 <= v) -> forall v, In v l -> 0 < v -> 0 < qsum l.
Proof.
  induction l as [|a l IH]; intros H v I P; [destruct I|]. cbn [qsum].
  assert (N : 0 <= qsum l). { clear - H. induction l as [|b l IH]; [apply Qle_refl|]. cbn [qsum]. pose proof (H b (or_intror (or_introl eq_refl))). assert (0 <= qsum l) by (apply IH; intros w [->|I]; apply H; [left|right; right]; auto). Lqa.lra. }
  pose proof (H a (or_introl eq_refl)). destruct I as [->|I]; [Lqa.lra|]. pose proof (IH (fun w J => H w (or_intror J)) v I P). Lqa.lra.
Qed.

Lemma last_point : forall (c : list (Q * Q)), last c (0, 0) = xy c (length c - 1).
Proof. induction c as [|a [|b t] IH]; [reflexivity|reflexivity|]. change (last (a :: b :: t) (0, 0)) with (last (b :: t) (0, 0)). rewrite IH. cbn [length Nat.sub nth]. rewrite Nat.sub_0_r. reflexivity. Qed.
Lemma resists_secant : forall u c, lateral_shape c -> resists c -> exists s, py_spring u c Secant = Ok s /\ 0 < s.
Proof.
  intros u c (L & X0 & Y0 & O & NN) (PX & PY). unfold py_spring.
  assert (NZ : Qeq_bool (qsum (map fst c)) 0 = false).
  { destruct (Qeq_bool _ 0) eqn:E; auto. apply Qeq_bool_iff in E. exfalso. assert (0 < qsum (map fst c)); [|Lqa.lra]. apply (qsum_pos _) with (v := fst (xy c 1)); auto.
    - intros v I. apply in_map_iff in I. destruct I as (q & <- & I). destruct (In_nth c q (0, 0) I) as (i & Hi & <-). apply Qle_trans with (fst (xy c 0)); [rewrite X0; apply Qle_refl|]. apply O. lia.
    - apply in_map. apply nth_In. lia. }
  rewrite NZ. unfold lateral_terms. cbn [orb]. destruct (Qeq_bool (Qabs u) 0) eqn:EU.
  - unfold pt. apply ratio_pos; [rewrite X0|rewrite Y0]; [|pose proof (PY 1%nat ltac:(lia))]; Lqa.lra.
  - apply Qeq_bool_neq in EU. assert (0 < Qabs u) by (pose proof (Qabs_nonneg u); destruct (Qlt_le_dec 0 (Qabs u)); auto; exfalso; apply EU; Lqa.lra).
    unfold pt. apply ratio_pos; [Lqa.lra|]. rewrite Y0. assert (0 < resistance c (Qabs u)); [|Lqa.lra]. unfold resistance. destruct (Qltb _ _).
    + unfold last_pt. rewrite (last_point c), L. apply PY. lia.
    + destruct c as [|[x0 y0] t]; [discriminate L|]. apply interp_positive.
      * intros q I. destruct (In_nth t q (0, 0) I) as (i & Hi & <-). apply (PY (S i)). cbn [length] in L. lia.
      * destruct t; [discriminate L|discriminate].
      * cbn in Y0. Lqa.lra.
      * cbn in X0. Lqa.lra.
Qed.

Lemma resists_axial_secant : forall u c, axial_shape c -> resists_axial c -> exists s, tz_spring u c Secant = Ok s /\ 0 < s.
Proof.
  intros u c (L & X0 & Y0 & O) (PX & PU & PD). unfold tz_spring.
  assert (NZ : Qeq_bool (qsum (map (fun p => Qabs (fst p)) c)) 0 = false).
  { destruct (Qeq_bool _ 0) eqn:E; auto. apply Qeq_bool_iff in E. exfalso. assert (0 < qsum (map (fun p => Qabs (fst p)) c)); [|Lqa.lra]. apply (qsum_pos _) with (v := Qabs (fst (xy c 8))); auto.
    - intros v I. apply in_map_iff in I. destruct I as (q & <- & I). apply Qabs_nonneg.
    - apply (in_map (fun p => Qabs (fst p))). apply nth_In. lia.
    - pose proof (Qle_Qabs (- fst (xy c 8))). rewrite Qabs_opp in *. Lqa.lra. }
  rewrite NZ. unfold axial_terms. rewrite L. change (zero_index 15) with 7%nat. cbn [orb]. destruct (Qeq_bool u 0) eqn:EU.
  - unfold pt. apply ratio_pos; [rewrite X0|rewrite Y0]; [|pose proof (PD 8%nat ltac:(lia))]; Lqa.lra.
  - apply Qeq_bool_neq in EU. unfold pt. apply ratio_pos; [auto|]. rewrite Y0.
    do 15 (destruct c as [|? c]; [discriminate L|]). destruct c; [|discriminate L]. cbn [nth] in *.
    assert (U0 := PU 0%nat ltac:(lia)). assert (U1 := PU 1%nat ltac:(lia)). assert (U2 := PU 2%nat ltac:(lia)). assert (U3 := PU 3%nat ltac:(lia)).
    assert (U4 := PU 4%nat ltac:(lia)). assert (U5 := PU 5%nat ltac:(lia)). assert (U6 := PU 6%nat ltac:(lia)).
    assert (D0 := PD 8%nat ltac:(lia)). assert (D1 := PD 9%nat ltac:(lia)). assert (D2 := PD 10%nat ltac:(lia)). assert (D3 := PD 11%nat ltac:(lia)).
    assert (D4 := PD 12%nat ltac:(lia)). assert (D5 := PD 13%nat ltac:(lia)). assert (D6 := PD 14%nat ltac:(lia)).
    assert (X8 := O 7%nat 8%nat ltac:(lia)). assert (X9 := O 7%nat 9%nat ltac:(lia)). assert (X10 := O 7%nat 10%nat ltac:(lia)). assert (X11 := O 7%nat 11%nat ltac:(lia)).
    assert (X12 := O 7%nat 12%nat ltac:(lia)). assert (X13 := O 7%nat 13%nat ltac:(lia)). assert (X14 := O 7%nat 14%nat ltac:(lia)).
    cbn [nth] in *. cbn [rev app]. destruct (Q_dec 0 u) as [[P|P]|P]; [| |exfalso; apply EU; rewrite P; reflexivity].
    + match goal with |- ~ 0 == interp u ?l => assert (0 < interp u l); [|Lqa.lra] end.
      match goal with |- 0 < interp u [?a1; ?a2; ?a3; ?a4; ?a5; ?a6; ?a7; ?a8; ?b1; ?b2; ?b3; ?b4; ?b5; ?b6; ?b7] =>
        change (0 < interp u ([a1; a2; a3; a4; a5; a6; a7] ++ a8 :: [b1; b2; b3; b4; b5; b6; b7])); destruct a8 as [xz yz] end. cbn [fst snd] in *.
      rewrite interp_skip; [|intros q I; repeat (destruct I as [<-|I]; [Lqa.lra|]); destruct I|Lqa.lra].
      apply interp_positive; [|discriminate|Lqa.lra|Lqa.lra]. intros q I. repeat (destruct I as [<-|I]; [assumption|]). destruct I.
    + match goal with |- ~ 0 == interp u ?l => assert (interp u l < 0); [|Lqa.lra] end.
      match goal with |- interp u [?a1; ?a2; ?a3; ?a4; ?a5; ?a6; ?a7; ?a8; ?b1; ?b2; ?b3; ?b4; ?b5; ?b6; ?b7] < 0 =>
        change (interp u ([a1; a2; a3; a4; a5; a6; a7] ++ a8 :: [b1; b2; b3; b4; b5; b6; b7]) < 0); destruct a8 as [xz yz] end. cbn [fst snd] in *.
      apply interp_negative; [|discriminate|Lqa.lra|Lqa.lra]. intros q I. repeat (destruct I as [<-|I]; [assumption|]). destruct I.
Qed.

(** ** Which springs resist *)
Lemma overburden_pos : forall layers water z l, (forall l, In l layers -> 10 < l_weight l) -> In l layers -> z < l_top l -> l_bottom l < l_top l -> 0 < overburden layers water z.
Proof.
  intros layers water z l W I Z B. unfold overburden. induction layers as [|h t IH]; [destruct I|]. cbn [map]. unfold Qsum in *. cbn [fold_right].
  assert (NN : forall h, 10 < l_weight h -> 0 <= l_weight h * dry_above water z h + (l_weight h - 10) * wet_above water z h).
  { intros k Wk. pose proof (height_nonneg (Qmax (Qmax z (l_bottom k)) water) (l_top k)) as D0. pose proof (height_nonneg (Qmax z (l_bottom k)) (Qmin (l_top k) water)) as W0.
    fold (dry_above water z k) in D0. fold (wet_above water z k) in W0. assert (0 <= l_weight k * dry_above water z k) by (apply Qmult_le_0_compat; Lqa.lra). assert (0 <= (l_weight k - 10) * wet_above water z k) by (apply Qmult_le_0_compat; Lqa.lra). Lqa.lra. }
  assert (TN : 0 <= fold_right Qplus 0 (map (fun l => l_weight l * dry_above water z l + (l_weight l - 10) * wet_above water z l) t)).
  { clear IH I. assert (W' : forall l, In l t -> 10 < l_weight l) by (intros; apply W; right; auto). clear W. induction t as [|k t IH]; [apply Qle_refl|]. cbn [map fold_right].
    pose proof (NN k (W' k (or_introl eq_refl))). assert (Y := IH (fun l I => W' l (or_intror I))). Lqa.lra. }
  destruct I as [->|I].
  - pose proof (W l (or_introl eq_refl)) as Wl. assert (0 < l_weight l * dry_above water z l + (l_weight l - 10) * wet_above water z l); [|Lqa.lra].
    pose proof (height_nonneg (Qmax (Qmax z (l_bottom l)) water) (l_top l)) as D0. pose proof (height_nonneg (Qmax z (l_bottom l)) (Qmin (l_top l) water)) as W0.
    assert (MX : Qmax z (l_bottom l) < l_top l) by (destruct (Q.max_dec z (l_bottom l)) as [X|X]; rewrite X; auto).
    unfold dry_above, wet_above. destruct (Qlt_le_dec water (l_top l)) as [L|L].
    + assert (P : 0 < height (Qmax (Qmax z (l_bottom l)) water) (l_top l)).
      { unfold height. eapply Qlt_le_trans; [|apply Q.le_max_r]. destruct (Q.max_dec (Qmax z (l_bottom l)) water) as [X|X]; rewrite X; Lqa.lra. }
      assert (0 < l_weight l * height (Qmax (Qmax z (l_bottom l)) water) (l_top l)) by (apply Qmult_lt_0_compat; Lqa.lra).
      assert (0 <= (l_weight l - 10) * height (Qmax z (l_bottom l)) (Qmin (l_top l) water)) by (apply Qmult_le_0_compat; Lqa.lra). Lqa.lra.
    + assert (P : 0 < height (Qmax z (l_bottom l)) (Qmin (l_top l) water)).
      { unfold height. eapply Qlt_le_trans; [|apply Q.le_max_r]. rewrite (Q.min_l (l_top l) water) by auto. Lqa.lra. }
      assert (0 <= l_weight l * height (Qmax (Qmax z (l_bottom l)) water) (l_top l)) by (apply Qmult_le_0_compat; Lqa.lra).
      assert (0 < (l_weight l - 10) * height (Qmax z (l_bottom l)) (Qmin (l_top l) water)) by (apply Qmult_lt_0_compat; Lqa.lra). Lqa.lra.
  - pose proof (IH (fun l I => W l (or_intror I)) I). pose proof (NN h (W h (or_introl eq_refl))). Lqa.lra.
Qed.

Lemma Q2R_lt0 : forall q, 0 < q -> (0 < Q2R q)%R.
Proof. intros q H. replace 0%R with (Q2R 0) by (unfold Q2R; cbn; lra). apply Qlt_Rlt. exact H. Qed.
Lemma Q2R_le0 : forall q, 0 <= q -> (0 <= Q2R q)%R.
Proof. intros q H. replace 0%R with (Q2R 0) by (unfold Q2R; cbn; lra). apply Qle_Rle. exact H. Qed.

Lemma element_above_tip : forall o sections gr wt ys x c p t b m i e, sound_site o sections gr wt ys x c p t b m -> nth_error (elements_of m) i = Some e -> b <= snd e.
Proof.
  intros o sections gr wt ys x c p t b m i e SS E. set (rnd := fun _ : R => 0). destruct SS as [[S1 S2 S3 S4 S5 S6 S7 S8 S9] FI (d & PD & ES & SB) TI WE WA OU SL].
  set (f := fun l : layer => (Build_slayer l None None : @slayer stored_value)). assert (PM : forall l, map s_layer (map f l) = l) by (intros l; rewrite map_map; apply map_id).
  assert (ND : d <> []) by (intros ->; cbn in SB; Lqa.lra).
  destruct (mesh_layers sections p b (map f (map y_layer ys)) (map f d) gr x c m) as (_ & _ & _ & _ & EL); rewrite ?PM; auto.
  - intros s I. apply (S1 s I).
  - apply Permutation_map. exact PD.
  - intros N. apply map_eq_nil in N. auto.
  - intros y I. apply (S9 y I).
  - apply nth_error_In in E. apply (EL e E).
Qed.
Lemma layer_resists : forall rnd ch o sections gr wt ys x c p t b m g i, storage rnd -> sound_site o sections gr wt ys x c p t b m ->
  (i < length (elements_of m))%nat -> own_springs rnd ch o sections gr wt b ys m g i 1 -> on_py o = true ->
  resisting_layer gr ys (nth i (elements_of m) (0, 0)) -> resists (g_py g i 1).
Proof.
  intros rnd ch o sections gr wt ys x c p t b m g i (MO & R0 & RP & _) SS Hi OW ON (y & md & IY & LB & LT & EG & EM & MU).
  set (e := nth i (elements_of m) (0, 0)) in *. pose proof (si_mesh _ _ _ _ _ _ _ _ _ _ _ SS) as MS.
  assert (NE : nth_error (elements_of m) i = Some e) by (apply nth_error_nth'; auto).
  destruct (meshed_sections _ _ _ _ _ _ _ _ MS i e NE) as [LE _].
  unfold own_springs in OW. fold e in OW. cbv zeta in OW. cbn [Nat.eqb] in OW. destruct OW as [(AB & _)|(BE & y' & s & OWN & NB & PY & _)]; [Lqa.lra|].
  assert (y = y') by (apply (OWN y); auto). subst y'. rewrite EM in PY. unfold given in PY. rewrite ON in PY.
  assert (SG : nth 0 (spring_signature md) false = true) by (destruct md; reflexivity). rewrite SG in PY. cbn [andb] in PY. destruct PY as (u & U & yy & pp & E & L15 & PT).
  set (q := spot (map y_layer ys) gr wt b (y_layer y) (snd e) (gr - snd e) (s_width s)) in *.
  assert (BZ : b <= snd e) by (apply (element_above_tip _ _ _ _ _ _ _ _ _ _ _ i e SS NE)).
  assert (IS : In s sections) by apply NB.
  assert (WI : within (y_layer y) (snd e)) by (split; [exact LB|Lqa.lra]).
  destruct (so_py _ _ _ _ _ _ (si_soil _ _ _ _ _ _ _ _ _ _ _ SS) y md s (snd e) ON IY EM IS WI BZ) as (A1 & A2 & A3). fold q in A1, A2, A3.
  assert (OP : 0 < overburden (map y_layer ys) wt (snd e)).
  { apply overburden_pos with (l := y_layer y); [|apply in_map; auto|Lqa.lra|Lqa.lra]. intros l I. apply in_map_iff in I. destruct I as (y0 & <- & I). apply (si_weight _ _ _ _ _ _ _ _ _ _ _ SS y0 I). }
  assert (PS : (0 < q_sig q)%R) by (apply Q2R_lt0; exact OP). assert (PX : (0 < q_X q)%R) by (apply Q2R_lt0; Lqa.lra).
  assert (G : good_place q).
  { constructor.
    - change (0 < Q2R (l_top (y_layer y) - l_bottom (y_layer y)))%R. apply Q2R_lt0. Lqa.lra.
    - change (0 <= Q2R (l_top (y_layer y) - snd e) <= Q2R (l_top (y_layer y) - l_bottom (y_layer y)))%R. split; [apply Q2R_le0; Lqa.lra|apply Qle_Rle; Lqa.lra].
    - change (0 < Q2R (s_width s))%R. apply Q2R_lt0. apply (md_stiff _ _ _ _ _ _ _ _ MS s IS).
    - lra.
    - lra. }
  destruct (MU (q_X q) PX) as [M1 M2].
  destruct (py_spring_resists md u q yy pp U G A1 PS PX M1 M2 E) as [Y1 RS]. split.
  - rewrite PT by lia. cbn [fst]. apply RP. exact Y1.
  - intros k K. rewrite PT by lia. cbn [snd]. apply RP. apply RS. exact K.
Qed.

(** The shaft *)
Section Shaft.
Local Open Scope R_scope.
Definition signed (t : list R) : Prop := (forall i, (i < 7)%nat -> nth i t 0 < 0) /\ forall i, (8 <= i < 15)%nat -> 0 < nth i t 0.
Lemma signed_scale : forall c t, 0 < c -> signed t -> signed (scale c t).
Proof. intros c t C [A B]. split; intros i Hi; rewrite nth_scaled; [pose proof (A i Hi)|pose proof (B i Hi)]; nra. Qed.
Lemma clay_signed : forall u idx residual tf, (forall i, 0 <= u i < 1) -> argsort (clay_backbone_z u 15) idx -> 0 < residual -> 0 < tf -> signed (clay_backbone_t residual tf 15 idx).
Proof.
  intros u idx residual tf U A R0 T0. rewrite (clay_t_eq u residual tf 15 idx U A). change (Nat.max 15 15 - 13)%nat with 2%nat. split; intros i Hi.
  - do 7 (destruct i as [|i]; [cbn; nra|]). lia.
  - do 15 (destruct i as [|i]; [try lia; cbn; lra|]). lia.
Qed.
Lemma sand_signed : forall u idx tf, (forall i, 0 <= u i < 1) -> argsort (sand_backbone_z u 15) idx -> 0 < tf -> signed (sand_backbone_t tf 15 idx).
Proof.
  intros u idx tf U A T0. rewrite (sand_t_eq u tf 15 idx U A). change (Nat.max 15 15 - 13)%nat with 2%nat. split; intros i Hi.
  - do 7 (destruct i as [|i]; [cbn; nra|]). lia.
  - do 15 (destruct i as [|i]; [try lia; cbn; lra|]). lia.
Qed.
Lemma plug_pos : forall p tm ci co total tens, 0 < tm -> 0 < ci -> 0 < co -> plug_factors p tm ci co = Ok (total, tens) -> 0 < total /\ 0 < tens.
Proof.
  intros p tm ci co total tens T I C E. assert (Q1 : 0 < tm * ci) by (apply Rmult_lt_0_compat; auto). assert (Q2 : 0 < tm * (ci + co)) by (apply Rmult_lt_0_compat; lra).
  destruct p; cbn [plug_factors] in E; unfold PisaModel.nonzero in E; try (destruct (Req_EM_T _ 0); [discriminate E|]); injection E as <- <-; split; try lra; apply Rdiv_lt_0_compat; lra.
Qed.
Lemma fmax_clay_pos : forall sig Su, 0 < Su -> 0 < fmax_api_clay sig Su 1.
Proof.
  intros sig Su HS. unfold fmax_api_clay. set (psi := if Req_EM_T sig 0 then _ else _). cbv zeta. assert (PW : forall x y, 0 < 0.5 * Rpower x y) by (intros; apply Rmult_lt_0_compat; [lra|apply exp_pos]).
  apply Rmult_lt_0_compat; [|auto]. destruct (Rlt_dec 1 psi); [apply Rmin_glb_lt; [apply PW|lra]|]. destruct (Req_EM_T psi 0); [lra|apply Rmin_glb_lt; [apply PW|lra]].
Qed.
Lemma fmax_sand_pos : forall sig delta K, 0 < sig -> 0 < delta < 90 -> 0 < K -> 0 < fmax_api_sand sig delta K.
Proof.
  intros sig delta K HS [D1 D2] HK. unfold fmax_api_sand. apply Rmin_glb_lt.
  - assert (RI : rising fs_table) by (unfold fs_table; cbn; repeat split; lra). pose proof (interp_bounds _ _ _ RI delta) as [A _]. fold fs_table in A. lra.
  - apply Rmult_lt_0_compat; [apply Rmult_lt_0_compat; auto|]. pose proof PI_RGT_0. apply tan_gt_0; nra.
Qed.
Lemma tz_resists : forall d m a sig D co ci z t, fair d -> CapacitySpec.admissible m -> friction_works m -> a_sig a = Some sig -> a_D a = Some D -> a_perim a = Some co -> a_perim_in a = Some ci ->
  (0 < sig)%Q -> (0 < D)%Q -> (0 < co)%Q -> (0 < ci)%Q -> (0 < a_height a)%Q -> (0 <= a_depth a)%Q -> (a_depth a <= a_height a)%Q -> tz_curve d m a = Ok (Some (z, t)) -> 0 < nth 8 z 0 /\ signed t.
Proof.
  intros d m a sig D co ci z t FD A W ES ED EC EI S0 D0 C0 I0 H0 DL DH. unfold tz_curve. rewrite ES, ED, EC, EI.
  destruct (FD m a) as [FU FA]. destruct (d m a) as [u idx]. cbn [fst snd] in FU, FA. apply Q2R_pos in S0, D0, C0, I0, H0. apply Q2R_nn in DL. apply Qle_Rle in DH. assert (HN : Q2R (a_height a) <> 0) by lra.
  assert (FR : 0 <= Q2R (a_depth a) / Q2R (a_height a) <= 1). { split; [apply Rmult_le_pos; [auto|left; apply Rinv_0_lt_compat; auto]|]. apply Rmult_le_reg_r with (Q2R (a_height a)); [auto|]. unfold Rdiv. rewrite Rmult_assoc, Rinv_l by auto. lra. }
  assert (BT : forall x y, x + (y - x) * Q2R (a_depth a) / Q2R (a_height a) = between x y (Q2R (a_depth a) / Q2R (a_height a))) by (intros; unfold between, Rdiv; ring).
  destruct m as [c|s]; cbn [CapacitySpec.admissible friction_works] in A, W.
  - destruct W as ((tm & zm & ET & EZ & T0 & Z0) & R0 & TN). destruct A as (_ & _ & _ & ST & SB & _). unfold clay_tz. rewrite at_depth_ok by auto. cbn [bind].
    destruct (plug_factors (ca_plug c) (ca_tension c) (Q2R ci) (Q2R co)) as [[total tens]|] eqn:PF; [|discriminate]. cbn [bind]. destruct (plug_pos _ _ _ _ _ _ TN I0 C0 PF) as [P1 P2].
    unfold tz_api_clay. rewrite ET, EZ. cbn [times bind some_values]. intros E. injection E as <- <-. rewrite BT. split.
    + rewrite !nth_scaled. rewrite (proj1 (proj2 (clay_centred u idx (ca_residual c) tens FU FA))). apply Rmult_lt_0_compat; [apply Rmult_lt_0_compat; lra|auto].
    + apply signed_scale; [auto|]. apply signed_scale; [auto|]. apply signed_scale; [apply fmax_clay_pos, between_pos; auto|]. apply clay_signed with u; auto.
  - destruct W as ((tm & zm & ET & EZ & T0 & Z0) & K0 & TN & DT & DB). destruct A as (_ & _ & _ & ST & SB & _). unfold sand_tz. rewrite at_depth_ok by auto. cbn [bind].
    destruct (plug_factors (sa_plug s) (sa_tension s) (Q2R ci) (Q2R co)) as [[total tens]|] eqn:PF; [|discriminate]. cbn [bind]. destruct (plug_pos _ _ _ _ _ _ TN I0 C0 PF) as [P1 P2].
    unfold tz_api_sand. rewrite ET, EZ. cbn [times bind some_values]. intros E. injection E as <- <-. rewrite BT. split.
    + rewrite !nth_scaled. rewrite (proj1 (proj2 (sand_centred u idx tens FU FA))). apply Rmult_lt_0_compat; lra.
    + apply signed_scale; [auto|]. apply signed_scale; [auto|]. apply signed_scale; [|apply sand_signed with u; auto].
      apply fmax_sand_pos; auto. split; [apply between_pos; auto|apply (between_range 0 90 _ _ _ FR ST SB)].
Qed.
End Shaft.

Lemma layer_sticks : forall rnd ch o sections gr wt ys x c p t b m g i, storage rnd -> fair (c_tz ch) -> sound_site o sections gr wt ys x c p t b m ->
  (i < length (elements_of m))%nat -> own_springs rnd ch o sections gr wt b ys m g i 1 -> on_tz o = true ->
  sticking_layer gr ys (nth i (elements_of m) (0, 0)) -> resists_axial (g_tz g i 1).
Proof.
  intros rnd ch o sections gr wt ys x c p t b m g i (MO & R0 & RP & RN) FT SS Hi OW ON (y & md & IY & LB & LT & EG & EM & MU).
  set (e := nth i (elements_of m) (0, 0)) in *. pose proof (si_mesh _ _ _ _ _ _ _ _ _ _ _ SS) as MS.
  assert (NE : nth_error (elements_of m) i = Some e) by (apply nth_error_nth'; auto).
  destruct (meshed_sections _ _ _ _ _ _ _ _ MS i e NE) as [LE _].
  unfold own_springs in OW. fold e in OW. cbv zeta in OW. cbn [Nat.eqb] in OW. destruct OW as [(AB & _)|(BE & y' & s & OWN & NB & _ & _ & TZ)]; [Lqa.lra|].
  assert (y = y') by (apply (OWN y); auto). subst y'. rewrite EM in TZ. unfold given in TZ. rewrite ON in TZ. cbn [andb] in TZ.
  destruct TZ as (a & ((sig & S1 & S2) & _ & DD & HH & ED & EO & EI) & z & tt' & E & L15 & PT).
  assert (IS : In s sections) by apply NB.
  assert (OP : 0 < overburden (map y_layer ys) wt (snd e)).
  { apply overburden_pos with (l := y_layer y); [|apply in_map; auto|Lqa.lra|Lqa.lra]. intros l I. apply in_map_iff in I. destruct I as (y0 & <- & I). apply (si_weight _ _ _ _ _ _ _ _ _ _ _ SS y0 I). }
  destruct (si_outer _ _ _ _ _ _ _ _ _ _ _ SS s IS) as [PO _]. destruct (md_stiff _ _ _ _ _ _ _ _ MS s IS) as (_ & _ & _ & PW).
  destruct (tz_resists (c_tz ch) md a sig (s_width s) (s_outer s) (s_outer s) z tt' FT (so_ax _ _ _ _ _ _ (si_soil _ _ _ _ _ _ _ _ _ _ _ SS) y md IY EM) MU S1 ED EO EI) as [Z8 [T1 T2]]; auto; try (rewrite ?S2, ?HH, ?DD; Lqa.lra).
  split; [|split].
  - rewrite (proj1 (PT 8%nat ltac:(lia))). pose proof (RP _ Z8). Lqa.lra.
  - intros k K. rewrite (proj2 (PT k ltac:(lia))). pose proof (RN _ (T1 k K)). Lqa.lra.
  - intros k K. rewrite (proj2 (PT k ltac:(lia))). pose proof (RP _ (T2 k K)). Lqa.lra.
Qed.

(** ** Coefficients of the rotational springs *)
Lemma coefs_exist : forall sections s x c p t b m ty circ E nu, meshed sections s x c p t b m -> (ty = Timoshenko -> circ = true) ->
  exists cs, moment_coefs ty circ E nu p (elements_of m) = Ok (Some cs) /\ length cs = length (elements_of m) /\
    (ty = EulerBernoulli -> forall e, (e < length (elements_of m))%nat -> exists J A, nth e cs (0, 0, 0, 0) = mt_coefs EulerBernoulli 0 J A (elem_length (elements_of m) e)).
Proof.
  intros sections s x c p t b m ty circ E nu MS HT. unfold moment_coefs.
  assert (ONE : forall e, (e < length (elements_of m))%nat -> exists k, moment_coef ty circ E nu p (elements_of m) e = Ok (Some k) /\
    (ty = EulerBernoulli -> exists J A, k = mt_coefs EulerBernoulli 0 J A (elem_length (elements_of m) e))).
  { intros e L. destruct (nth_error (elements_of m) e) as [y|] eqn:N; [|apply nth_error_None in N; lia]. destruct (element_sections _ _ _ _ _ _ _ _ MS e y N) as [_ (q & _ & _ & _ & V)].
    unfold moment_coef. destruct ty.
    - rewrite !V. eexists. split; [reflexivity|eauto].
    - rewrite (HT eq_refl), !V. cbn [shear_kappa bind]. eexists. split; [reflexivity|discriminate]. }
  destruct (collect_done _ (length (elements_of m)) (moment_coef ty circ E nu p (elements_of m))) as (l & C). { intros e L. destruct (ONE e L) as (k & -> & _). eauto. }
  rewrite C. cbn [bind]. destruct (collect_ok _ _ l None C) as [LL LN].
  destruct (all_some_exists _ l) as [r R]. { intros i Hi. rewrite LL in Hi. destruct (ONE i Hi) as (k & M & _). rewrite (LN i Hi) in M. congruence. }
  exists r. rewrite R. destruct (all_some_ok _ l r (0, 0, 0, 0) R) as [RL RN]. split; [reflexivity|]. split; [congruence|].
  intros T e L. destruct (ONE e L) as (k & M & EB). destruct (EB T) as (J & A & ->). exists J, A. rewrite (LN e L) in M. rewrite (RN e) in M by congruence. injection M as M. exact M.
Qed.

(** ** Passes of the iteration in which every system can be solved *)
Lemma loop_numbers : forall solve n bld F U0 sup, (forall u k, exists K, bld u k = Ok K) ->
  (forall u k K F U, bld u k = Ok K -> exists R, solve_equations solve n K F U sup = Some R) ->
  forall fuel iter d U K Rg last, (exists u k, bld u k = Ok K) -> (o_d last <> None) -> exists r, loop solve n bld F U0 sup fuel iter d U K Rg last = Ok r /\ (o_d r = None -> o_iter r = 100%nat).
Proof.
  intros solve n bld F U0 sup B S0. induction fuel as [|f IH]; intros iter d U K Rg last (u0 & k0 & E0) LA; [cbn; exists last; split; [reflexivity|contradiction]|]. cbn [loop].
  destruct (S0 u0 k0 K Rg U E0) as ([u R] & ->). cbv zeta. set (d' := fun i => d i + u i).
  destruct (B d' Secant) as (Ks & EK). rewrite EK. cbn [bind]. destruct (_ && _); [|].
  - destruct (S0 d' Secant Ks F U0 EK) as ([u' R'] & ->). eexists. split; [reflexivity|]. discriminate.
  - destruct (Nat.eqb (S iter) 100); [eexists; split; [reflexivity|]; reflexivity|]. destruct (B d' Tangent) as (Kt & ET). rewrite ET. cbn [bind]. apply IH; [eauto|discriminate].
Qed.

Section Analysis.
Variables (rnd : R -> Q) (ch : chance) (sort : list (Q * section) -> list (Q * section)) (o : options) (sections : list section) (gr wt : Q) (ys : list soil_layer)
  (x : list Q) (c : Q) (p : list section) (t b : Q) (m : list Q).
Hypothesis ST : storage rnd.
Hypothesis FC : fair_chance ch.
Hypothesis SO : forall rows, ascending_of (sort rows) rows.
Hypothesis SS : sound_site o sections gr wt ys x c p t b m.
Hypothesis PP : on_mt o = true -> on_py o = true.
Variables (solve : solver) (ty : elem_type) (circ : bool) (E nu : Q).
Hypothesis SV : solver_ok solve.
Hypothesis PE : 0 < E.
Hypothesis PN : -(3#4) <= nu.
Hypothesis HT : ty = Timoshenko -> circ = true.

Notation ana cs mi := (soil_analysis rnd ch sort solve ty circ E nu o sections gr wt ys x c cs mi).
Notation z := (fun a => nth a (nodes_of m) 0).

(** The stiffness model the analysis uses *)
Lemma analysis_unfold : exists ks mc g, usable g /\ (exists st MD, construct rnd ch sort o sections gr wt ys x c = Ok (Some (mkBuilt p m st MD)) /\ g = springs_of MD) /\ elem_matrices ty circ E nu p (elements_of m) = Ok (Some ks) /\
  let M := stiffness_model o p m ks mc g in sound_pile M z /\ (ty = EulerBernoulli \/ on_mt o = false -> ((on_mt o = true -> on_py o = true) -> sound_model M z) /\ no_timoshenko_mt M) /\
  forall cs mi, exists tf td tr, global_forces (nodes_of m) (run cs []) = Ok tf /\ global_disp (nodes_of m) (run cs []) = Ok td /\ global_restrained (nodes_of m) (run cs []) = Ok tr /\
    ana cs mi = bind (winkler_model solve M (dof_vector tf) (dof_vector td) (dof_flags tr) mi) (fun r => Ok (Some r)).
Proof using ST FC SO SS PE PN HT.
  clear PP. destruct (constructed rnd ch sort o sections gr wt ys x c p t b m ST FC SO SS) as (sg & MD & CO & _ & NF & US & _).
  pose proof (si_mesh _ _ _ _ _ _ _ _ _ _ _ SS) as MS.
  destruct (C83_pile_soil_mechanics _ _ _ _ _ _ _ _ ty circ E nu MS PE PN HT) as (ks & KS & SM).
  destruct (coefs_exist _ _ _ _ _ _ _ _ ty circ E nu MS HT) as (cs0 & CS & LC & CE).
  exists ks, (if on_mt o then cs0 else []), (springs_of MD). split; [exact US|]. split; [eauto|]. split; [exact KS|]. cbv zeta.
  set (M := stiffness_model o p m ks (if on_mt o then cs0 else []) (springs_of MD)).
  assert (EL : forall e, (e < length (elements_of m))%nat -> 0 < elem_length (elements_of m) e).
  { intros e L. destruct (nth_error (elements_of m) e) as [y|] eqn:N; [|apply nth_error_None in N; lia]. destruct (element_sections _ _ _ _ _ _ _ _ MS e y N) as [A _].
    unfold elem_length. rewrite (nth_error_nth _ _ _ N). cbv zeta. pose proof (Qle_Qabs (fst y - snd y)). Lqa.lra. }
  split; [apply (SM _ _ _ _ _ _ _)|]. split.
  - intros C. split.
    + intros PQ. apply (SM _ _ _ _ _ _ _). constructor; cbn [soil_model w_mt w_py w_mtc w_n].
      * intros mt EM e L kt kb Pt Pb. unfold when_on in EM. destruct (on_mt o) eqn:OM; [|discriminate]. destruct C as [C|C]; [|discriminate].
        destruct (CE C e L) as (J & A & X). rewrite X. apply eb_mtc_ok; auto.
      * intros py mt EP EM e j L J col q IC IQ. unfold when_on in EM. destruct (on_mt o) eqn:OM; [|discriminate]. injection EM as <-.
        destruct US as (_ & _ & U3 & _). destruct (U3 e j) as (_ & U & _). apply (proj2 (U col IC) q IQ).
      * unfold when_on. destruct (on_mt o); [right|left; reflexivity]. rewrite PQ by reflexivity. eauto.
    + intros e L. cbn [M stiffness_model soil_model w_mt w_n w_mtc w_L] in *. unfold when_on. destruct (on_mt o) eqn:OM; [right|left; reflexivity]. destruct C as [C|C]; [|discriminate].
      destruct (CE C e L) as (J & A & X). exists 0, J, A. exact X.
  - intros cs mi. unfold soil_analysis. rewrite CO. cbn [bind]. unfold solve_built. cbn [b_mesh b_pile b_made].
    unfold global_forces, global_disp, global_restrained. rewrite !run_never_conflicts. cbn [bind]. do 3 eexists. do 3 (split; [reflexivity|]).
    rewrite KS. cbn [bind]. rewrite NF. unfold M. destruct (on_mt o); [rewrite CS|]; cbn [bind]; reflexivity.
Qed.

(** Moment springs without lateral springs *)
Lemma analysis_moment_alone : on_mt o = true -> on_py o = false -> forall cs mi, ana cs mi = Err UserInputError.
Proof using ST FC SO SS PE PN HT.
  intros OM OP cs mi. destruct analysis_unfold as (ks & mc & g & US & _ & KS & _ & _ & AN). destruct (AN cs mi) as (tf & td & tr & _ & _ & _ & ->).
  assert (B : build (stiffness_model o p m ks mc g) zero Initial = Err UserInputError).
  { unfold build, soil_elements, stiffness_model, soil_model, when_on. cbn [w_py w_tz w_mt]. rewrite OM, OP. cbn [opt_res bind].
    destruct (on_tz o); cbn [opt_res bind]; [|reflexivity]. match goal with |- context [tz_stiffness ?M ?tz ?u ?k] => destruct (collect_done _ (w_n M) (fun e => SpringModel.both (fun j => tz_spring (spring_disp (w_n M) u 0 e j) (tz e j) k))) as (l & EL) end.
    - intros e _. apply both_ok. intros j. apply usable_tz_ok. apply US.
    - unfold tz_stiffness. rewrite EL. reflexivity. }
  unfold winkler_model, winkler. rewrite B. reflexivity.
Qed.

Lemma analysis_ends : forall cs mi, (exists r, ana cs mi = Ok (Some r)) \/ ana cs mi = Err LinAlgError.
Proof using ST FC SO SS PP PE PN HT.
  destruct analysis_unfold as (ks & mc & g & US & _ & KS & SP & _ & AN). intros cs mi. destruct (AN cs mi) as (tf & td & tr & _ & _ & _ & ->).
  unfold winkler_model, winkler. pose proof (usable_builds _ (usable_stiffness o p m ks mc g US PP)) as B.
  destruct (B zero Initial) as (K & ->). cbn [bind].
  match goal with |- context [loop ?a1 ?a2 ?a3 ?a4 ?a5 ?a6 ?a7 ?a8 ?a9 ?b1 ?b2 ?b3 ?b4] => destruct (loop a1 a2 a3 a4 a5 a6 a7 a8 a9 b1 b2 b3 b4) as [r|e] eqn:LE end; cbn [bind]; [eauto|right].
  f_equal. exact (loop_errors _ _ _ _ _ _ B _ _ _ _ _ _ _ _ LE).
Qed.

Lemma analysis_supported : ty = EulerBernoulli \/ on_mt o = false -> forall cs mi, holds_pile (nodes_of m) (run cs []) ->
  exists r, ana cs mi = Ok (Some r) /\ (o_d r = None -> o_iter r = 100%nat).
Proof using ST FC SO SS PP PE PN HT SV.
  intros C cs mi HP. destruct analysis_unfold as (ks & mc & g & US & _ & KS & SP & SM & AN). destruct (SM C) as [SM' _]. specialize (SM' PP). destruct (AN cs mi) as (tf & td & tr & GF & GD & GR & ->).
  set (M := stiffness_model o p m ks mc g) in *.
  pose proof (usable_builds _ (usable_stiffness o p m ks mc g US PP)) as B. fold M in B.
  assert (LN : length (nodes_of m) = S (w_n M)).
  { pose proof (si_mesh _ _ _ _ _ _ _ _ _ _ _ SS) as MS. destruct (meshed_nonempty _ _ _ _ _ _ _ _ MS) as [NE _]. unfold M, stiffness_model, soil_model. cbn [w_n].
    exact (nodes_elems_count m NE). }
  pose proof (proj2 (held_iff (nodes_of m) (run cs []) (w_n M) td tr LN GD GR) HP) as HL.
  unfold winkler_model, winkler. destruct (B zero Initial) as (K & EK). rewrite EK. cbn [bind].
  match goal with |- context [loop ?a1 ?a2 ?a3 ?a4 ?a5 ?a6 ?a7 ?a8 ?a9 ?b1 ?b2 ?b3 ?b4] => destruct (loop_numbers a1 a2 a3 a4 a5 a6 B) with (fuel := a7) (iter := a8) (d := a9) (U := b1) (K := b2) (Rg := b3) (last := b4) as (r & -> & N) end.
  - intros u k K' F' U' EK'. apply solve_equations_succeeds; [exact SV|]. exact (system_held M z u k K' SM' EK' _ HL).
  - eauto.
  - discriminate.
  - cbn [bind]. eauto.
Qed.

(** Springs that resist every displacement do what supports do. *)
Lemma analysis_resisted : ty = EulerBernoulli \/ on_mt o = false -> forall B cs mi, construct rnd ch sort o sections gr wt ys x c = Ok (Some B) ->
  (on_py o = true /\ exists e j, (e < length (elements_of m))%nat /\ (j < 2)%nat /\ resists (g_py (springs_of (b_made B)) e j)) ->
  (exists i, supported (nodes_of m) (run cs []) i AZ) \/ (on_tz o = true /\ exists e j, (e < length (elements_of m))%nat /\ (j < 2)%nat /\ resists_axial (g_tz (springs_of (b_made B)) e j)) ->
  exists r, ana cs mi = Ok (Some r).
Proof using ST FC SO SS PP PE PN HT SV.
  intros C B cs mi CB (ON & e & j & He & Hj & RS) AX. destruct analysis_unfold as (ks & mc & g & US & (st & MD & CB' & EG) & KS & SP & SM & AN). destruct (SM C) as [SM' _]. specialize (SM' PP). destruct (AN cs mi) as (tf & td & tr & GF & GD & GR & ->).
  assert (B = mkBuilt p m st MD) by congruence. subst B. cbn [b_made] in *. rewrite <- EG in *.
  set (M := stiffness_model o p m ks mc g) in *.
  pose proof (usable_builds _ (usable_stiffness o p m ks mc g US PP)) as B. fold M in B.
  assert (LN : length (nodes_of m) = S (w_n M)).
  { pose proof (si_mesh _ _ _ _ _ _ _ _ _ _ _ SS) as MS. destruct (meshed_nonempty _ _ _ _ _ _ _ _ MS) as [NE _]. unfold M, stiffness_model, soil_model. cbn [w_n].
    exact (nodes_elems_count m NE). }
  unfold winkler_model, winkler. destruct (B zero Initial) as (K & EK). rewrite EK. cbn [bind].
  match goal with |- context [loop ?a1 ?a2 ?a3 ?a4 ?a5 ?a6 ?a7 ?a8 ?a9 ?b1 ?b2 ?b3 ?b4] => destruct (loop_total a1 a2 a3 a4 a5 a6 B) with (fuel := a7) (iter := a8) (d := a9) (U := b1) (K := b2) (Rg := b3) (last := b4) as (r & ->) end; [|cbn [bind]; eauto].
  intros u K' EK'. destruct US as (U1 & U2 & _).
  cut (stable (size M) K' (supports_of (dof_flags tr) (dof_vector td))). { intros SB Z. destruct (proj2 (solve_equations_succeeds solve (size M) K' (dof_vector tf) (dof_vector td) _ SV) SB) as [rr E0]. congruence. }
  apply (system_stable M z u Secant K' SM' EK').
  - destruct (resists_secant (spring_disp (w_n M) u 1 e j) (g_py g e j) (proj1 (U1 e j)) RS) as (s & E1 & E2).
    exists (g_py g), e, j, s. split; [unfold M, stiffness_model, soil_model; cbn [w_py]; rewrite ON; reflexivity|auto].
  - destruct AX as [(i & SU)|(OZ & e' & j' & He' & Hj' & RZ)]; [left|right; left].
    + exists i. pose proof (supported_bound _ _ _ _ SU) as BD. split; [lia|]. pose proof (proj2 (support_flags (nodes_of m) (run cs []) td tr i AZ BD GD GR) SU) as Z. exact Z.
    + destruct (resists_axial_secant (spring_disp (w_n M) u 0 e' j') (g_tz g e' j') (proj1 (U2 e' j')) RZ) as (s & E1 & E2).
      exists (g_tz g), e', j', s. split; [unfold M, stiffness_model, soil_model; cbn [w_tz]; rewrite OZ; reflexivity|auto].
Qed.
End Analysis.
