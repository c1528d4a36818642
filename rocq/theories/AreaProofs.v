(** Lemmas on Riemann sums of the friction. *)
From Coq Require Import List Bool Arith ZArith QArith Qabs Reals Qreals Lia Lqa Lra.
From Verif Require Import Base PileModel PileSpec MeshModel MeshSpec MeshProofs StressModel StressSpec StressProofs StressProps CreateModel CreateProofs CreateProps
  AxialModel AxialSpec AxialProofs AxialProps CapacityModel CapacitySpec CapacityProofs AreaSpec.
Import ListNotations.
Local Open Scope R_scope.

Lemma q2r_le : forall a b, (a <= b)%Q -> Q2R a <= Q2R b.
Proof. intros. apply Qle_Rle. auto. Qed.

Lemma divides_order : forall p top bottom, divides top bottom p -> (bottom <= top)%Q.
Proof. induction p as [|[z b] t IH]; cbn; intros top bottom D; [rewrite D; apply Qle_refl|]. destruct D as (A & B & D). apply IH in D. Lqa.lra. Qed.

Lemma riemann_between : forall f lo hi p top bottom, divides top bottom p ->
  (forall z, (bottom <= z)%Q -> (z <= top)%Q -> lo <= f z <= hi) ->
  Q2R (top - bottom)%Q * lo <= riemann f top p <= Q2R (top - bottom)%Q * hi.
Proof.
  intros f lo hi p. induction p as [|[z b] t IH]; intros top bottom D B.
  - cbn in D. cbn [riemann]. assert (E : (top - bottom == 0)%Q) by (rewrite D; ring).
    rewrite (Qeq_eqR _ _ E). assert (Z : Q2R 0 = 0) by (unfold Q2R; cbn; lra). rewrite Z. lra.
  - destruct D as (D1 & D2 & D). pose proof (divides_order _ _ _ D) as O.
    destruct (IH b bottom D) as (I1 & I2). { intros y Y1 Y2. apply B; Lqa.lra. }
    destruct (B z) as (B1 & B2); [Lqa.lra|auto|]. cbn [riemann].
    assert (P : 0 <= Q2R (top - b)%Q). { replace 0 with (Q2R 0) by (unfold Q2R; cbn; lra). apply q2r_le. Lqa.lra. }
    assert (E : Q2R (top - bottom)%Q = Q2R (top - b)%Q + Q2R (b - bottom)%Q).
    { rewrite <- Q2R_plus. apply Qeq_eqR. ring. }
    rewrite E. split; nra.
Qed.

Lemma riemann_trapezoid : forall f p top bottom, divides top bottom p ->
  (forall z z', (bottom <= z')%Q -> (z' <= z)%Q -> (z <= top)%Q -> f z <= f z') ->
  Rabs (Q2R (top - bottom)%Q * (f top + f bottom) / 2 - riemann f top p) <= Q2R (top - bottom)%Q * Rabs (f bottom - f top) / 2.
Proof.
  intros f p top bottom D M. pose proof (divides_order _ _ _ D) as O.
  destruct (riemann_between f (f top) (f bottom) p top bottom D) as (L & U).
  { intros z Z1 Z2. split; apply M; auto; apply Qle_refl. }
  assert (LE : f top <= f bottom) by (apply M; auto; apply Qle_refl).
  rewrite (Rabs_right (f bottom - f top)) by lra. apply Rabs_le. lra.
Qed.

Lemma Rsum_abs : forall (f g : nat -> R) l, (forall i, In i l -> Rabs (f i) <= g i) -> Rabs (Rsum (map f l)) <= Rsum (map g l).
Proof.
  intros f g. induction l as [|a t IH]; intros H; [cbn; rewrite Rabs_R0; lra|].
  cbn [map Rsum fold_right]. fold (Rsum (map f t)) (Rsum (map g t)).
  pose proof (Rabs_triang (f a) (Rsum (map f t))). specialize (H a (or_introl eq_refl)) as Ha.
  assert (Rabs (Rsum (map f t)) <= Rsum (map g t)) by (apply IH; intros; apply H; right; auto). lra.
Qed.

Lemma Rsum_minus : forall (f g : nat -> R) l, Rsum (map f l) - Rsum (map g l) = Rsum (map (fun i => f i - g i) l).
Proof. intros f g. induction l as [|a t IH]; cbn; [lra|]. unfold Rsum in *. lra. Qed.

Lemma Rsum_scale : forall k (f : nat -> R) l, Rsum (map (fun i => k * f i) l) = k * Rsum (map f l).
Proof. intros k f. induction l as [|a t IH]; cbn; [lra|]. unfold Rsum in *. rewrite IH. lra. Qed.

Lemma Rsum_le : forall (f g : nat -> R) l, (forall i, In i l -> f i <= g i) -> Rsum (map f l) <= Rsum (map g l).
Proof.
  intros f g. induction l as [|a t IH]; intros H; cbn; [lra|]. unfold Rsum in *.
  specialize (H a (or_introl eq_refl)) as Ha. assert (fold_right Rplus 0 (map f t) <= fold_right Rplus 0 (map g t)) by (apply IH; intros; apply H; right; auto). lra.
Qed.

Lemma end_is_at : forall comp xs st co i, end_capacity comp xs st co co i 0 = capacity_at comp xs st co i (fst (nth i (elems st) (0, 0)%Q)) /\
  end_capacity comp xs st co co i 1 = capacity_at comp xs st co i (snd (nth i (elems st) (0, 0)%Q)).
Proof. intros. split; reflexivity. Qed.

Section Situation.
Variables (l p : list section) (b : Q) (dt dq : draw) (ta fp : Q) (xs : list axial_layer) (sd : list (@slayer values)) (st : setting) (x : list Q) (c : Q) (m : list Q) (co : nat -> Q).
Hypothesis SIT : in_soil l p b dt dq ta fp xs sd st x c m co.
Notation layers := (map (with_springs dt dq ta fp) xs).
Notation el i := (nth i (elems st) (0, 0)%Q).
Notation longest := (Q2R c + 1 / 10000).

Lemma heights : forall i, (i < length (elems st))%nat -> (snd (el i) < fst (el i))%Q /\ 0 <= tall (elems st) i <= longest.
Proof using SIT.
  intros i Hi. destruct SIT as (F & _). destruct F as (P & MP & B & TB & PL & ST & SB & BG & ND & X & C & MM & EM & GR).
  destruct (mesh_layers l p b layers sd (ground st) x c m P MP B PL ST SB BG ND X C MM GR) as (AP & NDu & NE & LT & EL).
  assert (I1 : In (el i) (elements_of m)) by (rewrite <- EM; apply nth_In; auto).
  destruct (EL _ I1) as (_ & POS & _). split; auto.
  assert (C0 : (0 < c)%Q) by Lqa.lra.
  pose proof (elements_not_longer p b _ x c m (el i) C0 MM I1) as U. unfold tall.
  split.
  - replace 0 with (Q2R 0) by (unfold Q2R; cbn; lra). apply q2r_le. Lqa.lra.
  - apply q2r_le in U. rewrite Q2R_plus in U. replace (Q2R (1 # 10000)) with (1 / 10000) in U by (unfold Q2R; cbn; lra). exact U.
Qed.

Lemma longest_pos : 0 <= longest.
Proof using SIT.
  destruct SIT as (F & _). destruct F as (P & MP & B & TB & PL & ST & SB & BG & ND & X & C & MM & EM & GR).
  assert (0 <= Q2R c). { replace 0 with (Q2R 0) by (unfold Q2R; cbn; lra). apply q2r_le. Lqa.lra. } lra.
Qed.

Lemma steps_small : forall cap, Rabs (steps cap (elems st)) <= longest / 4 * jumps cap st.
Proof using SIT.
  intros cap. unfold steps, jumps. rewrite <- Rsum_scale. apply Rsum_abs. intros i Hi. apply in_seq in Hi.
  destruct (heights i ltac:(lia)) as (_ & A). destruct (heights (S i) ltac:(lia)) as (_ & B).
  set (j := cap i 1%nat - cap (S i) 0%nat).
  replace ((tall (elems st) (S i) - tall (elems st) i) * j / 4) with ((tall (elems st) (S i) - tall (elems st) i) / 4 * j) by lra.
  rewrite Rabs_mult. apply Rmult_le_compat_r; [apply Rabs_pos|]. apply Rabs_le. lra.
Qed.

Lemma trapezoids_close : forall comp pieces, deepening (capacity_at comp xs st co) st -> divided st pieces ->
  Rabs (trapezoids (end_capacity comp xs st co co) (elems st) - friction_sum (capacity_at comp xs st co) st pieces)
    <= longest / 2 * variation (end_capacity comp xs st co co) st.
Proof using SIT.
  intros comp pieces DE DI. unfold trapezoids, friction_sum, variation. rewrite Rsum_minus, <- Rsum_scale. apply Rsum_abs.
  intros i Hi. apply in_seq in Hi. assert (Li : (i < length (elems st))%nat) by lia.
  destruct (end_is_at comp xs st co i) as [-> ->]. destruct (heights i Li) as (_ & H).
  pose proof (riemann_trapezoid (capacity_at comp xs st co i) (pieces i) (fst (el i)) (snd (el i)) (DI i Li)) as R.
  fold (tall (elems st) i) in R. eapply Rle_trans; [apply R|].
  - intros z z' A1 A2 A3. apply (DE i z z' Li A1 A2 A3).
  - match goal with |- _ * ?v / 2 <= _ => set (w := v) end. assert (0 <= w) by apply Rabs_pos. nra.
Qed.

Lemma resistance_close : forall pieces, distributed_axial st = true -> divided st pieces ->
  exists comp tens, shaft_resistance (nodes_of m) (create_springs st layers) = Ok (Some (comp, tens)) /\
    (deepening (capacity_at true xs st co) st -> Rabs (comp - friction_sum (capacity_at true xs st co) st pieces)
       <= longest / 2 * variation (end_capacity true xs st co co) st + longest / 4 * jumps (end_capacity true xs st co co) st) /\
    (deepening (capacity_at false xs st co) st -> Rabs (tens - friction_sum (capacity_at false xs st co) st pieces)
       <= longest / 2 * variation (end_capacity false xs st co co) st + longest / 4 * jumps (end_capacity false xs st co co) st).
Proof using SIT.
  intros pieces DA DI. rewrite (shaft_capacity _ _ _ _ _ _ _ _ _ _ _ _ _ _ SIT DA). do 2 eexists. split; [reflexivity|].
  assert (G : forall comp, deepening (capacity_at comp xs st co) st ->
    Rabs (trapezoids (end_capacity comp xs st co co) (elems st) + steps (end_capacity comp xs st co co) (elems st) - friction_sum (capacity_at comp xs st co) st pieces)
    <= longest / 2 * variation (end_capacity comp xs st co co) st + longest / 4 * jumps (end_capacity comp xs st co co) st).
  { intros comp DE. pose proof (trapezoids_close comp pieces DE DI) as T. pose proof (steps_small (end_capacity comp xs st co co)) as S.
    match goal with |- Rabs (?a + ?b - ?d) <= _ => replace (a + b - d) with ((a - d) + b) by lra; pose proof (Rabs_triang (a - d) b) end. lra. }
  split; apply G.
Qed.

(** ** Soil whose strength does not decrease with depth *)
Lemma fraction_le : forall t bo z z', (bo < t)%Q -> (z' <= z)%Q -> Q2R ((t - z) / (t - bo))%Q <= Q2R ((t - z') / (t - bo))%Q.
Proof.
  intros t bo z z' H L. apply q2r_le. assert (P : (0 < t - bo)%Q) by Lqa.lra. unfold Qdiv. apply Qmult_le_compat_r; [Lqa.lra|].
  apply Qlt_le_weak, Qinv_lt_0_compat. auto.
Qed.

Lemma between_le : forall a d f f', a <= d -> f <= f' -> between a d f <= between a d f'.
Proof. intros. unfold between. nra. Qed.

Lemma friction_deepens : forall s sig sig' f f', admissible s -> no_weaker_below s -> 0 <= sig -> sig <= sig' -> 0 <= f -> f <= f' -> f' <= 1 ->
  match s with Clay _ => 0.001 <= sig | Sand _ => True end -> unit_friction s sig f <= unit_friction s sig' f'.
Proof.
  intros [ca|sa] sig sig' f f' A NW S1 S2 F0 F1 F2 B; cbn [unit_friction].
  - cbn in A, NW, B. destruct A as (_ & _ & _ & A1 & A2 & _). destruct (Req_EM_T sig 0); [lra|]. destruct (Req_EM_T sig' 0); [lra|].
    pose proof (between_le (ca_Su_top ca) (ca_Su_bottom ca) f f' NW F1) as BL.
    assert (B0 : 0 < between (ca_Su_top ca) (ca_Su_bottom ca) f) by (unfold between; nra).
    destruct (C50_clay_friction_partial sig (between (ca_Su_top ca) (ca_Su_bottom ca) f) 1) as (_ & E1 & _ & M); try lra.
    destruct (C50_clay_friction_partial sig' (between (ca_Su_top ca) (ca_Su_bottom ca) f') 1) as (_ & E2 & _ & _); try lra.
    rewrite <- E1, <- E2 by lra. apply M; lra.
  - cbn in A, NW. destruct A as (_ & A1 & _ & A2 & A3 & _).
    pose proof (between_le (sa_delta_top sa) (sa_delta_bottom sa) f f' NW F1) as BL.
    assert (B0 : 0 <= between (sa_delta_top sa) (sa_delta_bottom sa) f) by (unfold between; nra).
    assert (B1 : between (sa_delta_top sa) (sa_delta_bottom sa) f' < 90) by (unfold between; nra).
    apply (C50_sand_friction sig _ (sa_K sa)); lra.
Qed.

Lemma factors_nn : forall s, admissible s -> 0 <= friction_factor s /\ 0 <= tension_factor s.
Proof.
  intros [ca|sa] A; unfold friction_factor, tension_factor; cbn in A.
  - destruct A as ((t & z & E & _ & T & _) & _ & T2 & _). rewrite E. cbn [factor]. lra.
  - destruct A as ((t & z & E & _ & T & _) & _ & T2 & _). rewrite E. cbn [factor]. lra.
Qed.

Lemma layers_deepen : forall comp, (forall y s, In y xs -> x_soil y = Some s -> no_weaker_below s) ->
  (forall i y c0, (i < length (elems st))%nat -> layer_of xs (el i) = Some y -> x_soil y = Some (Clay c0) ->
     0.001 <= Q2R (overburden (map x_layer xs) (water st) (fst (el i)))) ->
  deepening (capacity_at comp xs st co) st.
Proof using SIT.
  intros comp NW BU i z z' Li. cbv zeta. intros Z1 Z2 Z3. unfold capacity_at.
  destruct (layer_of xs (el i)) as [y|] eqn:EY; [|lra]. destruct (x_soil y) as [s|] eqn:ES; [|lra]. cbv zeta.
  assert (SIT' := SIT). destruct SIT' as (F & W & _ & _ & OW & AD & _). destruct (OW i Li) as (_ & CO & _).
  pose proof EY as EY'. unfold layer_of in EY'. apply find_some in EY'. destruct EY' as (IY & BB). apply andb_true_iff in BB. destruct BB as (B1 & B2). apply Qle_bool_iff in B1, B2.
  destruct (heights i Li) as (HP & _).
  assert (TB : (l_bottom (x_layer y) < l_top (x_layer y))%Q) by Lqa.lra.
  assert (WW : forall l0, In l0 (map x_layer xs) -> (10 < l_weight l0)%Q) by (intros l0 I0; apply in_map_iff in I0; destruct I0 as (y0 & <- & I0); auto).
  destruct (overburden_antitone (map x_layer xs) (water st) z' z WW Z2) as (O1 & O2).
  destruct (overburden_antitone (map x_layer xs) (water st) z (fst (el i)) WW Z3) as (O3 & O4).
  apply q2r_le in O1, O2, O4. replace (Q2R 0) with 0 in O1 by (unfold Q2R; cbn; lra).
  assert (CP : 0 <= Q2R (co i)). { replace 0 with (Q2R 0) by (unfold Q2R; cbn; lra). apply q2r_le. Lqa.lra. }
  destruct (factors_nn s (AD y s IY ES)) as (FF & TF).
  unfold line_capacity, sliding_perimeter.
  apply Rmult_le_compat_r; [destruct (plugged comp (soil_plug s)); lra|].
  apply Rmult_le_compat_r; [destruct comp; lra|]. apply Rmult_le_compat_r; [exact FF|].
  apply friction_deepens; auto.
  - apply (AD y s IY ES).
  - apply (NW y s IY ES).
  - replace 0 with (Q2R 0) by (unfold Q2R; cbn; lra). apply q2r_le. apply Qle_shift_div_l; Lqa.lra.
  - apply fraction_le; auto.
  - replace 1 with (Q2R 1) by (unfold Q2R; cbn; lra). apply q2r_le. apply Qle_shift_div_r; Lqa.lra.
  - destruct s as [c0|]; [|exact Logic.I]. pose proof (BU i y c0 Li EY ES). lra.
Qed.
End Situation.
