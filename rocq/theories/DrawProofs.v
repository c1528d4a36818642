(** Lemmas about the plots. *)
From Coq Require Import String List Bool Arith ZArith QArith Qabs Qminmax Lia Lqa FinFun Permutation.
From Verif Require Import Base BCModel BCSpec BCProofs PileModel MeshModel AccessModel LinAlg BeamModel SolveModel SpringModel WinklerModel ResultModel.
From Verif Require Import DrawModel DrawSpec.
Import ListNotations.
Local Open Scope Q_scope.

(** ** extremes *)
Lemma fold_max_spec : forall l a, (exists q, (q = a \/ In q l) /\ fold_left Qmax l a == q) /\
  a <= fold_left Qmax l a /\ forall q, In q l -> q <= fold_left Qmax l a.
Proof.
  induction l as [|x l IH]; intros a; cbn [fold_left].
  - repeat split; [exists a; split; [auto|reflexivity]|apply Qle_refl|intros q []].
  - destruct (IH (Qmax a x)) as ((q & Hq & E) & G & A). repeat split.
    + destruct Hq as [->|Hq].
      * destruct (Q.max_spec a x) as [[_ M]|[_ M]]; [exists x|exists a]; (split; [cbn; tauto|rewrite E; exact M]).
      * exists q. split; [cbn; tauto|exact E].
    + eapply Qle_trans; [apply Q.le_max_l|exact G].
    + intros y [->|Iy]; [eapply Qle_trans; [apply Q.le_max_r|exact G]|auto].
Qed.

Lemma fold_min_spec : forall l a, (exists q, (q = a \/ In q l) /\ fold_left Qmin l a == q) /\
  fold_left Qmin l a <= a /\ forall q, In q l -> fold_left Qmin l a <= q.
Proof.
  induction l as [|x l IH]; intros a; cbn [fold_left].
  - repeat split; [exists a; split; [auto|reflexivity]|apply Qle_refl|intros q []].
  - destruct (IH (Qmin a x)) as ((q & Hq & E) & G & A). repeat split.
    + destruct Hq as [->|Hq].
      * destruct (Q.min_spec a x) as [[_ M]|[_ M]]; [exists a|exists x]; (split; [cbn; tauto|rewrite E; exact M]).
      * exists q. split; [cbn; tauto|exact E].
    + eapply Qle_trans; [exact G|apply Q.le_min_l].
    + intros y [->|Iy]; [eapply Qle_trans; [exact G|apply Q.le_min_r]|auto].
Qed.

Lemma zmax_spec : forall z, z <> [] -> (exists q, In q z /\ zmax z == q) /\ forall q, In q z -> q <= zmax z.
Proof.
  intros [|a l] N; [congruence|]. destruct (fold_max_spec l a) as ((q & Hq & E) & G & A). split.
  - exists q. split; [destruct Hq as [->|]; cbn; auto|exact E].
  - intros y [->|I]; [exact G|apply A; exact I].
Qed.

Lemma zmin_spec : forall z, z <> [] -> (exists q, In q z /\ zmin z == q) /\ forall q, In q z -> zmin z <= q.
Proof.
  intros [|a l] N; [congruence|]. destruct (fold_min_spec l a) as ((q & Hq & E) & G & A). split.
  - exists q. split; [destruct Hq as [->|]; cbn; auto|exact E].
  - intros y [->|I]; [exact G|apply A; exact I].
Qed.

Lemma total_length_spans : forall z, z <> [] -> spans z (total_length z).
Proof.
  intros z N. destruct (zmax_spec z N) as ((a & Ia & Ea) & Ga). destruct (zmin_spec z N) as ((b & Ib & Eb) & Gb).
  exists a, b. repeat split; auto.
  - rewrite <- Eb. auto.
  - rewrite <- Ea. auto.
  - unfold total_length. rewrite Ea, Eb. reflexivity.
Qed.

Lemma total_length_nonneg : forall z, 0 <= total_length z.
Proof.
  intros [|a l]; [unfold total_length; cbn; lra|].
  destruct (zmax_spec (a :: l)) as (_ & G); [congruence|]. destruct (zmin_spec (a :: l)) as (_ & G'); [congruence|].
  unfold total_length. specialize (G a (or_introl eq_refl)). specialize (G' a (or_introl eq_refl)). lra.
Qed.

Lemma load_max_largest : forall loads, loads <> [] -> largest_of loads (load_max loads).
Proof.
  intros l N. assert (N' : map Qabs l <> []) by (destruct l; [congruence|discriminate]).
  destruct (zmax_spec _ N') as ((q & I & E) & G). apply in_map_iff in I. destruct I as (x & <- & Ix). split.
  - exists x. split; [exact Ix|symmetry; exact E].
  - intros y Iy. apply G. apply in_map. exact Iy.
Qed.

Lemma load_max_pos : forall loads q, In q loads -> ~ q == 0 -> 0 < load_max loads.
Proof.
  intros l q I N. assert (N' : l <> []) by (intros ->; destruct I).
  destruct (load_max_largest l N') as (_ & G). specialize (G q I).
  assert (0 < Qabs q); [|lra]. destruct (Qlt_le_dec 0 (Qabs q)) as [|L]; auto. exfalso. apply N.
  assert (B : Qabs q == 0) by (pose proof (Qabs_nonneg q); lra).
  revert B. apply Qabs_case; intros; lra.
Qed.

(** ** lengths of arrows *)
Lemma arrow_length_value : forall z loads q, In q loads -> ~ q == 0 ->
  arrow_length z loads q * load_max loads == 0.1 * total_length z * Qabs q.
Proof.
  intros z loads q I N. pose proof (load_max_pos loads q I N) as P. unfold arrow_length.
  unfold Qdiv. rewrite Qabs_Qmult. rewrite (Qabs_pos (/ load_max loads)) by (apply Qlt_le_weak, Qinv_lt_0_compat; exact P).
  field. lra.
Qed.

Lemma arrow_length_bounds : forall z loads q, In q loads -> ~ q == 0 ->
  0 <= arrow_length z loads q /\ arrow_length z loads q <= 0.1 * total_length z.
Proof.
  intros z loads q I N. pose proof (load_max_pos loads q I N) as P. pose proof (total_length_nonneg z) as T.
  pose proof (arrow_length_value z loads q I N) as V.
  assert (B : Qabs q <= load_max loads) by (apply load_max_largest; [intros ->; destruct I|exact I]).
  split.
  - unfold arrow_length. apply Qmult_le_0_compat; [lra|apply Qabs_nonneg].
  - apply (Qmult_le_r _ _ _ P). rewrite V. apply Qmult_le_compat_nonneg; split; try lra. apply Qabs_nonneg.
Qed.

Lemma arrow_length_pos : forall z loads q, In q loads -> ~ q == 0 -> 0 < total_length z -> 0 < arrow_length z loads q.
Proof.
  intros z loads q I N T. pose proof (load_max_pos loads q I N) as P. pose proof (arrow_length_value z loads q I N) as V.
  destruct (arrow_length_bounds z loads q I N) as [B _]. destruct (Qlt_le_dec 0 (arrow_length z loads q)) as [|L]; auto. exfalso.
  assert (E : arrow_length z loads q == 0) by lra. rewrite E in V.
  assert (A : 0 < Qabs q) by (destruct (Qlt_le_dec 0 (Qabs q)) as [|L']; auto; exfalso; apply N; pose proof (Qabs_nonneg q);
    assert (B' : Qabs q == 0) by lra; revert B'; apply Qabs_case; intros; lra).
  assert (0 < 0.1 * total_length z * Qabs q); [|lra]. apply Qmult_lt_0_compat; lra.
Qed.

(** ** numbering *)
Definition sources (l : list (nat * (Q * Q))) : list nat := map fst (filter (fun p => negb (Qeq_bool (snd (snd p)) 0)) l).

Lemma flat_map_sources : forall (P : nat -> arrow -> Prop) (f : nat * (Q * Q) -> list arrow) l,
  (forall i z q, In (i, (z, q)) l -> q == 0 -> f (i, (z, q)) = []) ->
  (forall i z q, In (i, (z, q)) l -> ~ q == 0 -> exists A, f (i, (z, q)) = [A] /\ P i A) ->
  Forall2 P (sources l) (flat_map f l).
Proof.
  intros P f. induction l as [|[i [z q]] l IH]; intros H0 H1; [apply Forall2_nil|].
  unfold sources. cbn [filter flat_map snd]. destruct (Qeq_bool q 0) eqn:E; cbn [negb].
  - apply Qeqb_true in E. rewrite (H0 i z q (or_introl eq_refl) E). cbn [app]. apply IH; intros; [eapply H0|eapply H1]; eauto; right; eauto.
  - apply Qeqb_false in E. destruct (H1 i z q (or_introl eq_refl) E) as (A & -> & HP). cbn [map fst app].
    apply Forall2_cons; [exact HP|]. apply IH; intros; [eapply H0|eapply H1]; eauto; right; eauto.
Qed.

Lemma numbered_in : forall (z loads : list Q) k i a q, length loads = length z ->
  (In (i, (a, q)) (combine (seq k (length z)) (combine z loads)) <->
   (k <= i)%nat /\ nth_error z (i - k) = Some a /\ nth_error loads (i - k) = Some q).
Proof.
  induction z as [|x z IH]; intros [|y loads] k i a q E; try discriminate E; cbn [length seq combine].
  - split; [intros []|]. intros (_ & H & _). destruct (i - k)%nat; discriminate.
  - cbn [In]. rewrite IH by (cbn in E; lia). split.
    + intros [H|(H1 & H2 & H3)].
      * assert (k = i /\ x = a /\ y = q) as (-> & -> & ->) by (repeat split; congruence). rewrite Nat.sub_diag. cbn. auto.
      * replace (i - k)%nat with (S (i - S k)) by lia. cbn. repeat split; auto. lia.
    + intros (H1 & H2 & H3). destruct (Nat.eq_dec k i) as [->|N].
      * left. rewrite Nat.sub_diag in *. cbn in H2, H3. congruence.
      * right. replace (i - k)%nat with (S (i - S k)) in H2, H3 by lia. cbn in H2, H3. repeat split; auto. lia.
Qed.

Lemma numbered_loads_in : forall (z loads : list Q) i a q, length loads = length z ->
  (In (i, (a, q)) (numbered_loads z loads) <-> nth_error z i = Some a /\ nth_error loads i = Some q).
Proof.
  intros z loads i a q E. unfold numbered_loads. rewrite (numbered_in z loads 0 i a q E). rewrite Nat.sub_0_r. intuition lia.
Qed.

Lemma sources_in : forall z loads i, length loads = length z ->
  (In i (sources (numbered_loads z loads)) <-> exists q, nth_error loads i = Some q /\ ~ q == 0).
Proof.
  intros z loads i E. unfold sources. rewrite in_map_iff. split.
  - intros ((j & a & q) & <- & H). apply filter_In in H. destruct H as (H & N). apply numbered_loads_in in H; auto.
    exists q. split; [apply H|]. cbn in N. apply negb_true_iff, Qeqb_false in N. exact N.
  - intros (q & H & N). destruct (nth_error z i) as [a|] eqn:Z.
    + exists (i, (a, q)). split; auto. apply filter_In. split; [apply numbered_loads_in; auto|]. cbn. apply negb_true_iff, Qeqb_false. exact N.
    + apply nth_error_None in Z. assert (i < length loads)%nat by (apply nth_error_Some; congruence). lia.
Qed.

Lemma map_fst_combine_NoDup : forall (B : Type) (l : list nat) (m : list B) p, NoDup l -> NoDup (map fst (filter p (combine l m))).
Proof.
  intros B l. induction l as [|x l IH]; intros [|y m] p N; try (apply NoDup_nil). cbn [combine filter].
  inversion N as [|? ? N1 N2]; subst. destruct (p (x, y)); auto. cbn. apply NoDup_cons; auto.
  intros I. apply in_map_iff in I. destruct I as ([u v] & <- & H). apply filter_In in H. destruct H as [H _].
  apply in_combine_l in H. contradiction.
Qed.

Lemma sources_NoDup : forall z loads, NoDup (sources (numbered_loads z loads)).
Proof. intros. apply map_fst_combine_NoDup, seq_NoDup. Qed.

(** the lateral loop does not number its loads *)
Lemma lateral_numbered : forall z loads, length loads = length z ->
  lateral_arrows z loads = flat_map (fun p => let '(_, (zv, load)) := p in let l := arrow_length z loads load in
    if Qeq_bool load 0 then []
    else if Qltb 0 load then [mkArrow (- l, zv) (0, zv) None]
    else if Qltb load 0 then [mkArrow (l, zv) (0, zv) None] else []) (numbered_loads z loads).
Proof.
  intros z loads E. unfold lateral_arrows, numbered_loads. generalize 0%nat. revert E.
  generalize (arrow_length z loads). revert loads. induction z as [|a z IH]; intros [|q loads] f E k; try discriminate E; auto.
  cbn [length seq combine flat_map]. f_equal. apply IH. cbn in E. lia.
Qed.

Lemma moment_loop_true : forall z loads l,
  moment_loop true z loads l = Ok (flat_map (fun p => let '(i, (zv, load)) := p in if Qeq_bool load 0 then [] else moment_arrow z loads i zv load) l).
Proof.
  intros z loads. induction l as [|[i [a q]] l IH]; [reflexivity|]. cbn [moment_loop flat_map]. rewrite IH.
  destruct (Qeq_bool q 0); reflexivity.
Qed.

Lemma moment_loop_false : forall z loads l,
  moment_loop false z loads l = if existsb (fun p => negb (Qeq_bool (snd (snd p)) 0)) l then Err UnboundLocalError else Ok [].
Proof.
  intros z loads. induction l as [|[i [a q]] l IH]; [reflexivity|]. cbn [moment_loop existsb snd]. rewrite IH.
  destruct (Qeq_bool q 0); reflexivity.
Qed.

Lemma some_load_iff : forall loads, some_load loads = true <-> exists i q, nth_error loads i = Some q /\ ~ q == 0.
Proof.
  intros l. unfold some_load. rewrite existsb_exists. split.
  - intros (q & I & N). apply In_nth_error in I. destruct I as (i & I). exists i, q. split; auto. apply negb_true_iff, Qeqb_false in N. exact N.
  - intros (i & q & I & N). exists q. split; [eapply nth_error_In; eauto|apply negb_true_iff, Qeqb_false; exact N].
Qed.

Lemma numbered_existsb : forall z loads, length loads = length z ->
  existsb (fun p : nat * (Q * Q) => negb (Qeq_bool (snd (snd p)) 0)) (numbered_loads z loads) = some_load loads.
Proof.
  intros z loads E. apply eq_true_iff_eq. rewrite some_load_iff, existsb_exists. split.
  - intros ((i & a & q) & I & N). apply numbered_loads_in in I; auto. exists i, q. split; [apply I|apply negb_true_iff, Qeqb_false in N; exact N].
  - intros (i & q & I & N). destruct (nth_error z i) as [a|] eqn:Z.
    + exists (i, (a, q)). split; [apply numbered_loads_in; auto|apply negb_true_iff, Qeqb_false; exact N].
    + apply nth_error_None in Z. assert (i < length loads)%nat by (apply nth_error_Some; congruence). lia.
Qed.

(** ** each arrow shows its load *)
Lemma is_last_tip : forall z i, (i < length z)%nat -> is_last z i = Nat.eqb (S i) (length z).
Proof. intros z i H. unfold is_last. apply eq_true_iff_eq. rewrite !Nat.eqb_eq. lia. Qed.
Section One.
  Variables (z loads : list Q).
  Hypothesis E : length loads = length z.
  Let L := total_length z.
  Let M := load_max loads.

  Lemma lateral_shows : Forall2 (fun i A => exists zi q, nth_error z i = Some zi /\ nth_error loads i = Some q /\ shows (Nat.eqb (S i) (length z)) L M AY zi q A)
    (sources (numbered_loads z loads)) (lateral_arrows z loads).
  Proof using E.
    rewrite lateral_numbered by exact E. apply flat_map_sources.
    - intros i a q _ H. apply Qeqb_true in H. rewrite H. reflexivity.
    - intros i a q I N. pose proof (proj1 (numbered_loads_in z loads i a q E) I) as [Hz Hq].
      pose proof (arrow_length_value z loads q (nth_error_In _ _ Hq) N) as V. fold L M in V.
      pose proof (proj2 (Qeqb_false _ _) N) as NB. rewrite NB. destruct (Qltb 0 q) eqn:B.
      + eexists. split; [reflexivity|]. exists a, q. repeat split; auto. cbn. apply Qltb_true in B.
        rewrite (Qabs_pos q) in V by lra. rewrite <- V. ring.
      + apply Qltb_false in B. assert (B' : Qltb q 0 = true) by (apply Qltb_true; destruct (Qlt_le_dec q 0); auto; exfalso; apply N; lra).
        rewrite B'. eexists. split; [reflexivity|]. exists a, q. repeat split; auto. cbn.
        rewrite (Qabs_neg q) in V by lra.
        assert (X : (0 - arrow_length z loads q) * M == - (arrow_length z loads q * M)) by ring. rewrite X, V. ring.
  Qed.

  Lemma axial_shows : Forall2 (fun i A => exists zi q, nth_error z i = Some zi /\ nth_error loads i = Some q /\ shows (Nat.eqb (S i) (length z)) L M AZ zi q A)
    (sources (numbered_loads z loads)) (axial_arrows z loads).
  Proof using E.
    unfold axial_arrows. apply flat_map_sources.
    - intros i a q _ H. apply Qeqb_true in H. rewrite H. reflexivity.
    - intros i a q I N. pose proof (proj1 (numbered_loads_in z loads i a q E) I) as [Hz Hq].
      pose proof (arrow_length_value z loads q (nth_error_In _ _ Hq) N) as V. fold L M in V.
      pose proof (proj2 (Qeqb_false _ _) N) as NB. rewrite NB. destruct (Qltb 0 q) eqn:B.
      + apply Qltb_true in B. rewrite (Qabs_pos q) in V by lra.
        rewrite <- (is_last_tip z i) by (apply nth_error_Some; congruence); destruct (is_last z i); eexists; (split; [reflexivity|]); exists a, q; repeat split; auto; cbn; auto; rewrite <- V; ring.
      + apply Qltb_false in B. assert (B' : Qltb q 0 = true) by (apply Qltb_true; destruct (Qlt_le_dec q 0); auto; exfalso; apply N; lra).
        rewrite B'. rewrite (Qabs_neg q) in V by lra.
        assert (X : - (arrow_length z loads q * M) == 0.1 * L * q) by (rewrite V; ring).
        rewrite <- (is_last_tip z i) by (apply nth_error_Some; congruence); destruct (is_last z i); eexists; (split; [reflexivity|]); exists a, q; repeat split; auto; cbn; auto; rewrite <- X; ring.
  Qed.

  Lemma moment_shows : Forall2 (fun i A => exists zi q, nth_error z i = Some zi /\ nth_error loads i = Some q /\ shows (Nat.eqb (S i) (length z)) L M AX zi q A)
    (sources (numbered_loads z loads))
    (flat_map (fun p => let '(i, (zv, load)) := p in if Qeq_bool load 0 then [] else moment_arrow z loads i zv load) (numbered_loads z loads)).
  Proof using E.
    apply flat_map_sources.
    - intros i a q _ H. apply Qeqb_true in H. rewrite H. reflexivity.
    - intros i a q I N. pose proof (proj1 (numbered_loads_in z loads i a q E) I) as [Hz Hq].
      pose proof (arrow_length_value z loads q (nth_error_In _ _ Hq) N) as V. fold L M in V.
      pose proof (arrow_length_bounds z loads q (nth_error_In _ _ Hq) N) as [G _].
      pose proof (arrow_length_pos z loads q (nth_error_In _ _ Hq) N) as GP. fold L in GP.
      pose proof (proj2 (Qeqb_false _ _) N) as NB. rewrite NB. unfold moment_arrow. cbv zeta.
      set (l := arrow_length z loads q) in *.
      assert (W : forall s, s == l * (4 # 3) -> s * M == (2 # 15) * L * Qabs q).
      { intros s Hs. rewrite Hs. assert (X : l * (4 # 3) * M == (4 # 3) * (l * M)) by ring. rewrite X, V. ring. }
      assert (W1 : Qabs (- l / 1.5 - l / 1.5) * M == (2 # 15) * L * Qabs q).
      { apply W. rewrite Qabs_neg; [field|]. assert (X : - l / 1.5 - l / 1.5 == - (l * (4 # 3))) by field. rewrite X. lra. }
      assert (W2 : Qabs (l / 1.5 - - l / 1.5) * M == (2 # 15) * L * Qabs q).
      { apply W. rewrite Qabs_pos; [field|]. assert (X : l / 1.5 - - l / 1.5 == l * (4 # 3)) by field. rewrite X. lra. }
      assert (Sq : 0 < L -> 0 < l * l) by (intros HL; specialize (GP HL); apply Qmult_lt_0_compat; auto).
      assert (RL : 0 < L -> - l / 1.5 < l / 1.5).
      { intros HL. specialize (GP HL). assert (X : l / 1.5 == l * (2 # 3)) by field. assert (X' : - l / 1.5 == - (l * (2 # 3))) by field. rewrite X, X'. lra. }
      destruct (Qltb 0 q) eqn:B.
      + apply Qltb_true in B.
        assert (K : forall x, (0 < L -> 0 < x) -> 0 < L -> (0 < q <-> 0 < x) /\ (q < 0 <-> x < 0)).
        { intros x HX HL. specialize (HX HL). repeat split; intros; lra. }
        rewrite <- (is_last_tip z i) by (apply nth_error_Some; congruence); destruct (is_last z i); eexists; (split; [reflexivity|]); exists a, q; (split; [auto|]); (split; [auto|]); exists 0.5; cbn -[Qabs];
          (split; [reflexivity|]); (split; [reflexivity|]); (split; [reflexivity|]); (split; [field|]); (split; [exact RL|]); (split; [assumption|]); apply K; intros HL; specialize (Sq HL);
          unfold sweep, control; cbn.
        * setoid_replace (((l / 1.5 + - l / 1.5) / 2 + 0.5 * (a - a) - l / 1.5) * (a - ((a + a) / 2 - 0.5 * (- l / 1.5 - l / 1.5))) -
            ((a + a) / 2 - 0.5 * (- l / 1.5 - l / 1.5) - a) * (- l / 1.5 - ((l / 1.5 + - l / 1.5) / 2 + 0.5 * (a - a)))) with (l * l * (8 # 9)) by field. lra.
        * setoid_replace (((- l / 1.5 + l / 1.5) / 2 + 0.5 * (a - a) - - l / 1.5) * (a - ((a + a) / 2 - 0.5 * (l / 1.5 - - l / 1.5))) -
            ((a + a) / 2 - 0.5 * (l / 1.5 - - l / 1.5) - a) * (l / 1.5 - ((- l / 1.5 + l / 1.5) / 2 + 0.5 * (a - a)))) with (l * l * (8 # 9)) by field. lra.
      + apply Qltb_false in B. assert (B0 : q < 0) by (destruct (Qlt_le_dec q 0); auto; exfalso; apply N; lra).
        pose proof (proj2 (Qltb_true q 0) B0) as B'. rewrite B'.
        assert (K : forall x, (0 < L -> x < 0) -> 0 < L -> (0 < q <-> 0 < x) /\ (q < 0 <-> x < 0)).
        { intros x HX HL. specialize (HX HL). repeat split; intros; lra. }
        rewrite <- (is_last_tip z i) by (apply nth_error_Some; congruence); destruct (is_last z i); eexists; (split; [reflexivity|]); exists a, q; (split; [auto|]); (split; [auto|]); exists (-0.5); cbn -[Qabs];
          (split; [reflexivity|]); (split; [reflexivity|]); (split; [reflexivity|]); (split; [field|]); (split; [exact RL|]); (split; [assumption|]); apply K; intros HL; specialize (Sq HL);
          unfold sweep, control; cbn.
        * setoid_replace (((l / 1.5 + - l / 1.5) / 2 + -0.5 * (a - a) - l / 1.5) * (a - ((a + a) / 2 - -0.5 * (- l / 1.5 - l / 1.5))) -
            ((a + a) / 2 - -0.5 * (- l / 1.5 - l / 1.5) - a) * (- l / 1.5 - ((l / 1.5 + - l / 1.5) / 2 + -0.5 * (a - a)))) with (- (l * l * (8 # 9))) by field. lra.
        * setoid_replace (((- l / 1.5 + l / 1.5) / 2 + -0.5 * (a - a) - - l / 1.5) * (a - ((a + a) / 2 - -0.5 * (l / 1.5 - - l / 1.5))) -
            ((a + a) / 2 - -0.5 * (l / 1.5 - - l / 1.5) - a) * (l / 1.5 - ((- l / 1.5 + l / 1.5) / 2 + -0.5 * (a - a)))) with (- (l * l * (8 # 9))) by field. lra.
  Qed.
End One.

(** ** marks *)
Definition picked (k : nat) (mask : list bool) : list nat := map fst (filter snd (combine (seq k (length mask)) mask)).

Lemma picked_marks : forall m mask z k, length mask = length z ->
  Forall2 (fun i p => (k <= i)%nat /\ exists zi, nth_error z (i - k) = Some zi /\ p = (m, (0, zi))) (picked k mask) (marks m z mask).
Proof.
  intros m. induction mask as [|b mask IH]; intros [|a z] k E; try discriminate E; [apply Forall2_nil|].
  unfold picked, marks, masked. cbn [length seq combine filter snd].
  assert (R : Forall2 (fun i p => (k <= i)%nat /\ exists zi, nth_error (a :: z) (i - k) = Some zi /\ p = (m, (0, zi)))
     (picked (S k) mask) (marks m z mask)).
  { pose proof (IH z (S k) ltac:(cbn in E; lia)) as R. clear IH E. induction R as [|i p li lp (L & zi & N & Ep) R IHR]; [apply Forall2_nil|].
    apply Forall2_cons; auto. split; [lia|]. exists zi. split; auto. replace (i - k)%nat with (S (i - S k)) by lia. exact N. }
  destruct b; [|exact R]. cbn [map fst snd]. apply Forall2_cons; [|exact R].
  split; [lia|]. exists a. rewrite Nat.sub_diag. auto.
Qed.

Lemma picked_in : forall mask k i, In i (picked k mask) <-> (k <= i)%nat /\ nth_error mask (i - k) = Some true.
Proof.
  induction mask as [|b mask IH]; intros k i; unfold picked; cbn [length seq combine filter snd].
  - split; [intros []|]. intros (_ & H). destruct (i - k)%nat; discriminate.
  - specialize (IH (S k) i). unfold picked in IH. destruct b; cbn [map fst snd In]; rewrite IH; split.
    + intros [->|(L & N)]; [rewrite Nat.sub_diag; cbn; auto|]. split; [lia|]. replace (i - k)%nat with (S (i - S k)) by lia. exact N.
    + intros (L & N). destruct (Nat.eq_dec k i) as [|D]; auto. right. split; [lia|]. replace (i - k)%nat with (S (i - S k)) in N by lia. exact N.
    + intros (L & N). split; [lia|]. replace (i - k)%nat with (S (i - S k)) by lia. exact N.
    + intros (L & N). destruct (Nat.eq_dec k i) as [->|D]; [rewrite Nat.sub_diag in N; discriminate|].
      split; [lia|]. replace (i - k)%nat with (S (i - S k)) in N by lia. exact N.
Qed.

Lemma picked_NoDup : forall mask k, NoDup (picked k mask).
Proof. intros. apply map_fst_combine_NoDup, seq_NoDup. Qed.

Lemma but_last_length : forall l, length (but_last l) = length l.
Proof. induction l as [|b [|c l] IH]; auto. cbn [but_last length] in *. rewrite IH. reflexivity. Qed.
Lemma just_last_length : forall l, length (just_last l) = length l.
Proof. induction l as [|b [|c l] IH]; auto. cbn [just_last length] in *. rewrite IH. reflexivity. Qed.

Lemma but_last_nth : forall l i, nth_error (but_last l) i = Some true <-> nth_error l i = Some true /\ S i <> length l.
Proof.
  induction l as [|b l IH]; intros i; [destruct i; cbn; intuition discriminate|].
  destruct l as [|c l]; [destruct i as [|[|]]; cbn; intuition discriminate|].
  destruct i as [|i]; [cbn; intuition discriminate|]. change (but_last (b :: c :: l)) with (b :: but_last (c :: l)).
  cbn [nth_error]. rewrite IH. cbn [length]. intuition lia.
Qed.

Lemma just_last_nth : forall l i, nth_error (just_last l) i = Some true <-> nth_error l i = Some true /\ S i = length l.
Proof.
  induction l as [|b l IH]; intros i; [destruct i; cbn; intuition discriminate|].
  destruct l as [|c l]; [destruct i as [|[|]]; cbn; intuition (congruence || discriminate)|].
  destruct i as [|i]; [cbn; intuition discriminate|]. change (just_last (b :: c :: l)) with (false :: just_last (c :: l)).
  cbn [nth_error]. rewrite IH. cbn [length]. intuition lia.
Qed.

Lemma flags_nth : forall a t i, nth_error (flags a t) i = Some true <-> exists q, nth_error (col a t) i = Some q /\ ~ q == 0.
Proof.
  intros a t i. unfold flags. rewrite nth_error_map. destruct (nth_error (col a t) i) as [q|]; cbn; split.
  - intros E. exists q. split; auto. assert (negb (Qeq_bool q 0) = true) as N by congruence. apply negb_true_iff, Qeqb_false in N. exact N.
  - intros (q' & E & N). injection E as ->. f_equal. apply negb_true_iff, Qeqb_false. exact N.
  - discriminate.
  - intros (q' & E & _). discriminate.
Qed.

Lemma Forall2_imp_in : forall A B (P R : A -> B -> Prop) l m, Forall2 P l m -> (forall a b, In a l -> P a b -> R a b) -> Forall2 R l m.
Proof.
  intros A B P R l m F. induction F as [|a b l m Pab F IH]; intros H; [apply Forall2_nil|].
  apply Forall2_cons; [apply H; auto; left; reflexivity|]. apply IH. intros x y I. apply H. right; exact I.
Qed.

Lemma Forall2_map_l : forall A A' B (f : A -> A') (P : A' -> B -> Prop) l m, Forall2 (fun a b => P (f a) b) l m -> Forall2 P (map f l) m.
Proof. intros A A' B f P l m F. induction F; [apply Forall2_nil|apply Forall2_cons; auto]. Qed.

Lemma NoDup_tagged : forall (f : axis -> list nat), (forall a, NoDup (f a)) ->
  NoDup (map (pair AY) (f AY) ++ map (pair AZ) (f AZ) ++ map (pair AX) (f AX)) .
Proof.
  intros f N. assert (T : forall a, NoDup (map (pair a) (f a))).
  { intros a. apply FinFun.Injective_map_NoDup; auto. intros x y E. congruence. }
  assert (D : forall a b i, a <> b -> In (a, i) (map (pair b) (f b)) -> False).
  { intros a b i Nab I. apply in_map_iff in I. destruct I as (x & E & _). congruence. }
  assert (AP : forall l m : list (axis * nat), NoDup l -> NoDup m -> (forall x, In x l -> In x m -> False) -> NoDup (l ++ m)).
  { induction l as [|x l IH]; intros m Nl Nm H; auto. inversion Nl; subst. cbn. apply NoDup_cons.
    - intros I. apply in_app_or in I. destruct I as [I|I]; [contradiction|]. apply (H x); auto. left; auto.
    - apply IH; auto. intros y Iy. apply H. right; auto. }
  apply AP; auto.
  - apply AP; auto. intros [a i] I I2. apply in_map_iff in I. destruct I as (x & E & _). injection E as <- <-. apply (D AZ AX x); [discriminate|exact I2].
  - intros [a i] I I2. apply in_map_iff in I. destruct I as (x & E & _). injection E as <- <-. apply in_app_or in I2.
    destruct I2 as [I2|I2]; [apply (D AY AZ x)|apply (D AY AX x)]; auto; discriminate.
Qed.

Lemma in_tagged : forall (f : axis -> list nat) a i,
  In (a, i) (map (pair AY) (f AY) ++ map (pair AZ) (f AZ) ++ map (pair AX) (f AX)) <-> In i (f a).
Proof.
  intros f a i. rewrite !in_app_iff, !in_map_iff. split.
  - intros [(x & E & H)|[(x & E & H)|(x & E & H)]]; injection E as <- <-; exact H.
  - intros H. destruct a; [right; right|left|right; left]; eauto.
Qed.

(** ** the tables *)
Lemma forces_table : forall z l t, global_forces z l = Ok t -> forall a, length (col a t) = length z.
Proof.
  intros z l t H a. unfold global_forces in H. destruct (validate_bc l Force); [|discriminate]. cbn in H. injection H as <-.
  rewrite apply_bc_col_length, zeros_col. apply map_length.
Qed.

Lemma restrained_table : forall z l t, global_restrained z l = Ok t -> forall a, length (col a t) = length z.
Proof.
  intros z l t H a. unfold global_restrained in H. destruct (validate_bc l Fixation); [|discriminate]. cbn in H. injection H as <-.
  rewrite apply_bc_col_length, zeros_col. apply map_length.
Qed.

Lemma restrained_sent : forall z l t, global_restrained z l = Ok t -> forall a i,
  (exists q, nth_error (col a t) i = Some q /\ ~ q == 0) <-> exists b q, In b l /\ sends z Fixation i a b q.
Proof.
  intros z l t H a i. pose proof (restrained_table z l t H a) as Len. unfold global_restrained in H. destruct (validate_bc l Fixation); [|discriminate].
  cbn in H. injection H as <-. split.
  - intros (q & N & NZ). assert (Li : (i < length z)%nat) by (rewrite <- Len; apply nth_error_Some; congruence).
    destruct (apply_bc_column (fun _ => 1) z Fixation l a i Li) as [(q' & (l1 & b & l2 & -> & S & _) & _)|(_ & V)].
    + exists b, q'. split; [apply in_or_app; right; left; reflexivity|exact S].
    + rewrite N in V. injection V as ->. exfalso. apply NZ. reflexivity.
  - intros (b & q & I & S).
    assert (Li : (i < length z)%nat) by (destruct S as (_ & (zi & N & _) & _); apply nth_error_Some; congruence).
    destruct (apply_bc_column (fun _ => 1) z Fixation l a i Li) as [(q' & _ & V)|(NS & _)].
    + exists 1. split; auto. discriminate.
    + exfalso. eapply NS; eauto.
Qed.

(** ** the whole plot *)
Lemma connectivity_arrows : forall z top bottom soil view tf tr g, connectivity z top bottom soil view tf tr = Ok g ->
  load_arrows z tf = Ok (g_arrows g) /\ g_marks g = support_marks z tr.
Proof.
  intros z top bottom soil view tf tr g H. unfold connectivity in H. destruct (load_arrows z tf) as [A|e]; [|discriminate]. cbn in H.
  destruct soil; injection H as <-; auto.
Qed.

Lemma model_plot_inv : forall z top bottom soil view l g, model_plot z top bottom soil view l = Ok g ->
  exists tr tf, global_restrained z l = Ok tr /\ global_forces z l = Ok tf /\ connectivity z top bottom soil view tf tr = Ok g.
Proof.
  intros z top bottom soil view l g H. unfold model_plot in H. destruct (global_restrained z l) as [tr|]; [|discriminate]. cbn in H.
  destruct (global_forces z l) as [tf|]; [|discriminate]. eauto.
Qed.

Definition arrow_sources (z : list Q) (tf : table) : list (axis * nat) :=
  map (pair AY) (sources (numbered_loads z (col AY tf))) ++ map (pair AZ) (sources (numbered_loads z (col AZ tf)))
  ++ map (pair AX) (sources (numbered_loads z (col AX tf))).

Lemma load_arrows_value : forall z tf A, (forall a, length (col a tf) = length z) -> load_arrows z tf = Ok A ->
  A = lateral_arrows z (col AY tf) ++ axial_arrows z (col AZ tf) ++
      flat_map (fun p => let '(i, (zv, load)) := p in if Qeq_bool load 0 then [] else moment_arrow z (col AX tf) i zv load) (numbered_loads z (col AX tf)).
Proof.
  intros z tf A Len H. unfold load_arrows in H. destruct (some_load (col AY tf) || some_load (col AZ tf)).
  - rewrite moment_loop_true in H. cbn [bind] in H. injection H as <-. reflexivity.
  - rewrite moment_loop_false in H. destruct (existsb _ _) eqn:EX; [discriminate|]. cbn [bind] in H.
    assert (F : flat_map (fun p : nat * (Q * Q) => let '(i, (zv, load)) := p in if Qeq_bool load 0 then [] else moment_arrow z (col AX tf) i zv load) (numbered_loads z (col AX tf)) = []).
    { revert EX. generalize (numbered_loads z (col AX tf)). induction l as [|[i [a q]] l IH]; auto. cbn [existsb snd flat_map].
      intros EX. apply orb_false_iff in EX. destruct EX as [E1 E2]. apply negb_false_iff in E1. rewrite E1. auto. }
    rewrite F, app_nil_r. rewrite app_nil_r in H. injection H as <-. reflexivity.
Qed.

Lemma Forall2_app_gen : forall A B (P : A -> B -> Prop) l l' m m', Forall2 P l m -> Forall2 P l' m' -> Forall2 P (l ++ l') (m ++ m').
Proof. intros. apply Forall2_app; auto. Qed.

Lemma arrows_shown : forall z tf A, (forall a, length (col a tf) = length z) -> load_arrows z tf = Ok A ->
  Forall2 (fun s x => exists zi q, nth_error z (snd s) = Some zi /\ nth_error (col (fst s) tf) (snd s) = Some q /\
     shows (Nat.eqb (S (snd s)) (length z)) (total_length z) (load_max (col (fst s) tf)) (fst s) zi q x) (arrow_sources z tf) A.
Proof.
  intros z tf A Len H. rewrite (load_arrows_value z tf A Len H). unfold arrow_sources.
  apply Forall2_app; [|apply Forall2_app]; apply Forall2_map_l; cbn [fst snd].
  - apply lateral_shows. apply Len.
  - apply axial_shows. apply Len.
  - apply moment_shows. apply Len.
Qed.

Lemma arrow_sources_spec : forall z tf, (forall a, length (col a tf) = length z) ->
  NoDup (arrow_sources z tf) /\ forall a i, In (a, i) (arrow_sources z tf) <-> exists q, nth_error (col a tf) i = Some q /\ ~ q == 0.
Proof.
  intros z tf Len. pose (f := fun a => sources (numbered_loads z (col a tf))). split.
  - apply (NoDup_tagged f). intros a. apply sources_NoDup.
  - intros a i. transitivity (In i (f a)); [apply (in_tagged f a i)|]. apply sources_in. apply Len.
Qed.

Definition mark_sources (tr : table) : list (axis * nat) :=
  map (pair AZ) (picked 0 (but_last (flags AZ tr)) ++ picked 0 (just_last (flags AZ tr)))
  ++ map (pair AY) (picked 0 (flags AY tr)) ++ map (pair AX) (picked 0 (flags AX tr)).

Lemma marks_shown : forall z tr, (forall a, length (col a tr) = length z) ->
  Forall2 (fun s k => exists zi, nth_error z (snd s) = Some zi /\ k = (mark_of (length z) (fst s) (snd s), (0, zi))) (mark_sources tr) (support_marks z tr).
Proof.
  intros z tr Len. assert (FL : forall a, length (flags a tr) = length z) by (intros a; unfold flags; rewrite map_length; apply Len).
  unfold mark_sources, support_marks. rewrite map_app, <- app_assoc. repeat apply Forall2_app; apply Forall2_map_l; cbn [fst snd].
  - eapply Forall2_imp_in; [apply picked_marks; rewrite but_last_length; apply FL|]. intros i k I (_ & zi & N & ->).
    apply picked_in in I. rewrite Nat.sub_0_r in *. destruct I as [_ I]. apply but_last_nth in I. rewrite FL in I. exists zi. split; auto.
    cbn. destruct (length z) as [|n]; auto. destruct (Nat.eqb_spec i n); auto. subst. destruct I as [_ I]. congruence.
  - eapply Forall2_imp_in; [apply picked_marks; rewrite just_last_length; apply FL|]. intros i k I (_ & zi & N & ->).
    apply picked_in in I. rewrite Nat.sub_0_r in *. destruct I as [_ I]. apply just_last_nth in I. rewrite FL in I. exists zi. split; auto.
    cbn. destruct I as [_ <-]. rewrite Nat.eqb_refl. reflexivity.
  - eapply Forall2_imp_in; [apply picked_marks; apply FL|]. intros i k _ (_ & zi & N & ->). rewrite Nat.sub_0_r in N. exists zi. auto.
  - eapply Forall2_imp_in; [apply picked_marks; apply FL|]. intros i k _ (_ & zi & N & ->). rewrite Nat.sub_0_r in N. exists zi. auto.
Qed.

Lemma NoDup_perm_app : forall A (l m n : list A), NoDup (m ++ l ++ n) -> NoDup (l ++ m ++ n).
Proof.
  intros A l m n H. rewrite app_assoc in *.
  eapply (Permutation.Permutation_NoDup (l := (m ++ l) ++ n)); [|exact H].
  apply Permutation.Permutation_app_tail, Permutation.Permutation_app_comm.
Qed.

Lemma mark_sources_spec : forall tr, 
  NoDup (mark_sources tr) /\ forall a i, In (a, i) (mark_sources tr) <-> exists q, nth_error (col a tr) i = Some q /\ ~ q == 0.
Proof.
  intros tr. pose (f := fun a => match a with AZ => picked 0 (but_last (flags AZ tr)) ++ picked 0 (just_last (flags AZ tr)) | a => picked 0 (flags a tr) end).
  assert (FI : forall a i, In i (f a) <-> exists q, nth_error (col a tr) i = Some q /\ ~ q == 0).
  { intros a i. rewrite <- flags_nth. destruct a; unfold f.
    - rewrite picked_in, Nat.sub_0_r. intuition lia.
    - rewrite picked_in, Nat.sub_0_r. intuition lia.
    - rewrite in_app_iff, !picked_in, Nat.sub_0_r, but_last_nth, just_last_nth.
      destruct (Nat.eq_dec (S i) (length (flags AZ tr))); intuition lia. }
  split.
  - unfold mark_sources. apply NoDup_perm_app. apply (NoDup_tagged f). intros [].
    + apply picked_NoDup.
    + apply picked_NoDup.
    + unfold f. assert (AP : forall l m : list nat, NoDup l -> NoDup m -> (forall x, In x l -> In x m -> False) -> NoDup (l ++ m)).
      { induction l as [|x l IH]; intros m Nl Nm H; auto. inversion Nl; subst. cbn. apply NoDup_cons.
        - intros I. apply in_app_or in I. destruct I as [I|I]; [contradiction|]. apply (H x); auto. left; auto.
        - apply IH; auto. intros y Iy. apply H. right; auto. }
      apply AP; try apply picked_NoDup. intros x H1 H2. apply picked_in in H1. apply picked_in in H2. rewrite Nat.sub_0_r in *.
      destruct H1 as [_ H1]. destruct H2 as [_ H2]. apply but_last_nth in H1. apply just_last_nth in H2. tauto.
  - intros a i. rewrite <- FI. pose proof (in_tagged f a i) as T. unfold mark_sources. rewrite !in_app_iff in *. cbn [f] in *. rewrite <- T. tauto.
Qed.

(** ** limits *)
Lemma lateral_inside : forall z loads A, length loads = length z -> In A (lateral_arrows z loads) -> forall p, p = ar_from A \/ p = ar_to A ->
  Qabs (fst p) <= 0.1 * total_length z /\ In (snd p) z.
Proof.
  intros z loads A E I p Hp. unfold lateral_arrows in I. apply in_flat_map in I. destruct I as ([zv q] & Ic & I).
  pose proof (in_combine_l _ _ _ _ Ic) as Iz. pose proof (in_combine_r _ _ _ _ Ic) as Iq.
  pose proof (total_length_nonneg z) as T.
  destruct (Qeq_bool q 0) eqn:N; [destruct I|]. apply Qeqb_false in N. destruct (arrow_length_bounds z loads q Iq N) as [G1 G2].
  destruct (Qltb 0 q); [|destruct (Qltb q 0); [|destruct I]]; (destruct I as [<-|[]]); cbn in Hp; destruct Hp as [-> | ->]; cbn -[Qabs]; (split; [|exact Iz]).
  - rewrite Qabs_opp, Qabs_pos; auto.
  - change (Qabs 0) with 0. lra.
  - rewrite Qabs_pos; auto.
  - change (Qabs 0) with 0. lra.
Qed.

Lemma axial_inside : forall z loads A, length loads = length z -> In A (axial_arrows z loads) -> forall p, p = ar_from A \/ p = ar_to A ->
  fst p = 0 /\ exists zi, In zi z /\ Qabs (snd p - zi) <= 0.1 * total_length z.
Proof.
  intros z loads A E I p Hp. unfold axial_arrows in I. apply in_flat_map in I. destruct I as ([i [zv q]] & Ic & I).
  apply numbered_loads_in in Ic; auto. destruct Ic as [Iz Iq]. apply nth_error_In in Iz. apply nth_error_In in Iq.
  pose proof (total_length_nonneg z) as T.
  destruct (Qeq_bool q 0) eqn:N; [destruct I|]. apply Qeqb_false in N. destruct (arrow_length_bounds z loads q Iq N) as [G1 G2].
  assert (R : forall x, x == zv \/ x == zv + arrow_length z loads q \/ x == zv - arrow_length z loads q -> Qabs (x - zv) <= 0.1 * total_length z).
  { intros x [X|[X|X]]; rewrite X; apply Qabs_case; lra. }
  destruct (Qltb 0 q); [|destruct (Qltb q 0); [|destruct I]]; destruct (is_last z i); (destruct I as [<-|[]]); cbn in Hp; destruct Hp as [-> | ->]; cbn -[Qabs];
    (split; [reflexivity|]); exists zv; (split; [exact Iz|]); apply R; try (left; reflexivity); right; try (left; reflexivity); right; reflexivity.
Qed.

Lemma moment_inside : forall z loads A, length loads = length z ->
  In A (flat_map (fun p => let '(i, (zv, load)) := p in if Qeq_bool load 0 then [] else moment_arrow z loads i zv load) (numbered_loads z loads)) ->
  forall p, p = ar_from A \/ p = ar_to A -> Qabs (fst p) <= 0.1 * total_length z /\ In (snd p) z.
Proof.
  intros z loads A E I p Hp. apply in_flat_map in I. destruct I as ([i [zv q]] & Ic & I).
  apply numbered_loads_in in Ic; auto. destruct Ic as [Iz Iq]. apply nth_error_In in Iz. apply nth_error_In in Iq.
  pose proof (total_length_nonneg z) as T.
  destruct (Qeq_bool q 0) eqn:N; [destruct I|]. apply Qeqb_false in N. destruct (arrow_length_bounds z loads q Iq N) as [G1 G2].
  unfold moment_arrow in I.
  assert (R : forall x, x == arrow_length z loads q / 1.5 \/ x == - arrow_length z loads q / 1.5 -> Qabs x <= 0.1 * total_length z).
  { assert (D : forall l, l / 1.5 == l * (2 # 3)) by (intros; field). intros x [X|X]; rewrite X, D; apply Qabs_case; lra. }
  destruct (Qltb 0 q); [|destruct (Qltb q 0); [|destruct I]]; destruct (is_last z i); (destruct I as [<-|[]]); cbn in Hp; destruct Hp as [-> | ->]; cbn -[Qabs];
    (split; [apply R|exact Iz]); try (left; reflexivity); right; reflexivity.
Qed.
