(** Beam analyses of models with soil. *)
From Coq Require Import List Bool Arith ZArith QArith Qabs Lia Lqa Setoid.
From Verif Require Import Base LinAlg PileModel BeamModel BeamSpec BeamProofs SolveModel SolveSpec SolveProofs ForceProofs SpringModel SpringSpec SpringProofs SoilProofs WinklerModel BalanceSpec BalanceProofs ResultModel BCModel SessionModel BareModel BareSpec.
Import ListNotations.
Local Open Scope Q_scope.

(** The model without the springs along the pile *)
Definition bare (M : wmodel) : wmodel :=
  {| w_n := w_n M; w_mech := w_mech M; w_L := w_L M; w_py := None; w_tz := None; w_mt := None; w_mtc := w_mtc M;
     w_hb := w_hb M; w_mb := w_mb M; w_qz := w_qz M |}.

Lemma beam_matrix_bare : forall M, beam_matrix M = build (bare M) zero Initial.
Proof. reflexivity. Qed.

Lemma base_at_rest : forall c k, base_spring 0 c k = base_spring 0 c Initial.
Proof. intros c k. unfold base_spring. destruct (Qeq_bool _ 0); [reflexivity|]. unfold lateral_terms. change (Qeq_bool (Qabs 0) 0) with true. rewrite !orb_true_r. reflexivity. Qed.
Lemma base_axial_at_rest : forall c k, base_axial_spring 0 c k = base_axial_spring 0 c Initial.
Proof. intros c k. unfold base_axial_spring. destruct (Qeq_bool _ 0); [reflexivity|]. unfold axial_terms. change (Qeq_bool 0 0) with true. rewrite !orb_true_r. reflexivity. Qed.

Lemma beam_matrix_any_kind : forall M k, beam_matrix M = build (bare M) zero k.
Proof.
  intros M k. rewrite beam_matrix_bare. unfold build, soil_elements, add_base, opt_res, zero. cbn [bare w_py w_tz w_mt w_hb w_mb w_qz bind w_n w_mech].
  destruct (w_hb M) as [hb|], (w_mb M) as [mb|], (w_qz M) as [qz|]; rewrite ?(base_at_rest _ k), ?(base_axial_at_rest _ k); try reflexivity;
    repeat match goal with |- bind ?a _ = bind ?a _ => destruct a; cbn [bind]; try reflexivity end; rewrite ?(base_at_rest _ k), ?(base_axial_at_rest _ k); try reflexivity;
    repeat match goal with |- bind ?a _ = bind ?a _ => destruct a; cbn [bind]; try reflexivity end; rewrite ?(base_at_rest _ k), ?(base_axial_at_rest _ k); reflexivity.
Qed.

Lemma mulv_add_diag : forall n p v K u i, (0 < p)%nat -> (p <= n)%nat ->
  mulv n (add_diag n p v K) u i == mulv n K u i + (if Nat.eqb i (n - p) then v * u (n - p)%nat else 0).
Proof.
  intros n p v K u i P1 P2.
  transitivity (mulv n (fun i j => K i j + (if (Nat.eqb i (n - p) && Nat.eqb j (n - p))%bool then v else 0)) u i).
  { unfold mulv. apply sum_ext. intros j Hj. rewrite add_diag_entry. reflexivity. }
  rewrite mulv_mplus. apply Qplus_comp; [reflexivity|]. unfold mulv. destruct (Nat.eqb i (n - p)); cbn [andb].
  - rewrite <- (sum_delta n (n - p) (fun j => v * u j)) by lia. apply sum_ext. intros j Hj. destruct (Nat.eqb j (n - p)); ring.
  - rewrite sum_zero; [reflexivity|]. intros; ring.
Qed.

(** Stiffness of the base springs *)
Definition base_values (M : wmodel) (q h m : Q) : Prop :=
  match w_qz M with None => q = 0 | Some c => base_axial_spring 0 c Initial = Ok q end /\
  match w_hb M with None => h = 0 | Some c => base_spring 0 c Initial = Ok h end /\
  match w_mb M with None => m = 0 | Some c => base_spring 0 c Initial = Ok m end.

Lemma base_step : forall M p (o : option curve) K' K (v : Q) (P : curve -> Prop),
  match o with None => v = 0 /\ K' = K | Some c => P c /\ K' = add_diag (size M) p v K end -> (0 < p)%nat -> (p <= 3)%nat -> forall u i,
  mulv (size M) K' u i == mulv (size M) K u i + (if Nat.eqb i (size M - p) then v * u (size M - p)%nat else 0).
Proof.
  intros M p o K' K v P H P1 P2 u i. destruct o as [c|]; destruct H as [H ->].
  - apply mulv_add_diag; unfold size in *; lia.
  - subst v. destruct (Nat.eqb i (size M - p)); ring.
Qed.

Lemma beam_matrix_parts : forall M K, beam_matrix M = Ok K -> exists q h m, base_values M q h m /\ 0 <= q /\ 0 <= h /\ 0 <= m /\
  forall u i, mulv (size M) K u i == mulv (size M) (jit_build (w_n M) (w_mech M)) u i + spring_force (w_n M) q h m u i.
Proof.
  intros M K H. unfold beam_matrix in H.
  destruct (add_base M 2 _ _ _ _ _) as [K1|] eqn:E1; cbn [bind] in H; [|discriminate].
  destruct (add_base M 1 _ _ _ _ _) as [K2|] eqn:E2; cbn [bind] in H; [|discriminate].
  destruct (add_base_ok _ _ _ _ _ _ _ _ E1) as (h & B1). destruct (add_base_ok _ _ _ _ _ _ _ _ E2) as (m & B2).
  destruct (add_base_ok _ _ _ _ _ _ _ _ H) as (q & B3). unfold zero in B1, B2, B3.
  exists q, h, m. split.
  { unfold base_values. split; [destruct (w_qz M)|split; [destruct (w_hb M)|destruct (w_mb M)]]; tauto. }
  split. { destruct (w_qz M); [exact (base_axial_nonneg _ _ _ _ (proj1 B3))|destruct B3 as [-> _]; lra]. }
  split. { destruct (w_hb M); [exact (base_nonneg _ _ _ _ (proj1 B1))|destruct B1 as [-> _]; lra]. }
  split. { destruct (w_mb M); [exact (base_nonneg _ _ _ _ (proj1 B2))|destruct B2 as [-> _]; lra]. }
  intros u i. rewrite (base_step M 3 _ _ _ _ _ B3 ltac:(lia) ltac:(lia)), (base_step M 1 _ _ _ _ _ B2 ltac:(lia) ltac:(lia)), (base_step M 2 _ _ _ _ _ B1 ltac:(lia) ltac:(lia)).
  unfold size. replace (3 * w_n M + 3 - 3)%nat with (3 * w_n M)%nat by lia. replace (3 * w_n M + 3 - 1)%nat with (3 * w_n M + 2)%nat by lia.
  replace (3 * w_n M + 3 - 2)%nat with (3 * w_n M + 1)%nat by lia. unfold spring_force.
  destruct (Nat.eqb_spec i (3 * w_n M)) as [->|N1].
  - destruct (Nat.eqb_spec (3 * w_n M) (3 * w_n M + 2)); [lia|]. destruct (Nat.eqb_spec (3 * w_n M) (3 * w_n M + 1)); [lia|]. ring.
  - destruct (Nat.eqb_spec i (3 * w_n M + 1)) as [->|N2].
    + destruct (Nat.eqb_spec (3 * w_n M + 1) (3 * w_n M + 2)); [lia|]. ring.
    + destruct (Nat.eqb_spec i (3 * w_n M + 2)) as [->|N3]; ring.
Qed.

Lemma base_values_fun : forall M q h m q' h' m', base_values M q h m -> base_values M q' h' m' -> q = q' /\ h = h' /\ m = m'.
Proof.
  intros M q h m q' h' m' (A & B & C) (A' & B' & C'). repeat split; [destruct (w_qz M)|destruct (w_hb M)|destruct (w_mb M)]; congruence.
Qed.

Lemma base_values_matrix : forall M q h m, base_values M q h m -> exists K, beam_matrix M = Ok K.
Proof.
  intros M q h m (A & B & C). unfold beam_matrix, add_base, opt_res, zero.
  destruct (w_hb M) as [c1|]; [rewrite B|]; cbn [bind]; (destruct (w_mb M) as [c2|]; [rewrite C|]; cbn [bind]; (destruct (w_qz M) as [c3|]; [rewrite A|]; cbn [bind])); eexists; reflexivity.
Qed.

(** ** The slopes *)
Lemma qsum_total : forall l, qsum l = total l.
Proof. reflexivity. Qed.

Lemma base_spring_slope : forall c s, base_spring 0 c Initial = Ok s -> starts_with c s.
Proof.
  intros c s H. unfold base_spring in H. rewrite qsum_total in H. unfold starts_with.
  destruct (Qeq_bool _ 0) eqn:Z.
  - apply Qeq_bool_iff in Z. injection H as <-. left. split; [exact Z|reflexivity].
  - apply Qeq_bool_neq in Z. right. split; [exact Z|]. unfold lateral_terms, ratio, pt in H. cbn [orb] in H.
    destruct (Qeq_bool _ 0) eqn:D in H; [discriminate|]. apply Qeq_bool_neq in D. apply ok_inj in H. subst s. split; [|reflexivity].
    intros E. apply D. rewrite E. ring.
Qed.

Lemma slope_base_spring : forall c s, starts_with c s -> exists s', base_spring 0 c Initial = Ok s' /\ s' == s.
Proof.
  intros c s H. unfold base_spring. rewrite qsum_total. destruct H as [[Z E]|[Z [D E]]].
  - apply Qeq_bool_iff in Z. rewrite Z. exists 0. split; [reflexivity|symmetry; exact E].
  - destruct (Qeq_bool (total _) 0) eqn:Z'; [apply Qeq_bool_iff in Z'; contradiction|].
    unfold lateral_terms, ratio, pt. cbn [orb]. destruct (Qeq_bool (fst (nth 1 c (0,0)) - fst (nth 0 c (0,0))) 0) eqn:D'.
    + apply Qeq_bool_iff in D'. exfalso. apply D. lra.
    + eexists. split; [reflexivity|symmetry; exact E].
Qed.

Lemma middle_slope : forall a b, (snd b - snd a) / (fst a - fst b) == - ((snd b - snd a) / (fst b - fst a)).
Proof.
  intros a b. unfold Qdiv. assert (E : fst a - fst b == - (fst b - fst a)) by ring. rewrite E.
  assert (I : forall x, / - x == - / x). { intros [[|p|p] d]; reflexivity. } rewrite I. ring.
Qed.

Lemma base_axial_slope : forall c s k, length c = S (2 * k) -> base_axial_spring 0 c Initial = Ok s -> leaves_middle_with (zero_index (S (2 * k))) c s.
Proof.
  intros c s k L H. unfold base_axial_spring in H. rewrite qsum_total in H. unfold leaves_middle_with.
  destruct (Qeq_bool _ 0) eqn:Z.
  - apply Qeq_bool_iff in Z. injection H as <-. left. split; [exact Z|reflexivity].
  - apply Qeq_bool_neq in Z. right. split; [exact Z|]. unfold axial_terms, ratio, pt in H. rewrite L in H. cbn [orb] in H.
    set (i := zero_index (S (2 * k))) in *.
    destruct (Qeq_bool _ 0) eqn:D in H; [discriminate|]. apply Qeq_bool_neq in D. apply ok_inj in H. subst s. split.
    + intros E. apply D. rewrite E. ring.
    + pose proof (middle_slope (nth i c (0, 0)) (nth (S i) c (0, 0))) as MS. rewrite MS, Qabs_opp. reflexivity.
Qed.

Lemma zero_index_odd_half : forall j, zero_index (S (2 * (2 * j + 1))) = (2 * j + 1)%nat.
Proof.
  intros j. unfold zero_index.
  assert (H : (S (2 * (2 * j + 1)) / 2 = 2 * j + 1)%nat).
  { replace (S (2 * (2 * j + 1))) with (1 + (2 * j + 1) * 2)%nat by lia. rewrite Nat.div_add by lia. reflexivity. }
  rewrite H. rewrite Nat.even_succ. replace (Nat.odd (2 * (2 * j + 1))) with false by (symmetry; rewrite <- Nat.negb_even, Nat.even_mul; reflexivity).
  replace (Nat.even (2 * j + 1)) with false by (symmetry; rewrite Nat.even_add, Nat.even_mul; reflexivity). lia.
Qed.

Lemma base_values_slopes : forall M q h m j, base_values M q h m -> (forall c, w_qz M = Some c -> length c = S (2 * (2 * j + 1))) ->
  match w_qz M with None => q = 0 | Some c => leaves_middle_with (2 * j + 1) c q end /\
  match w_hb M with None => h = 0 | Some c => starts_with c h end /\
  match w_mb M with None => m = 0 | Some c => starts_with c m end.
Proof.
  intros M q h m j (A & B & C) L. split; [|split].
  - destruct (w_qz M) as [c|]; auto. rewrite <- zero_index_odd_half. apply base_axial_slope; auto.
  - destruct (w_hb M); auto using base_spring_slope.
  - destruct (w_mb M); auto using base_spring_slope.
Qed.

(** ** The analysis *)
Lemma beam_in_soil_inv : forall solve M F U r d R f, beam_in_soil solve M F U r = Ok (d, R, f) ->
  exists K, beam_matrix M = Ok K /\ solve_equations solve (size M) K F U (supports_of r U) = Some (d, R) /\ f = pile_internal_forces (S (w_n M)) (w_mech M) d.
Proof.
  intros solve M F U r d R f H. unfold beam_in_soil in H. destruct (beam_matrix M) as [K|]; cbn [bind] in H; [|discriminate].
  destruct (solve_equations _ _ _ _ _ _) as [[d' R']|] eqn:E; [|discriminate]. injection H as <- <- <-. exists K. auto.
Qed.

Section Stiff.
Variables (M : wmodel) (z : nat -> Q) (K : mat) (q h m : Q) (r : nat -> bool).
Hypothesis SP : sound_pile M z.
Hypothesis HB : beam_matrix M = Ok K.
Hypothesis BV : base_values M q h m.
Let n := w_n M.
Let N := size M.
Let K0 := jit_build n (w_mech M).
Let r' := also_held n q h m r.

Lemma stiff_mulv : 0 <= q /\ 0 <= h /\ 0 <= m /\ forall u i, mulv N K u i == mulv N K0 u i + spring_force n q h m u i.
Proof using HB BV.
  destruct (beam_matrix_parts M K HB) as (q' & h' & m' & BV' & P). destruct (base_values_fun _ _ _ _ _ _ _ BV BV') as (<- & <- & <-). exact P.
Qed.

Lemma deforms : forall e, (e < n)%nat -> elem_deforms (z e - z (S e)) (w_mech M e).
Proof using SP. intros e He. rewrite <- (proj1 (sp_len M z SP e He)). apply (sp_mech M z SP e He). Qed.
Lemma downwards : forall e, (e < n)%nat -> z (S e) < z e.
Proof using SP. intros e He. destruct (sp_len M z SP e He) as [E P]. rewrite E in P. lra. Qed.

Lemma spring_work : forall v, dot N v (spring_force n q h m v) == q * (v (3 * n)%nat * v (3 * n)%nat) + h * (v (3 * n + 1)%nat * v (3 * n + 1)%nat) + m * (v (3 * n + 2)%nat * v (3 * n + 2)%nat).
Proof using.
  intros v. unfold dot, spring_force. unfold N, size. fold n.
  rewrite (sum_ext _ _ (fun i => (if Nat.eqb i (3 * n) then q * (v i * v i) else 0) + ((if Nat.eqb i (3 * n + 1) then h * (v i * v i) else 0) + (if Nat.eqb i (3 * n + 2) then m * (v i * v i) else 0)))).
  - rewrite !sum_plus, !sum_delta by lia. ring.
  - intros i Hi. destruct (Nat.eqb_spec i (3 * n)) as [->|]; [|destruct (Nat.eqb_spec i (3 * n + 1)) as [->|]; [|destruct (Nat.eqb_spec i (3 * n + 2))]];
      repeat match goal with |- context [Nat.eqb ?a ?b] => destruct (Nat.eqb_spec a b); [lia|] end; ring.
Qed.

Lemma soil_stable_iff : stable N K r <-> held n r'.
Proof using SP HB BV.
  destruct stiff_mulv as (Pq & Ph & Pm & MV). split.
  - intros ST. apply (stable_held n (w_mech M) z r' deforms). intros v V0 KV.
    assert (E0 : energy (3 * n + 3) (jit_build n (w_mech M)) v == 0).
    { unfold energy, dot. apply sum_zero. intros j Hj. destruct (r' j) eqn:Rj; [rewrite V0 by auto|rewrite KV by auto]; ring. }
    pose proof (undeformed_rigid n (w_mech M) z deforms v E0) as UR.
    assert (VR : forall i, (i < 3 * n + 3)%nat -> v i == rigid z (v 0%nat) (v 1%nat) (v 2%nat) i).
    { intros i Hi. destruct (dof_cases n i Hi) as (a & c & Ha & Hc & ->). rewrite ForceProofs.rigid_at by auto. destruct (UR a Ha) as (A & B & C).
      destruct c as [|[|[|]]]; try lia; [rewrite Nat.add_0_r; exact A|exact B|exact C]. }
    apply ST.
    + intros i Hi Ri. apply V0; auto. unfold r', also_held. rewrite Ri. reflexivity.
    + intros i Hi Ri. rewrite MV.
      assert (Z0 : mulv N K0 v i == 0).
      { transitivity (mulv N K0 (rigid z (v 0%nat) (v 1%nat) (v 2%nat)) i).
        - unfold mulv. apply sum_ext. intros j Hj. rewrite <- (VR j Hj). reflexivity.
        - apply (rigid_null n (w_mech M) z deforms). }
      rewrite Z0. unfold spring_force.
      assert (F : forall j s, (j < 3 * n + 3)%nat -> (~ s == 0 -> r' j = true) -> s * v j == 0).
      { intros j s Hj H. destruct (Qeq_dec s 0) as [->|NZ]; [ring|]. rewrite V0; auto. ring. }
      assert (B : forall s, ~ s == 0 -> negb (Qeq_bool s 0) = true).
      { intros s NZ. apply negb_true_iff. destruct (Qeq_bool s 0) eqn:E; auto. apply Qeq_bool_iff in E. contradiction. }
      destruct (Nat.eqb_spec i (3 * n)) as [->|]; [|destruct (Nat.eqb_spec i (3 * n + 1)) as [->|]; [|destruct (Nat.eqb_spec i (3 * n + 2)) as [->|]; [|ring]]];
        (rewrite F; [ring|exact Hi|]; intros NZ; apply B in NZ; unfold r', also_held; rewrite NZ, !Nat.eqb_refl; rewrite ?andb_true_r, ?orb_true_r; reflexivity).
  - intros HL v V0 KV.
    assert (E0 : energy N K0 v + dot N v (spring_force n q h m v) == 0).
    { transitivity (energy N K v).
      - unfold energy, dot. rewrite <- sum_plus. apply sum_ext. intros i Hi. rewrite MV. ring.
      - unfold energy, dot. apply sum_zero. intros j Hj. destruct (r j) eqn:Rj; [rewrite V0 by auto|rewrite KV by auto]; ring. }
    rewrite spring_work in E0.
    assert (E : 0 <= energy N K0 v) by (apply build_psd; intros e He; apply (sp_mech M z SP e He)).
    pose proof (mul_nonneg h _ Ph (square_nonneg (v (3 * n + 1)%nat))) as G1. pose proof (mul_nonneg m _ Pm (square_nonneg (v (3 * n + 2)%nat))) as G2.
    pose proof (mul_nonneg q _ Pq (square_nonneg (v (3 * n)%nat))) as G3.
    assert (SQ : forall s a, negb (Qeq_bool s 0) = true -> s * (a * a) == 0 -> a == 0).
    { intros s a P X. apply negb_true_iff, Qeq_bool_neq in P. apply Qmult_integral in X. destruct X as [X|X]; [contradiction|]. apply Qmult_integral in X. tauto. }
    apply (held_rigid_zero n (w_mech M) z r' deforms downwards HL v).
    + intros i Hi Ri. unfold r', also_held in Ri. rewrite !orb_true_iff, !andb_true_iff, !Nat.eqb_eq in Ri.
      destruct Ri as [[[Ri|[-> Ri]]|[-> Ri]]|[-> Ri]]; [apply V0; auto| | |]; apply (SQ _ _ Ri); lra.
    + assert (EM : energy N K0 v == 0) by lra. exact EM.
Qed.

Lemma soil_balance : forall V G, (forall i, (i < N)%nat -> mulv N K V i == G i) ->
  total_axial n G == q * V (3 * n)%nat /\ total_lateral n G == h * V (3 * n + 1)%nat /\
  total_moment n z G == (z O - z n) * (h * V (3 * n + 1)%nat) + m * V (3 * n + 2)%nat.
Proof using SP HB BV.
  intros V G EG. assert (SP' : sound_pile (bare M) z) by (destruct SP; constructor; assumption).
  destruct (balance_parts (bare M) z zero Initial K SP' HB) as (kp & kz & km & h' & m' & q' & (_ & _ & _ & VH & VM & VQ) & B).
  assert (E : q = q' /\ h = h' /\ m = m').
  { apply (base_values_fun M); [exact BV|]. split; [exact VQ|]. split; [exact VH|exact VM]. }
  destruct E as (<- & <- & <-). destruct (B V G EG) as (B1 & B2 & B3). clear B. cbn [bare w_n w_py w_tz w_mt w_L BalanceSpec.when] in *. fold n in B1, B2, B3.
  split; [|split].
  - rewrite B1, sum_zero by (intros; reflexivity). ring.
  - rewrite B2, sum_zero by (intros; reflexivity). ring.
  - rewrite B3 by (intros; left; reflexivity). rewrite sum_zero by (intros; ring). ring.
Qed.
End Stiff.

Lemma beam_state_bcs : forall solve fr st st', st_bcs st = st_bcs st' -> beam_state solve fr st = beam_state solve fr st'.
Proof.
  intros solve fr st st' H. unfold beam_state. rewrite H.
  destruct (global_forces _ _) as [tf|]; [|reflexivity]. destruct (global_disp _ _) as [td|]; [|reflexivity]. destruct (global_restrained _ _) as [tr|]; [|reflexivity].
  cbn [bind]. destruct (fr_soil fr); reflexivity.
Qed.
