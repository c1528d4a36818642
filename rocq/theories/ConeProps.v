(** C150: small loads in proportion move the pile in proportion, also where it is pulled up against axial springs that start with
    one slope upwards and another one downwards. *)
From Coq Require Import List Bool Arith ZArith QArith Qabs Qminmax Lia Lqa Setoid.
From Verif Require Import Base LinAlg PileModel BeamModel BeamProofs SolveModel SolveSpec SolveProofs SpringModel SpringSpec SpringProofs SoilProofs SpringProper SpringWitness WinklerModel WinklerSpec WinklerProofs WinklerWitness WinklerProps EquilSpec UnitWitness ElasticSpec ElasticProofs ElasticWitness ElasticProps TwinProofs ConeSpec ConeProofs.
Import ListNotations.
Local Open Scope Q_scope.

Lemma supports_scaled : forall r P P' t i, 0 < t -> P' i == t * P i -> supports_of r P' i = supports_of r P i.
Proof.
  intros r P P' t i T E. unfold supports_of. f_equal. f_equal. destruct (Qeq_bool (P i) 0) eqn:Z.
  - apply Qeq_bool_iff in Z. apply Qeq_bool_iff. rewrite E, Z. ring.
  - destruct (Qeq_bool (P' i) 0) eqn:Z'; [|reflexivity]. apply Qeq_bool_iff in Z'. rewrite E in Z'. apply Qmult_integral in Z'. destruct Z' as [Z'|Z']; [lra|]. apply Qeq_bool_iff in Z'. congruence.
Qed.

Lemma settled_in_proportion : forall M F P r max_iter, settled M ->
  exists t0, 0 < t0 /\ forall solve solve' s t Fs Ps Ft Pt, solver_ok solve -> solver_ok solve' -> 0 < s -> s <= t0 -> 0 < t -> t <= t0 ->
  (forall i, (i < size M)%nat -> Fs i == s * F i /\ Ps i == s * P i /\ Ft i == t * F i /\ Pt i == t * P i) ->
  end_in_proportion (size M) s t (winkler_model solve M Fs Ps r max_iter) (winkler_model solve' M Ft Pt r max_iter).
Proof.
  intros M F P r m RG. destruct (cone_winkler gauss_solver M F P (supports_of r P) m gauss_solver_ok RG) as (O & t0 & T0 & H).
  exists t0. split; [exact T0|]. intros solve solve' s t Fs Ps Ft Pt SO SO' S1 S2 T1 T2 FP.
  assert (X : forall x so Fx Px, solver_ok so -> 0 < x -> x <= t0 -> (forall i, (i < size M)%nat -> Fx i == x * F i /\ Px i == x * P i) -> req (outcomes (size M) (fun _ => x) (fun _ => x) (x * x)) O (winkler_model so M Fx Px r m)).
  { intros x so Fx Px SX X1 X2 FX. unfold winkler_model. apply (H x X1 X2); [exact SX|intros i Hi; apply (supports_scaled _ _ _ x); [exact X1|apply FX, Hi]|intros i Hi; apply FX, Hi|intros i Hi; apply FX, Hi]. }
  pose proof (X s solve Fs Ps SO S1 S2 ltac:(intros i Hi; split; apply FP, Hi)) as A. pose proof (X t solve' Ft Pt SO' T1 T2 ltac:(intros i Hi; split; apply FP, Hi)) as B. clear X H.
  destruct O as [o|e]; destruct (winkler_model solve M _ _ r m) as [a|ea]; cbn [req] in A; try contradiction;
    destruct (winkler_model solve' M _ _ r m) as [b|eb]; cbn [req] in B; try contradiction; cbn [end_in_proportion]; [|congruence].
  destruct A as (A1 & A2 & A3 & A4 & A5 & A6). destruct B as (B1 & B2 & B3 & B4 & B5 & B6).
  assert (V : forall x y y' : vec, disps (size M) (fun _ => s) x y -> disps (size M) (fun _ => t) x y' -> in_proportion (size M) s t y y').
  { intros x y y' E E' i Hi. rewrite (E i Hi), (E' i Hi). ring. }
  split; [congruence|]. split; [|split; [|split; [|split]]].
  - destruct (o_d o), (o_d a), (o_d b); cbn [opt_rel both_or_none] in *; try contradiction; auto. eapply V; eassumption.
  - destruct (o_Q o), (o_Q a), (o_Q b); cbn [opt_rel both_or_none] in *; try contradiction; auto. eapply V; eassumption.
  - destruct (o_err o), (o_err a), (o_err b); cbn [opt_rel both_or_none] in *; try contradiction; auto. rewrite A4, B4. ring.
  - destruct (o_tol o), (o_tol a), (o_tol b); cbn [opt_rel both_or_none] in *; try contradiction; auto. rewrite A5, B5. ring.
  - revert A6 B6. generalize (o_hist o) (o_hist a) (o_hist b). clear - V. intros l. induction l as [|x l IH]; intros la lb HA HB; inversion HA; inversion HB; subst; constructor; [eapply V; eassumption|apply IH; assumption].
Qed.

Theorem C150_small_loads_in_proportion_partial : forall M F P r max_iter, regular M ->
  exists t0, 0 < t0 /\ forall solve solve' s t, solver_ok solve -> solver_ok solve' -> 0 < s -> s <= t0 -> 0 < t -> t <= t0 ->
  end_in_proportion (size M) s t
    (winkler_model solve M (fun i => s * F i) (fun i => s * P i) r max_iter)
    (winkler_model solve' M (fun i => t * F i) (fun i => t * P i) r max_iter).
Proof.
  intros M F P r m RG. destruct (settled_in_proportion M F P r m (regular_settled M RG)) as (t0 & T0 & H). exists t0. split; [exact T0|].
  intros solve solve' s t SO SO' S1 S2 T1 T2. apply H; auto. intros i _. repeat split; reflexivity.
Qed.
Print Assumptions C150_small_loads_in_proportion_partial.

(** Whether a pile stands small loads, and after how many passes, depends on their directions only: if one small multiple of
    the loads is carried, all smaller ones are. *)
Theorem C150_carried_alike_partial : forall M F P r max_iter, regular M ->
  exists t0, 0 < t0 /\ forall solve solve' s t o v, solver_ok solve -> solver_ok solve' -> 0 < s -> s <= t0 -> 0 < t -> t <= t0 ->
  winkler_model solve M (fun i => s * F i) (fun i => s * P i) r max_iter = Ok o -> o_d o = Some v ->
  exists o' v', winkler_model solve' M (fun i => t * F i) (fun i => t * P i) r max_iter = Ok o' /\ o_iter o' = o_iter o /\ o_d o' = Some v' /\
    forall i, (i < size M)%nat -> v' i == t / s * v i.
Proof.
  intros M F P r m RG. destruct (C150_small_loads_in_proportion_partial M F P r m RG) as (t0 & T0 & H). exists t0. split; [exact T0|].
  intros solve solve' s t o v SO SO' S1 S2 T1 T2 E D. specialize (H solve solve' s t SO SO' S1 S2 T1 T2). rewrite E in H.
  destruct (winkler_model solve' M _ _ r m) as [o'|]; cbn [end_in_proportion] in H; [|contradiction]. destruct H as (IT & HD & _). rewrite D in HD.
  destruct (o_d o') as [v'|] eqn:D'; cbn [both_or_none] in HD; [|contradiction]. exists o', v'. split; [reflexivity|]. split; [symmetry; exact IT|]. split; [exact D'|].
  intros i Hi. specialize (HD i Hi). apply (Qmult_inj_l _ _ s); [lra|]. rewrite <- HD. field. lra.
Qed.
Print Assumptions C150_carried_alike_partial.

(** ** A case: the soil holds the pile half as stiffly against pulling as against pushing *)
Definition tz_half : list (Q * Q) := [(1#100, 5); (0, 0); (-1#100, -10)].
Definition soil_half : wmodel := {| w_n := 1; w_mech := fun _ => mech0; w_L := fun _ => 1;
  w_py := Some (fun _ _ => py0); w_tz := Some (fun _ _ => tz_half); w_mt := None;
  w_mtc := fun _ => mt_coefs EulerBernoulli 0 1 1 1; w_hb := Some py0; w_mb := None; w_qz := None |}.
Lemma tz_half_middle : middle_curve tz_half.
Proof. exists 1%nat. split; [reflexivity|]. split; [reflexivity|]. split; [repeat split|]. split; [vm_compute; repeat split; discriminate|]. split; reflexivity. Qed.
Lemma soil_half_regular : regular soil_half.
Proof.
  split; [|split; [|split; [|split; [|split]]]].
  - intros py E e j _ _. cbn [w_py soil_half] in E. injection E as <-. left. exact py0_ok.
  - intros tz E e j _ _. cbn [w_tz soil_half] in E. injection E as <-. left. exact tz_half_middle.
  - intros mt E. discriminate E.
  - intros c E. cbn [w_hb soil_half] in E. injection E as <-. left. exact py0_ok.
  - intros c E. discriminate E.
  - intros c E. discriminate E.
Qed.
Lemma soil_half_sound : sound_model soil_half z0.
Proof.
  constructor.
  - intros e He. cbn in He. split; [|reflexivity]. cbn [w_L soil_half]. destruct e as [|]; [reflexivity|lia].
  - intros e He. exact mech0_deforms.
  - intros mt E. discriminate E.
  - intros py mt _ E. discriminate E.
  - left. reflexivity.
Qed.
(** a load that pulls; the initial stiffness is not the one with which the springs answer it *)
Definition pull_half : vec := of_list [5; 10; 0; 0; 0; 0].
Example C150_case : regular soil_half /\ ~ either_way soil_half pull_half /\
  (forall t, 0 < t -> t <= 1#100 -> exists a b, tz_spring t tz_half Initial = Ok a /\ a == 1000 /\ tz_spring t tz_half Secant = Ok b /\ b == 500) /\
  exists K, build soil_half zero Initial = Ok K /\ stable (size soil_half) K (supports_of free zero).
Proof.
  split; [|split; [|split]].
  - exact soil_half_regular.
  - intros [H _]. destruct (H (fun _ _ => tz_half) eq_refl 0%nat 0%nat 0%nat ltac:(cbn; lia) ltac:(lia) (or_introl eq_refl)) as [L|SS].
    + vm_compute in L. apply L. reflexivity.
    + specialize (SS 1%nat eq_refl). vm_compute in SS. discriminate SS.
  - intros t T L. destruct (up_line tz_half 1) as (_ & _ & V); try (destruct tz_half_middle as (m & LL & X); assert (m = 1%nat) by (cbn in LL; lia); subst m; first [exact LL|apply X]).
    specialize (V t ltac:(lra) L). exists 1000. unfold tz_spring.
    replace (Qeq_bool (qsum (map (fun p => Qabs (fst p)) tz_half)) 0) with false by (vm_compute; reflexivity).
    destruct (ratio_line t 0 (interp t (rev tz_half)) 500) as (b & R & B); [lra|lra| |].
    { rewrite V. change (snd (point tz_half (1 - 1)) / fst (point tz_half (1 - 1))) with (5 / (1#100)). field. }
    exists b. split; [vm_compute; reflexivity|]. split; [reflexivity|]. split; [|exact B].
    unfold axial_terms. assert (NZ : Qeq_bool t 0 = false) by (destruct (Qeq_bool t 0) eqn:Z; [apply Qeq_bool_iff in Z; lra|reflexivity]). rewrite NZ. cbn [orb]. exact R.
  - assert (B : exists K, build soil_half zero Initial = Ok K).
    { destruct (small_elastic soil_half zero soil_half_regular) as (t1 & T1 & E1); [apply settling_either; intros a _; discriminate|].
      destruct (small_answers soil_half zero Initial soil_half_regular) as (t2 & T2 & E2).
      destruct (elastic_builds _ _ _ Initial (E1 t1 T1 ltac:(lra))) as [K B].
      pose proof (build_answers soil_half _ (fun i => t1 * zero i) zero Initial (E2 t2 T2 ltac:(lra) (fun i => t1 * zero i) ltac:(intros; unfold zero; ring)) (E2 t2 T2 ltac:(lra) zero ltac:(intros; unfold zero; ring))) as RQ.
      rewrite B in RQ. destruct (build soil_half zero Initial) as [K'|e]; [exists K'; reflexivity|contradiction RQ]. }
    destruct B as [K B]. exists K. split; [exact B|].
    apply (system_stable soil_half z0 zero Initial K); [|exact B| |].
    + exact soil_half_sound.
    + exists (fun _ _ => py0), 0%nat, 0%nat, 10000. split; [reflexivity|]. split; [cbn; lia|]. split; [lia|]. split; [vm_compute; reflexivity|reflexivity].
    + right; left. exists (fun _ _ => tz_half), 0%nat, 0%nat, 1000. split; [reflexivity|]. split; [cbn; lia|]. split; [lia|]. split; [vm_compute; reflexivity|reflexivity].
Qed.

(** ** Small loads need not superpose: the opposite of a small load does not always have the opposite effect *)
Definition sunk : vec := of_list [-1#100; 0; 0; -1#100; 0; 0].
Definition push_half : vec := of_list [-(5); 0; 0; -(5); 0; 0].
Definition lifted : vec := of_list [1#100; 0; 0; 1#100; 0; 0].
Definition missing : vec := of_list [5#2; 0; 0; 5#2; 0; 0].

Lemma free_solve : forall solve n K F V, solver_ok solve -> stable n K (supports_of free zero) -> (forall i, (i < n)%nat -> mulv n K V i == F i) ->
  exists u R, solve_equations solve n K F zero (supports_of free zero) = Some (u, R) /\ forall i, (i < n)%nat -> u i == V i /\ R i == 0.
Proof.
  intros solve n K F V SO ST E. destruct (proj2 (solve_equations_succeeds solve n K F zero _ SO) ST) as [[u R] S]. exists u, R. split; [exact S|].
  destruct (solve_equations_sound _ _ _ _ _ _ _ _ SO S) as (A & B & C).
  destruct (solution_unique n K F (supports_of free zero) u R V zero ST A) as [X Y].
  - intros i Hi. rewrite (E i Hi). unfold zero. ring.
  - exact B.
  - intros i Hi _. reflexivity.
  - intros i Hi Z. discriminate Z.
  - intros i Hi. split; [apply X, Hi|apply B; [exact Hi|reflexivity]].
Qed.

Lemma lifted_answers : forall k c, k = Secant \/ k = Tangent -> c = 1 \/ c = 2 -> answers soil_half k (limit_slopes soil_half k (fun i => c * lifted i)) lifted.
Proof.
  intros k c Hk Hc.
  assert (X : forall (f : res Q) x, match f with Ok y => Qeq_bool y x | Err _ => false end = true -> answer f x).
  { intros [y|e] x H; [|discriminate H]. exists y. split; [reflexivity|apply Qeq_bool_iff, H]. }
  split; [|split; [|split; [|split; [|split]]]].
  - intros py E e j He Hj. cbn [w_py soil_half] in E. injection E as <-. cbn [w_n soil_half] in *. destruct e; [|lia].
    destruct j as [|[|]]; [| |lia]; destruct Hk as [->| ->]; destruct Hc as [->| ->]; split; apply X; vm_compute; reflexivity.
  - intros tz E e j He Hj. cbn [w_tz soil_half] in E. injection E as <-. cbn [w_n soil_half] in *. destruct e; [|lia].
    destruct j as [|[|]]; [| |lia]; destruct Hk as [->| ->]; destruct Hc as [->| ->]; apply X; vm_compute; reflexivity.
  - intros mt E. discriminate E.
  - intros c' E. cbn [w_hb soil_half] in E. injection E as <-. destruct Hk as [->| ->]; destruct Hc as [->| ->]; apply X; vm_compute; reflexivity.
  - intros c' E. discriminate E.
  - intros c' E. discriminate E.
Qed.

(** the stiffness under a small pull, whatever its size *)
Lemma lifted_build : forall k c, k = Secant \/ k = Tangent -> c = 1 \/ c = 2 -> eventually (fun t => forall w, (forall i, (i < 6)%nat -> w i == t * (c * lifted i)) ->
  exists K, build soil_half w k = Ok K /\ stable 6 K (supports_of free zero) /\ forall i, (i < 6)%nat -> mulv 6 K lifted i == missing i).
Proof.
  intros k c Hk Hc. refine (eventually_imp _ _ _ (small_answers soil_half (fun i => c * lifted i) k soil_half_regular)). intros t T H w W.
  pose proof (build_answers soil_half _ lifted w k (lifted_answers k c Hk Hc) (H w W)) as RQ.
  assert (C : match build soil_half lifted k with Ok K0 => forallb (fun i => Qeq_bool (mulv 6 K0 lifted i) (missing i)) (seq 0 6) | Err _ => false end = true) by (destruct Hk as [->| ->]; vm_compute; reflexivity).
  assert (ST : forall K, build soil_half lifted k = Ok K -> stable 6 K (supports_of free zero)).
  { intros K B. apply (system_stable soil_half z0 lifted k K soil_half_sound B).
    - exists (fun _ _ => py0), 0%nat, 0%nat, 10000. split; [reflexivity|]. split; [cbn; lia|]. split; [lia|]. split; [destruct Hk as [->| ->]; vm_compute; reflexivity|reflexivity].
    - right; left. exists (fun _ _ => tz_half), 0%nat, 0%nat, (match k with Tangent => 100000000#200000 | _ => 500 end).
      split; [reflexivity|]. split; [cbn; lia|]. split; [lia|]. split; destruct Hk as [->| ->]; vm_compute; reflexivity. }
  destruct (build soil_half lifted k) as [K0|]; [|discriminate C]. specialize (ST K0 eq_refl). destruct (build soil_half w k) as [K|]; [|contradiction RQ]. cbn [req] in RQ.
  exists K. split; [reflexivity|]. rewrite forallb_forall in C. split.
  - intros v V0 KV. apply ST; [exact V0|]. intros i Hi Ri. rewrite <- (KV i Hi Ri). unfold mulv. apply sum_ext. intros j Hj. rewrite (RQ i j). reflexivity.
  - intros i Hi. specialize (C i ltac:(apply in_seq; lia)). apply Qeq_bool_iff in C. rewrite <- C. unfold mulv. apply sum_ext. intros j Hj. rewrite (RQ i j). reflexivity.
Qed.

(** Pushed, the pile sinks by t V; pulled as hard, it is lifted by twice as much. *)
Theorem C150_opposite_refuted : exists M F V, regular M /\ ~ V 0%nat == 0 /\ exists t0, 0 < t0 /\ forall t, 0 < t -> t <= t0 -> forall solve max_iter, solver_ok solve -> (1 <= max_iter)%nat ->
  (exists o v, winkler_model solve M (fun i => t * F i) zero free max_iter = Ok o /\ o_d o = Some v /\ forall i, (i < size M)%nat -> v i == t * V i) /\
  (exists o v, winkler_model solve M (fun i => t * - F i) zero free max_iter = Ok o /\ o_d o = Some v /\ forall i, (i < size M)%nat -> v i == 2 * (t * - V i)).
Proof.
  exists soil_half, push_half, sunk. split; [exact soil_half_regular|]. split; [discriminate|].
  destruct (proj2 (proj2 (proj2 C150_case))) as (K & B & ST).
  assert (SE : settling soil_half sunk) by (intros a Ha; cbn [w_n soil_half] in Ha; destruct a as [|[|]]; [discriminate|discriminate|lia]).
  assert (C : match build soil_half zero Initial with Ok K0 => forallb (fun i => Qeq_bool (mulv 6 K0 sunk i) (push_half i)) (seq 0 6) | Err _ => false end = true) by (vm_compute; reflexivity).
  rewrite B in C. rewrite forallb_forall in C.
  destruct (eventually_and _ _ (small_elastic soil_half sunk soil_half_regular (settling_either _ _ SE)) (eventually_and _ _ (lifted_build Secant 1 (or_introl eq_refl) (or_introl eq_refl))
    (eventually_and _ _ (lifted_build Tangent 1 (or_intror eq_refl) (or_introl eq_refl)) (lifted_build Secant 2 (or_introl eq_refl) (or_intror eq_refl))))) as (t0 & T0 & H).
  exists t0. split; [exact T0|]. intros t T L solve mi SO Hm. destruct (H t T L) as (EL & H1 & H2 & H3). clear H. split.
  - destruct (C129_analysis solve soil_half (first_slopes soil_half) (fun i => t * push_half i) zero free K (fun i => t * sunk i) zero mi SO B ST) as (o & v & q & A1 & _ & A2 & A3 & _).
    + split; [|split; [intros; reflexivity|intros i Hi Z; discriminate Z]]. intros i Hi. change (size soil_half) with 6%nat in *. rewrite mulv_scale. specialize (C i ltac:(apply in_seq; lia)). apply Qeq_bool_iff in C. rewrite C. unfold zero. ring.
    + exact EL.
    + exists 0%nat. split; [cbn; lia|]. change (push_half 0%nat) with (-(5)). unfold zero. lra.
    + exact Hm.
    + exists o, v. split; [exact A1|]. split; [exact A2|exact A3].
  - change (size soil_half) with 6%nat in *. unfold winkler_model, winkler. rewrite B. cbn [bind]. change (size soil_half) with 6%nat.
    assert (SL : forall i, (i < 6)%nat -> sunk i == - lifted i) by (intros i Hi; do 6 (destruct i as [|i]; [reflexivity|]); lia).
    assert (PM : forall i, (i < 6)%nat -> push_half i == - (2 * missing i)) by (intros i Hi; do 6 (destruct i as [|i]; [reflexivity|]); lia).
    destruct (free_solve solve 6 K (fun i => t * - push_half i) (fun i => t * lifted i) SO ST) as (u1 & R1 & S1 & U1).
    { intros i Hi. rewrite mulv_scale. specialize (C i ltac:(apply in_seq; lia)). apply Qeq_bool_iff in C. rewrite <- C.
      assert (E : mulv 6 K sunk i == mulv 6 K (fun i => (-1) * lifted i) i) by (unfold mulv; apply sum_ext; intros j Hj; rewrite (SL j Hj); ring). rewrite E, mulv_scale. ring. }
    destruct mi as [|mi]; [lia|]. cbn [loop]. rewrite S1. cbv zeta.
    set (d1 := fun i => zero i + u1 i).
    assert (D1 : forall i, (i < 6)%nat -> d1 i == t * (1 * lifted i)) by (intros i Hi; unfold d1, zero; rewrite (proj1 (U1 i Hi)); ring).
    destruct (H1 d1 D1) as (Ks & -> & STs & Es). destruct (H2 d1 D1) as (Kt & -> & STt & Et). cbn [bind]. rewrite andb_false_r. cbn [Nat.eqb].
    assert (M1 : forall i, (i < 6)%nat -> mulv 6 Ks d1 i == t * missing i).
    { intros i Hi. rewrite <- (Es i Hi), <- mulv_scale. unfold mulv. apply sum_ext. intros j Hj. rewrite (D1 j Hj). ring. }
    destruct (free_solve solve 6 Kt (fun i => t * - push_half i - R1 i + - mulv 6 Ks d1 i) (fun i => t * lifted i) SO STt) as (u2 & R2 & S2 & U2).
    { intros i Hi. rewrite mulv_scale, (Et i Hi), (M1 i Hi), (proj2 (U1 i Hi)), (PM i Hi). ring. }
    rewrite S2. cbv zeta. set (d2 := fun i => zero i + u1 i + u2 i).
    assert (D2 : forall i, (i < 6)%nat -> d2 i == t * (2 * lifted i)) by (intros i Hi; unfold d2; change (zero i + u1 i) with (d1 i); rewrite (D1 i Hi), (proj1 (U2 i Hi)); ring).
    destruct (H3 d2 D2) as (Kf & -> & STf & Ef). cbn [bind].
    assert (M2 : forall i, (i < 6)%nat -> mulv 6 Kf d2 i == 2 * (t * missing i)).
    { intros i Hi. rewrite <- (Ef i Hi), <- mulv_scale, <- mulv_scale. unfold mulv. apply sum_ext. intros j Hj. rewrite (D2 j Hj). ring. }
    assert (LT : Qltb (free_norm2 6 (supports_of free zero) (fun i => t * - push_half i - R2 i + - mulv 6 Kf d2 i)) (tol2 6 (fun i => t * - push_half i) R2) = true).
    { apply Qltb_true.
      assert (E1 : free_norm2 6 (supports_of free zero) (fun i => t * - push_half i - R2 i + - mulv 6 Kf d2 i) == 0).
      { unfold free_norm2. transitivity (sum 6 (fun i => 0)); [|vm_compute; reflexivity]. apply sum_ext. intros i Hi. destruct (supports_of free zero i); [reflexivity|]. rewrite (M2 i Hi), (proj2 (U2 i Hi)), (PM i Hi). ring. }
      assert (E2 : tol2 6 (fun i => t * - push_half i) R2 == (1 # 100000000) * (t * t * 50)).
      { assert (E0 : force2 6 push_half == 50) by (vm_compute; reflexivity). rewrite <- E0. unfold tol2. apply Qmult_comp; [reflexivity|]. unfold norm2, force2. rewrite <- sum_scale. apply sum_ext. intros i Hi. rewrite (proj2 (U2 i Hi)). ring. }
      rewrite E1, E2. pose proof (Qmult_lt_0_compat t t T T). lra. }
    rewrite LT. cbn [andb Nat.ltb Nat.leb].
    destruct (free_solve solve 6 Kf (fun i => t * - push_half i) (fun i => t * (2 * lifted i)) SO STf) as (uf & Rf & -> & _).
    { intros i Hi. rewrite (mulv_scale 6 Kf t (fun i => 2 * lifted i)), mulv_scale, (Ef i Hi), (PM i Hi). ring. }
    eexists. exists d2. split; [reflexivity|]. split; [reflexivity|]. intros i Hi. rewrite (D2 i Hi), (SL i Hi). ring.
Qed.
Print Assumptions C150_opposite_refuted.
