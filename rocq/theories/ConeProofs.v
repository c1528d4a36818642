(** Proofs about small loads: for displacements t u with t small and positive every spring has a stiffness that does not depend
    on t, so that analyses of small multiples of the same loads run side by side. *)
From Coq Require Import List Bool Arith ZArith QArith Qabs Qminmax Lia Lqa Setoid Morphisms.
From Verif Require Import Base LinAlg PileModel BeamModel BeamProofs SolveModel SolveSpec SolveProofs SpringModel SpringSpec SpringProofs SoilProofs SpringProper WinklerModel WinklerSpec WinklerProofs WinklerWitness EquilSpec ElasticSpec ElasticProofs TwinProofs.
Import ListNotations.
Local Open Scope Q_scope.

(** ** Axial springs: one slope down, another one up *)
Definition slope_up (c : curve) : Q := snd (point c (zero_index (length c) - 1)) / fst (point c (zero_index (length c) - 1)).
Definition initial_kind (k : kind) : bool := match k with Initial => true | _ => false end.
Definition up_or_down (c : curve) (k : kind) (u : Q) : Q := if initial_kind k || Qle_bool u 0 then slope_mid c else slope_up c.

Lemma about_middle_comp : forall c k u v, about_middle c k u -> v == u -> about_middle c k v.
Proof.
  intros c k u v (m & A & B & C & D & E & F & G) V. exists m. repeat (split; [assumption|]). intros d p X OC. apply G; [|exact OC]. rewrite <- V. exact X.
Qed.

Lemma up_line : forall c m, length c = (2 * m + 1)%nat -> Nat.odd m = true -> strict (rev c) -> hardening (rev c) -> origin (point c m) ->
  0 < fst (point c (m - 1)) /\ 0 <= snd (point c (m - 1)) / fst (point c (m - 1)) /\
  forall d, 0 <= d -> d <= fst (point c (m - 1)) -> interp d (rev c) == snd (point c (m - 1)) / fst (point c (m - 1)) * d.
Proof.
  intros c m L OD ST HD O. assert (M0 : (0 < m)%nat) by (destruct m; [discriminate|lia]). pose proof O as [O1 O2].
  assert (NE : rev c <> []) by (intros E; apply (f_equal (@length _)) in E; rewrite rev_length, L in E; cbn in E; lia).
  set (j := (length c - 1 - m)%nat).
  assert (PJ : point (rev c) j = point c m) by (unfold j; rewrite point_rev by lia; f_equal; lia).
  assert (PJ' : point (rev c) (S j) = point c (m - 1)) by (unfold j; rewrite point_rev by lia; f_equal; lia).
  assert (JL : (S j < length (rev c))%nat) by (rewrite rev_length; unfold j; lia).
  pose proof (strict_lt (rev c) (S j) j ST ltac:(lia) JL) as X. rewrite PJ, PJ' in X.
  assert (XP : 0 < fst (point c (m - 1))) by lra.
  assert (V : forall d, 0 <= d -> d <= fst (point c (m - 1)) -> interp d (rev c) == snd (point c (m - 1)) / fst (point c (m - 1)) * d).
  { intros d D1 D2. apply (on_curve_unique (rev c) d _ _ ST NE (interp_on_curve (rev c) d NE (strict_ordered _ ST))). left. exists j. split; [exact JL|]. rewrite PJ, PJ'.
    split; [exact X|]. split; [lra|]. split; [lra|]. rewrite O1, O2. field. lra. }
  split; [exact XP|]. split; [|exact V].
  pose proof (interp_mono (rev c) 0 (fst (point c (m - 1))) NE (strict_ordered _ ST) HD ltac:(lra)) as IM.
  rewrite (V 0 ltac:(lra) ltac:(lra)), (V (fst (point c (m - 1))) ltac:(lra) ltac:(lra)) in IM.
  set (k := snd (point c (m - 1)) / fst (point c (m - 1))) in *. clearbody k.
  destruct (Qlt_le_dec k 0) as [N|]; [|assumption]. exfalso.
  pose proof (Qmult_lt_0_compat (- k) _ ltac:(lra) XP). lra.
Qed.

Lemma terms_small : forall c u k, middle_curve c -> eventually (fun t => forall d, d == t * u -> exists y, ratio (axial_terms k d c) = Ok y /\ y == up_or_down c k u).
Proof.
  intros c u k MC. unfold up_or_down. destruct (initial_kind k) eqn:KI; cbn [orb].
  { destruct k; try discriminate KI. apply eventually_const. intros t d _.
    destruct (middle_small c 0 MC ltac:(left; lra)) as (t0 & T0 & H). exact (about_middle_terms c (slope_mid c) (t0 * 0) Initial (H t0 T0 ltac:(lra))). }
  destruct (Qle_bool u 0) eqn:U.
  { apply Qle_bool_iff in U. refine (eventually_imp _ _ _ (middle_small c u MC (or_introl U))). intros t T A d D. apply about_middle_terms. apply (about_middle_comp c _ (t * u)); assumption. }
  assert (UP : 0 < u). { destruct (Qlt_le_dec 0 u) as [|N]; [assumption|]. apply Qle_bool_iff in N. congruence. }
  destruct MC as (m & L & OD & ST & HD & O). destruct (up_line c m L OD ST HD O) as (XP & KP & V).
  assert (ZI : zero_index (length c) = m) by (rewrite L; apply zero_index_middle; [destruct m; [discriminate|lia]|assumption]).
  unfold slope_up. rewrite ZI. set (s := snd (point c (m - 1)) / fst (point c (m - 1))) in *. clearbody s.
  refine (eventually_imp _ _ _ (small_abs u (fst (point c (m - 1))) XP)). intros t T B d D.
  assert (DP : 0 < d) by (rewrite D; apply Qmult_lt_0_compat; assumption).
  assert (DB : d <= fst (point c (m - 1))) by (rewrite <- D in B; rewrite Qabs_pos in B by lra; exact B).
  unfold axial_terms. cbv zeta. rewrite ZI. unfold pt. change (nth m c (0, 0)) with (point c m).
  assert (NZ : Qeq_bool d 0 = false) by (destruct (Qeq_bool d 0) eqn:Z; [apply Qeq_bool_iff in Z; lra|reflexivity]). rewrite NZ.
  destruct O as [O1 O2]. destruct k; cbn [orb]; [discriminate KI| |].
  - apply ratio_line; [lra|exact KP|]. rewrite (V d ltac:(lra) DB), O2. ring.
  - assert (QM : 0 < Qmin (1#2000) (Qabs d) /\ Qmin (1#2000) (Qabs d) <= d).
    { split; [|rewrite Qabs_pos by lra; apply Q.le_min_r]. rewrite Qabs_pos by lra. destruct (Q.min_spec (1#2000) d) as [[_ E]|[_ E]]; rewrite E; [reflexivity|exact DP]. }
    destruct QM as [Q1 Q2]. generalize dependent (Qmin (1#2000) (Qabs d)). intros dx Q1 Q2.
    assert (LT : Qltb 0 d = true) by (apply Qltb_true; exact DP). rewrite LT.
    apply ratio_line; [lra|exact KP|]. rewrite (V d ltac:(lra) DB), (V (d - dx) ltac:(lra) ltac:(lra)). ring.
Qed.

Lemma absent_up_or_down : forall c k u, absent c -> up_or_down c k u == 0.
Proof. intros c k u A. unfold up_or_down, slope_mid, slope_up. destruct (_ || _)%bool; apply absent_slope, A. Qed.
Lemma idle_up_or_down : forall c k u, idle c -> up_or_down c k u == 0.
Proof. intros c k u A. unfold up_or_down, slope_mid, slope_up. destruct (_ || _)%bool; apply idle_slope, A. Qed.

Lemma tz_small : forall c u k, middle_curve c \/ absent c -> eventually (fun t => forall d, d == t * u -> exists y, tz_spring d c k = Ok y /\ y == up_or_down c k u).
Proof.
  intros c u k [MC|A].
  - refine (eventually_imp _ _ _ (terms_small c u k MC)). intros t T H d D. unfold tz_spring.
    destruct (middle_small c 0 MC ltac:(left; lra)) as (t0 & T0 & X). rewrite (middle_sum c _ _ (X t0 T0 ltac:(lra))). apply H, D.
  - apply eventually_const. intros t d _. unfold tz_spring. pose proof (absent_abs_sum c A) as X. apply Qeq_bool_iff in X. rewrite X.
    exists 0. split; [reflexivity|]. symmetry. apply absent_up_or_down, A.
Qed.
Lemma qz_small : forall c u k, middle_curve c \/ idle c -> eventually (fun t => forall d, d == t * u -> exists y, base_axial_spring d c k = Ok y /\ y == up_or_down c k u).
Proof.
  intros c u k H. unfold base_axial_spring. destruct (Qeq_bool _ 0) eqn:W.
  - apply eventually_const. intros t d _. exists 0. split; [reflexivity|]. symmetry. apply idle_up_or_down. intros p Hp. exact (abs_sum_zero snd c W p Hp).
  - destruct H as [MC|A]; [exact (terms_small c u k MC)|]. pose proof (idle_abs_sum c A) as X. apply Qeq_bool_iff in X. congruence.
Qed.

(** ** The stiffness matrix from what the springs answer *)
Definition answer (f : res Q) (x : Q) : Prop := exists y, f = Ok y /\ y == x.
Definition answers (M : wmodel) (k : kind) (x : slopes) (w : vec) : Prop :=
  (forall py, w_py M = Some py -> forall e j, (e < w_n M)%nat -> (j < 2)%nat -> answer (py_spring (w (3 * spring_node (w_n M) e j + 1)%nat) (py e j) k) (k_py x e j) /\
     answer (py_spring (w (3 * spring_node (w_n M) e j + 1)%nat) (py e j) Secant) (k_py x e j)) /\
  (forall tz, w_tz M = Some tz -> forall e j, (e < w_n M)%nat -> (j < 2)%nat -> answer (tz_spring (w (3 * spring_node (w_n M) e j)%nat) (tz e j) k) (k_tz x e j)) /\
  (forall mt, w_mt M = Some mt -> exists py, w_py M = Some py /\
    forall e j p, (e < w_n M)%nat -> (j < 2)%nat -> answer (mt_spring (w (3 * spring_node (w_n M) e j + 2)%nat) p (map snd (py e j)) (mt e j) k) (k_mt x e j)) /\
  (forall c, w_hb M = Some c -> answer (base_spring (w (3 * w_n M + 1)%nat) c k) (k_hb x)) /\
  (forall c, w_mb M = Some c -> answer (base_spring (w (3 * w_n M + 2)%nat) c k) (k_mb x)) /\
  (forall c, w_qz M = Some c -> answer (base_axial_spring (w (3 * w_n M)%nat) c k) (k_qz x)).

Section Matrix.
Variables (M : wmodel) (x : slopes) (u u' : vec) (k : kind).
Hypothesis AN : answers M k x u.
Hypothesis AN' : answers M k x u'.

Lemma soil_elements_answers : req elems_eq (soil_elements M u k) (soil_elements M u' k).
Proof.
  unfold soil_elements. pose proof AN as (P & T & R & _). pose proof AN' as (P' & T' & R' & _). apply (req_bind _ _ elems_eq).
  - unfold opt_res. destruct (w_py M) as [py|] eqn:E; [|intros e i j; reflexivity]. eapply req_bind.
    + apply collect_comp. intros e He. apply both_comp. intros j Hj. rewrite !spring_disp_node by assumption. apply (elastic_req _ _ (k_py x e j)); [apply (P py eq_refl e j He Hj)|apply (P' py eq_refl e j He Hj)].
    + intros l l' HL e. destruct (kpair_comp l l' e HL). apply madd_comp; [intros i j; reflexivity|apply elem_py_comp; auto].
  - intros k1 k1' H1. apply (req_bind _ _ elems_eq).
    + unfold opt_res. destruct (w_tz M) as [tz|] eqn:Z; [|exact H1]. eapply req_bind.
      * apply collect_comp. intros e He. apply both_comp. intros j Hj. rewrite !spring_disp_node by assumption. rewrite !Nat.add_0_r.
        apply (elastic_req _ _ (k_tz x e j)); [apply (T tz eq_refl e j He Hj)|apply (T' tz eq_refl e j He Hj)].
      * intros l l' HL e. destruct (kpair_comp l l' e HL). apply madd_comp; [apply H1|apply elem_tz_comp; auto].
    + intros k2 k2' H2. unfold opt_res. destruct (w_mt M) as [mt|]; [|exact H2]. destruct (R mt eq_refl) as (py & E & RR). destruct (R' mt eq_refl) as (py' & E' & RR').
      rewrite E in E' |- *. injection E' as <-. eapply req_bind.
      * apply collect_comp. intros e He. apply both_comp. intros j Hj. rewrite !spring_disp_node by assumption.
        destruct (P py E e j He Hj) as [_ (a & -> & _)]. destruct (P' py E e j He Hj) as [_ (b & -> & _)]. cbn [bind].
        apply (elastic_req _ _ (k_mt x e j)); [apply (RR e j _ He Hj)|apply (RR' e j _ He Hj)].
      * intros l l' HL e. destruct (kpair_comp l l' e HL). apply madd_comp; [apply H2|apply mt_matrix_comp; auto].
Qed.

Lemma build_answers : req same_all (build M u k) (build M u' k).
Proof.
  unfold build. pose proof AN as (_ & _ & _ & H & B & A). pose proof AN' as (_ & _ & _ & H' & B' & A').
  assert (S1 : (size M - 1 = 3 * w_n M + 2)%nat) by (unfold size; lia). assert (S2 : (size M - 2 = 3 * w_n M + 1)%nat) by (unfold size; lia).
  assert (S3 : (size M - 3 = 3 * w_n M)%nat) by (unfold size; lia).
  eapply req_bind; [apply soil_elements_answers|]. intros a b E.
  eapply req_bind; [apply add_base_elastic; [lia| |apply jit_build_comp, E]|].
  { intros c C. rewrite S2. apply (elastic_req _ _ (k_hb x)); [apply H|apply H']; exact C. }
  intros K1 K1' E1. eapply req_bind; [apply add_base_elastic; [lia| |exact E1]|].
  { intros c C. rewrite S1. apply (elastic_req _ _ (k_mb x)); [apply B|apply B']; exact C. }
  intros K2 K2' E2. apply add_base_elastic; [lia| |exact E2].
  intros c C. rewrite S3. apply (elastic_req _ _ (k_qz x)); [apply A|apply A']; exact C.
Qed.
End Matrix.

Definition limit_slopes (M : wmodel) (k : kind) (u : vec) : slopes := {|
  k_py := k_py (first_slopes M);
  k_tz := fun e j => match w_tz M with Some tz => up_or_down (tz e j) k (u (3 * spring_node (w_n M) e j)%nat) | None => 0 end;
  k_mt := k_mt (first_slopes M); k_hb := k_hb (first_slopes M); k_mb := k_mb (first_slopes M);
  k_qz := match w_qz M with Some c => up_or_down c k (u (3 * w_n M)%nat) | None => 0 end |}.

Lemma eventually_springs : forall n (P : nat -> nat -> Q -> Prop), (forall e j, (e < n)%nat -> (j < 2)%nat -> eventually (P e j)) ->
  eventually (fun t => forall e j, (e < n)%nat -> (j < 2)%nat -> P e j t).
Proof.
  intros n P H. refine (eventually_imp (fun t => forall e, (e < n)%nat -> forall j, (j < 2)%nat -> P e j t) _ _ _); [auto|].
  apply eventually_all. intros e He. apply eventually_all. auto.
Qed.

Lemma lateral_same : forall c k u w, lateral_elastic c k u -> w == u -> lateral_elastic c k w.
Proof. intros c k u w H E. apply (lateral_mix c k u u w 1 0 H H); [discriminate|]. rewrite E. ring. Qed.
Lemma tip_same : forall c k u w, tip_elastic c k u -> w == u -> tip_elastic c k w.
Proof. intros c k u w H E. apply (tip_mix c k u u w 1 0 H H); [discriminate|]. rewrite E. ring. Qed.

Lemma small_answers : forall M u k, regular M -> eventually (fun t => forall w, (forall i, (i < size M)%nat -> w i == t * u i) -> answers M k (limit_slopes M k u) w).
Proof.
  intros M u k (P & T & R & H & B & A). pose (n := w_n M).
  assert (ND : forall e j, (e < w_n M)%nat -> (j < 2)%nat -> (spring_node (w_n M) e j <= w_n M)%nat) by (intros e j He Hj; destruct (node_of (w_n M) e j He Hj) as [->| ->]; lia).
  assert (E1 : eventually (fun t => forall py, w_py M = Some py -> forall e j, (e < w_n M)%nat -> (j < 2)%nat -> lateral_elastic (py e j) (slope1 (py e j)) (t * u (3 * spring_node (w_n M) e j + 1)%nat))).
  { destruct (w_py M) as [py|]; [|apply eventually_const; intros; discriminate].
    refine (eventually_imp _ _ _ (eventually_springs (w_n M) _ (fun e j He Hj => lateral_small (py e j) (u (3 * spring_node (w_n M) e j + 1)%nat) (P py eq_refl e j He Hj)))).
    intros t _ X py' E. injection E as <-. exact X. }
  assert (E2 : eventually (fun t => forall tz, w_tz M = Some tz -> forall e j, (e < w_n M)%nat -> (j < 2)%nat -> forall d, d == t * u (3 * spring_node (w_n M) e j)%nat ->
    exists y, tz_spring d (tz e j) k = Ok y /\ y == up_or_down (tz e j) k (u (3 * spring_node (w_n M) e j)%nat))).
  { destruct (w_tz M) as [tz|]; [|apply eventually_const; intros; discriminate].
    refine (eventually_imp _ _ _ (eventually_springs (w_n M) _ (fun e j He Hj => tz_small (tz e j) (u (3 * spring_node (w_n M) e j)%nat) k (T tz eq_refl e j He Hj)))).
    intros t _ X tz' E. injection E as <-. exact X. }
  assert (E3 : eventually (fun t => forall mt, w_mt M = Some mt -> exists py, w_py M = Some py /\ forall e j, (e < w_n M)%nat -> (j < 2)%nat ->
    rotation_elastic (map snd (py e j)) (mt e j) (slope1 (first_row (mt e j))) (t * u (3 * spring_node (w_n M) e j + 2)%nat))).
  { destruct (w_mt M) as [mt|]; [|apply eventually_const; intros; discriminate]. destruct (R mt eq_refl) as (py & EP & RR).
    refine (eventually_imp _ _ _ (eventually_springs (w_n M) _ (fun e j He Hj => rotation_small (map snd (py e j)) (mt e j) (u (3 * spring_node (w_n M) e j + 2)%nat) (RR e j He Hj)))).
    intros t _ X mt' E. injection E as <-. exists py. split; [exact EP|exact X]. }
  assert (E4 : eventually (fun t => forall c, w_hb M = Some c -> tip_elastic c (slope1 c) (t * u (3 * w_n M + 1)%nat))).
  { destruct (w_hb M) as [c|]; [|apply eventually_const; intros; discriminate]. refine (eventually_imp _ _ _ (tip_small c _ (H c eq_refl))). intros t _ X c' E. injection E as <-. exact X. }
  assert (E5 : eventually (fun t => forall c, w_mb M = Some c -> tip_elastic c (slope1 c) (t * u (3 * w_n M + 2)%nat))).
  { destruct (w_mb M) as [c|]; [|apply eventually_const; intros; discriminate]. refine (eventually_imp _ _ _ (tip_small c _ (B c eq_refl))). intros t _ X c' E. injection E as <-. exact X. }
  assert (E6 : eventually (fun t => forall c, w_qz M = Some c -> forall d, d == t * u (3 * w_n M)%nat -> exists y, base_axial_spring d c k = Ok y /\ y == up_or_down c k (u (3 * w_n M)%nat))).
  { destruct (w_qz M) as [c|]; [|apply eventually_const; intros; discriminate]. refine (eventually_imp _ _ _ (qz_small c _ k (A c eq_refl))). intros t _ X c' E. injection E as <-. exact X. }
  refine (eventually_imp _ _ _ (eventually_and _ _ E1 (eventually_and _ _ E2 (eventually_and _ _ E3 (eventually_and _ _ E4 (eventually_and _ _ E5 E6)))))).
  clear E1 E2 E3 E4 E5 E6. intros t _ (F1 & F2 & F3 & F4 & F5 & F6) w W. unfold answers, limit_slopes, first_slopes. cbn [k_py k_tz k_mt k_hb k_mb k_qz].
  assert (SZ : size M = (3 * w_n M + 3)%nat) by (unfold size; lia).
  split; [|split; [|split; [|split; [|split]]]].
  - intros py E e j He Hj. rewrite E. pose proof (ND e j He Hj). pose proof (lateral_same _ _ _ _ (F1 py E e j He Hj) (W (3 * spring_node (w_n M) e j + 1)%nat ltac:(lia))) as X. split; apply py_elastic, X.
  - intros tz E e j He Hj. rewrite E. pose proof (ND e j He Hj). apply (F2 tz E e j He Hj). apply W. lia.
  - intros mt E. destruct (F3 mt E) as (py & EP & RR). exists py. split; [exact EP|]. intros e j p He Hj. rewrite E. pose proof (ND e j He Hj). apply mt_elastic.
    destruct (RR e j He Hj) as (X1 & X2 & X3 & X4). split; [exact X1|]. split; [exact X2|]. split; [exact X3|]. apply (lateral_same _ _ _ _ X4). apply W. lia.
  - intros c E. rewrite E. apply base_elastic. apply (tip_same _ _ _ _ (F4 c E)). apply W. lia.
  - intros c E. rewrite E. apply base_elastic. apply (tip_same _ _ _ _ (F5 c E)). apply W. lia.
  - intros c E. rewrite E. apply (F6 c E). apply W. lia.
Qed.

(** for small multiples of [u] the stiffness of the system does not depend on the multiple *)
Lemma small_build : forall M u k, regular M -> exists B : res mat, eventually (fun t => forall w, (forall i, (i < size M)%nat -> w i == t * u i) -> req same_all B (build M w k)).
Proof.
  intros M u k RG. destruct (small_answers M u k RG) as (t0 & T0 & H). exists (build M (fun i => t0 * u i) k). exists t0. split; [exact T0|].
  intros t T L w W. apply (build_answers M (limit_slopes M k u)); [apply (H t0 T0); [lra|]; intros; reflexivity|apply (H t T L w W)].
Qed.

(** ** The iteration *)
(** the stiffness of the system does not depend on the size of small displacements *)
Definition settled (M : wmodel) : Prop := forall u k, exists B : res mat, eventually (fun t => forall w, (forall i, (i < size M)%nat -> w i == t * u i) -> req same_all B (build M w k)).
Lemma regular_settled : forall M, regular M -> settled M.
Proof. intros M RG u k. apply small_build, RG. Qed.

Lemma cone_loop : forall (solve : solver) M F U0 r, solver_ok solve -> settled M -> forall fuel iter d U K Rg last, exists O, eventually (fun t => let c := fun _ : nat => t in let n := size M in
  forall solve' F' U0' r' d' U' K' Rg' last', solver_ok solve' -> (forall i, (i < n)%nat -> r' i = r i) -> loads n c F F' -> disps n c U0 U0' ->
  disps n c d d' -> disps n c U U' -> stiffs n c c K K' -> loads n c Rg Rg' -> outcomes n c c (t * t) last last' ->
  req (outcomes n c c (t * t)) O (loop solve' n (build M) F' U0' r' fuel iter d' U' K' Rg' last')).
Proof.
  intros solve M F U0 r SO RG. set (n := size M).
  assert (STF : forall t B B', req same_all B B' -> req (stiffs n (fun _ => t) (fun _ => t)) B B').
  { intros t [K|e] [K'|e'] E; cbn [req] in *; try exact E. intros i j _ _. rewrite <- (E i j). ring. }
  induction fuel as [|fuel IH]; intros iter d U K Rg last.
  { exists (Ok last). apply eventually_const. intros t. cbv zeta. intros. cbn [loop]. assumption. }
  destruct (solve_equations solve n K Rg U r) as [[u R]|] eqn:ES.
  2: { exists (Ok {| o_d := None; o_Q := None; o_iter := iter; o_err := o_err last; o_tol := None; o_hist := o_hist last |}).
    refine (eventually_imp (fun _ => True) _ _ (eventually_const _ (fun _ => Logic.I))). intros t T _. cbv zeta. intros solve' F' U0' r' d' U' K' Rg' last' SO' RR HF HU HD HUU HK HR HO.
    assert (A0 : forall i, (i < n)%nat -> ~ (fun _ : nat => t) i == 0) by (intros; cbv beta; lra).
    pose proof (twin_solve n (fun _ => t) (fun _ => t) A0 A0 solve solve' r r' RR SO SO' K K' Rg Rg' U U' HK HR (fun i Hi _ => HUU i Hi)) as TS. rewrite ES in TS. cbn [loop]. fold n.
    destruct (solve_equations solve' n K' Rg' U' r') as [[u' R']|]; cbn [opt_rel] in TS; try contradiction.
    destruct HO as (O1 & O2 & O3 & O4 & O5 & O6). unfold req, outcomes. cbn. repeat split; auto. }
  set (d1 := fun i => d i + u i).
  destruct (RG d1 Secant) as (BS & ES1). destruct (RG d1 Tangent) as (BT & ET1).
  destruct BS as [Ks|es].
  2: { exists (Err es). refine (eventually_imp _ _ _ ES1). intros t T HS. cbv zeta. intros solve' F' U0' r' d' U' K' Rg' last' SO' RR HF HU HD HUU HK HR HO.
    assert (A0 : forall i, (i < n)%nat -> ~ (fun _ : nat => t) i == 0) by (intros; cbv beta; lra).
    pose proof (twin_solve n (fun _ => t) (fun _ => t) A0 A0 solve solve' r r' RR SO SO' K K' Rg Rg' U U' HK HR (fun i Hi _ => HUU i Hi)) as TS. rewrite ES in TS. cbn [loop]. fold n.
    destruct (solve_equations solve' n K' Rg' U' r') as [[u' R']|]; cbn [opt_rel] in TS; try contradiction. cbv zeta. cbn [fst snd] in TS. destruct TS as [TU TR].
    set (d1' := fun i => d' i + u' i).
    assert (HD1 : disps n (fun _ => t) d1 d1') by (intros i Hi; unfold d1, d1'; rewrite (HD i Hi), (TU i Hi); ring).
    specialize (HS d1' HD1). destruct (build M d1' Secant); cbn [req bind] in *; [contradiction|exact HS]. }
  set (Rn := fun i => F i - R i + - mulv n Ks d1 i).
  set (next := {| o_d := Some d1; o_Q := Some R; o_iter := S iter; o_err := Some (free_norm2 n r Rn); o_tol := Some (tol2 n F R); o_hist := d1 :: o_hist last |}).
  assert (NX : exists O1, eventually (fun t => let c := fun _ : nat => t in forall Kt, BT = Ok Kt -> forall solve' F' U0' r' d' U' K' Rg' last', solver_ok solve' -> (forall i, (i < n)%nat -> r' i = r i) -> loads n c F F' -> disps n c U0 U0' ->
    disps n c d1 d' -> disps n c zero U' -> stiffs n c c Kt K' -> loads n c Rn Rg' -> outcomes n c c (t * t) next last' ->
    req (outcomes n c c (t * t)) O1 (loop solve' n (build M) F' U0' r' fuel (S iter) d' U' K' Rg' last'))).
  { destruct BT as [Kt|e]; [|exists (Ok last); apply eventually_const; cbv zeta; intros; discriminate].
    destruct (IH (S iter) d1 zero Kt Rn next) as (O1 & EI). exists O1. refine (eventually_imp _ _ _ EI). intros t T X. cbv zeta in *. intros Kt' E. injection E as <-. exact X. }
  destruct NX as (O1 & EI). clear IH.
  exists (if Qltb (free_norm2 n r Rn) (tol2 n F R) && (1 <? S iter)%nat then
      match solve_equations solve n Ks F U0 r with
      | None => Err LinAlgError
      | Some (_, Rf) => Ok {| o_d := Some d1; o_Q := Some Rf; o_iter := S iter; o_err := Some (free_norm2 n r Rn); o_tol := Some (tol2 n F R); o_hist := d1 :: o_hist last |}
      end
    else if Nat.eqb (S iter) 100 then Ok {| o_d := None; o_Q := None; o_iter := 100; o_err := None; o_tol := None; o_hist := d1 :: o_hist last |}
    else bind BT (fun _ => O1)).
  refine (eventually_imp _ _ _ (eventually_and _ _ ES1 (eventually_and _ _ ET1 EI))). clear ES1 ET1 EI.
  intros t T (HS & HT & HI). cbv zeta in *. intros solve' F' U0' r' d' U' K' Rg' last' SO' RR HF HU HD HUU HK HR HO. fold n in HS, HT |- *.
  assert (A0 : forall i, (i < n)%nat -> ~ (fun _ : nat => t) i == 0) by (intros; cbv beta; lra).
  assert (BB : forall i, (i < n)%nat -> (fun _ : nat => t) i * (fun _ : nat => t) i == t * t) by (intros; reflexivity).
  assert (BP : 0 < t * t) by (apply Qmult_lt_0_compat; exact T).
  pose proof (twin_solve n (fun _ => t) (fun _ => t) A0 A0 solve solve' r r' RR SO SO' K K' Rg Rg' U U' HK HR (fun i Hi _ => HUU i Hi)) as TS. rewrite ES in TS. cbn [loop].
  destruct (solve_equations solve' n K' Rg' U' r') as [[u' R']|]; cbn [opt_rel] in TS; try contradiction. cbv zeta. cbn [fst snd] in TS. destruct TS as [TU TR].
  set (d1' := fun i => d' i + u' i).
  assert (HD1 : disps n (fun _ => t) d1 d1') by (intros i Hi; unfold d1, d1'; rewrite (HD i Hi), (TU i Hi); ring).
  specialize (HS d1' HD1). specialize (HT d1' HD1).
  destruct (build M d1' Secant) as [Ks'|e'] eqn:EB; [|contradiction HS]. pose proof (STF t (Ok Ks) (Ok Ks') HS) as HSS. cbn [req] in HSS. cbn [bind].
  set (Rn' := fun i => F' i - R' i + - mulv n Ks' d1' i).
  assert (HRN : loads n (fun _ => t) Rn Rn').
  { intros i Hi. unfold Rn, Rn'. rewrite (HF i Hi), (TR i Hi), (twin_mulv n _ _ Ks Ks' d1 d1' HSS HD1 i Hi). ring. }
  pose proof (twin_free_norm n (fun _ => t) r r' RR (t * t) BB Rn Rn' HRN) as EN. pose proof (twin_tol n (fun _ => t) F F' (t * t) BB HF R R' TR) as ET.
  rewrite (twin_less (t * t) BP _ _ _ _ EN ET).
  assert (HIST : Forall2 (disps n (fun _ => t)) (d1 :: o_hist last) (d1' :: o_hist last')) by (constructor; [exact HD1|apply HO]).
  destruct (Qltb _ _ && _)%bool.
  - cbn [bind]. pose proof (twin_solve n (fun _ => t) (fun _ => t) A0 A0 solve solve' r r' RR SO SO' Ks Ks' F F' U0 U0' HSS HF (fun i Hi _ => HU i Hi)) as TS.
    destruct (solve_equations solve n Ks F U0 r) as [[uf Rf]|]; destruct (solve_equations solve' n Ks' F' U0' r') as [[uf' Rf']|]; cbn [opt_rel] in TS; try contradiction; [|reflexivity].
    cbn [fst snd] in TS. unfold req, outcomes. cbn [o_d o_Q o_iter o_err o_tol o_hist opt_rel]. split; [exact HD1|]. split; [exact (proj2 TS)|]. auto.
  - destruct (Nat.eqb (S iter) 100).
    + unfold req, outcomes. cbn [o_d o_Q o_iter o_err o_tol o_hist opt_rel]. auto 10.
    + destruct BT as [Kt|et]; destruct (build M d1' Tangent) as [Kt'|et'] eqn:EBT; cbn [req bind] in *; try contradiction; [|exact HT].
      apply (HI Kt eq_refl); auto.
      * intros i Hi. unfold zero. ring.
      * exact (STF t (Ok Kt) (Ok Kt') HT).
      * unfold outcomes, next. cbn [o_d o_Q o_iter o_err o_tol o_hist opt_rel]. auto 10.
Qed.

Lemma cone_winkler : forall (solve : solver) M F U0 r max_iter, solver_ok solve -> settled M -> exists O, eventually (fun t => let c := fun _ : nat => t in let n := size M in
  forall solve' F' U0' r', solver_ok solve' -> (forall i, (i < n)%nat -> r' i = r i) -> loads n c F F' -> disps n c U0 U0' ->
  req (outcomes n c c (t * t)) O (winkler solve' n (build M) F' U0' r' max_iter)).
Proof.
  intros solve M F U0 r m SO RG. destruct (RG zero Initial) as (B & EB).
  set (o0 := {| o_d := Some zero; o_Q := None; o_iter := 0; o_err := Some (free_norm2 (size M) r F); o_tol := None; o_hist := [] |}).
  destruct B as [K|e].
  - destruct (cone_loop solve M F U0 r SO RG (S m) 0 zero U0 K F o0) as (O & EO). exists O. refine (eventually_imp _ _ _ (eventually_and _ _ EB EO)).
    intros t T [HB HO]. cbv zeta in *. intros solve' F' U0' r' SO' RR HF HU. unfold winkler.
    assert (Z : disps (size M) (fun _ => t) zero zero) by (intros i Hi; unfold zero; ring).
    specialize (HB zero Z). destruct (build M zero Initial) as [K'|e']; [|contradiction HB]. cbn [bind req] in *. apply HO; auto.
    + intros i j _ _. rewrite <- (HB i j). ring.
    + unfold outcomes, o0. cbn [o_d o_Q o_iter o_err o_tol o_hist opt_rel]. split; [exact Z|]. split; [exact Logic.I|]. split; [reflexivity|].
      split; [apply (twin_free_norm _ (fun _ => t)); [exact RR|intros; reflexivity|exact HF]|]. split; [exact Logic.I|constructor].
  - exists (Err e). refine (eventually_imp _ _ _ EB). intros t T HB. cbv zeta. intros solve' F' U0' r' SO' RR HF HU. unfold winkler.
    assert (Z : forall i, (i < size M)%nat -> zero i == t * zero i) by (intros i Hi; unfold zero; ring).
    specialize (HB zero Z). destruct (build M zero Initial) as [K'|e']; [contradiction HB|]. exact HB.
Qed.
