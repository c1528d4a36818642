(** Properties C116 and C117: states of rest, and how much the soil resists. *)
From Coq Require Import List Bool Arith ZArith QArith Qabs Lia Lqa.
From Verif Require Import Base LinAlg PileModel BeamModel BeamSpec BeamProofs SolveModel SolveSpec SolveProofs ForceProofs SpringModel SpringSpec SpringProofs SoilProofs SpringProper SpringWitness WinklerModel WinklerSpec WinklerProofs WinklerProps BalanceSpec BalanceProofs BareModel BareSpec BareProofs EquilSpec EquilProofs EquilWitness.
Import ListNotations.
Local Open Scope Q_scope.

Lemma pile_deforms : forall M z, sound_pile M z -> (forall e, (e < w_n M)%nat -> elem_deforms (z e - z (S e)) (w_mech M e)) /\ (forall e, (e < w_n M)%nat -> z (S e) < z e).
Proof. intros M z SP. split; [exact (deforms M z SP)|exact (downwards M z SP)]. Qed.

Lemma terms_zero : forall m f, (forall i, (i < m)%nat -> 0 <= f i) -> sum m f == 0 -> forall i, (i < m)%nat -> f i == 0.
Proof.
  induction m as [|m IH]; intros f H E i Hi; [lia|]. cbn [sum] in E. pose proof (H m ltac:(lia)) as A. pose proof (sum_nonneg m f (fun j Hj => H j ltac:(lia))) as B.
  destruct (Nat.eq_dec i m) as [->|N]; [lra|]. apply IH; [intros; apply H; lia|lra|lia].
Qed.

(** C116: the state the analysis iterates towards is a state of rest of the pile on its base springs. *)
Theorem C116_rest : forall M F U0 r V, base_only M -> base_curves M -> balanced M F U0 r V ->
  at_rest (w_n M) (jit_build (w_n M) (w_mech M)) (w_qz M) (w_hb M) (w_mb M) F U0 r V.
Proof. exact balanced_at_rest. Qed.
Print Assumptions C116_rest.

(** C116: with base springs only, two such states differ by a movement of the pile as a rigid body, and not
    at all when the supports hold the pile. *)
Theorem C116_base_unique_partial : forall M z F U0 r V V', sound_pile M z -> base_only M -> base_curves M -> balanced M F U0 r V -> balanced M F U0 r V' ->
  (exists a d t, forall i, (i < size M)%nat -> V i == V' i + rigid z a d t i) /\ (held (w_n M) r -> veq (size M) V V').
Proof.
  intros M z F U0 r V V' SP BO BC A B. destruct (pile_deforms M z SP) as [DF DW]. pose proof BC as (GQ & GH & GM).
  apply (balanced_at_rest M F U0 r V BO BC) in A. apply (balanced_at_rest M F U0 r V' BO BC) in B. split.
  - exact (rest_rigid _ _ z _ _ _ F U0 r DF DW GQ GH GM V V' A B).
  - intros HL. exact (rest_unique _ _ z _ _ _ F U0 r DF DW GQ GH GM V V' HL A B).
Qed.
Print Assumptions C116_base_unique_partial.

(** C116: under different loads the difference of the loads does at least the work that deforms the pile
    from one state to the other; it is never negative. *)
Theorem C116_base_monotone_partial : forall M z F F' U0 r V V', sound_pile M z -> base_only M -> base_curves M -> balanced M F U0 r V -> balanced M F' U0 r V' ->
  let W := fun i => V i - V' i in
  0 <= energy (size M) (jit_build (w_n M) (w_mech M)) W /\
  energy (size M) (jit_build (w_n M) (w_mech M)) W <= dot (size M) W (fun i => if r i then 0 else F i - F' i).
Proof.
  intros M z F F' U0 r V V' SP BO BC A B W. destruct (pile_deforms M z SP) as [DF DW]. pose proof BC as (GQ & GH & GM).
  apply (balanced_at_rest M F U0 r V BO BC) in A. apply (balanced_at_rest M F' U0 r V' BO BC) in B. split.
  - apply build_psd. intros e He. apply (DF e He).
  - exact (rest_energy _ _ z _ _ _ F U0 r DF GQ GH GM F' V V' A B).
Qed.
Print Assumptions C116_base_monotone_partial.

(** C116: analyses with whatever solver and number of passes that leave nothing out of balance agree. *)
Theorem C116_same_result_partial : forall solve solve' M z F U0 r m m' o o' v v' e e', solver_ok solve -> solver_ok solve' -> sound_pile M z -> base_only M -> base_curves M ->
  held (w_n M) (supports_of r U0) -> (99 <= m)%nat -> (99 <= m')%nat ->
  winkler_model solve M F U0 r m = Ok o -> winkler_model solve' M F U0 r m' = Ok o' -> o_d o = Some v -> o_d o' = Some v' ->
  o_err o = Some e -> e == 0 -> o_err o' = Some e' -> e' == 0 -> veq (size M) v v'.
Proof.
  intros solve solve' M z F U0 r m m' o o' v v' e e' SO SO' SP BO BC HL L L' H H' D D' E Z E' Z'.
  assert (B : forall solve m o v e, solver_ok solve -> (99 <= m)%nat -> winkler_model solve M F U0 r m = Ok o -> o_d o = Some v -> o_err o = Some e -> e == 0 -> balanced M F U0 (supports_of r U0) v).
  { clear. intros solve m o v e SO L H D E Z. destruct (C35_equilibrium_partial solve M F U0 r m o v SO L H D) as (Ks & R & e' & t & B & E1 & _ & _ & EE & _).
    assert (X : e' = e) by congruence. subst e'. exists Ks. split; [exact B|]. split; [exact (C36_prescribed_result solve M F U0 r m o v SO H D)|].
    intros i Hi Ri. rewrite Z in EE. symmetry in EE. unfold out_of_balance in EE.
    assert (T : (F i - mulv (size M) Ks v i) * (F i - mulv (size M) Ks v i) == 0).
    { assert (T' : (if supports_of r U0 i then 0 else (F i - mulv (size M) Ks v i) * (F i - mulv (size M) Ks v i)) == 0).
      { revert i Hi Ri EE. clear. intros i Hi Ri EE.
        apply (terms_zero (size M) (fun j => if supports_of r U0 j then 0 else (F j - mulv (size M) Ks v j) * (F j - mulv (size M) Ks v j))); auto.
        intros j Hj. destruct (supports_of r U0 j); [lra|apply square_nonneg]. }
      rewrite Ri in T'. exact T'. }
    apply Qmult_integral in T. destruct T; lra. }
  exact (proj2 (C116_base_unique_partial M z F U0 (supports_of r U0) v v' SP BO BC (B _ _ _ _ _ SO L H D E Z) (B _ _ _ _ _ SO' L' H' D' E' Z')) HL).
Qed.
Print Assumptions C116_same_result_partial.

(** C116 does not hold of springs along the pile: one element in an elastic-plastic soil under one load has
    two states of rest, with the same supports; both springs are elastic in the first and yield in the second. *)
Theorem C116_unique_refuted : exists M z F U0 r V V' c, sound_pile M z /\ w_py M = Some (fun _ _ => c) /\ lateral_curve c /\
  w_tz M = None /\ w_mt M = None /\ w_hb M = None /\ w_mb M = None /\ w_qz M = None /\
  balanced M F U0 r V /\ balanced M F U0 r V' /\ V 4%nat < V' 4%nat /\ V 1%nat < V' 1%nat.
Proof.
  exists (plain_soil ep), z0, (at_tip 120), zero, guided, elastic, plastic, ep. split; [apply plain_pile|]. split; [reflexivity|].
  split; [repeat split; cbn; try lra; lia|]. do 5 (split; [reflexivity|]). destruct two_rests as [A B]. split; [exact A|]. split; [exact B|]. split; reflexivity.
Qed.
Print Assumptions C116_unique_refuted.

(** a pile clamped at its head on a lateral base spring: at rest under a load at the tip *)
Definition propped : wmodel := {| w_n := 1; w_mech := fun _ => mech0; w_L := fun _ => 1;
  w_py := None; w_tz := None; w_mt := None; w_mtc := fun _ => (0, 0, 0, 0); w_hb := Some py0; w_mb := Some py0; w_qz := Some tz0 |}.
Definition clamped (i : nat) : bool := (i <? 3)%nat.
(** loads found from the state: the last springs yield at a displacement of 0.055 *)
Definition propped_state : vec := of_list [0; 0; 0; 0; 55#1000; 0].
Definition propped_load : vec := fun i => match build propped propped_state Secant with Ok K => mulv 6 K propped_state i | Err _ => 0 end.

Example C116_example : sound_pile propped z0 /\ base_only propped /\ base_curves propped /\ held (w_n propped) clamped /\
  balanced propped propped_load zero clamped propped_state /\ propped_load 4%nat == 810.
Proof.
  split. { constructor; [intros e He; cbn in He; split; [|reflexivity]; destruct e as [|]; [reflexivity|lia]|intros e He; exact mech0_deforms]. }
  split; [repeat split|]. split.
  { split; [|split]; intros c E; injection E as <-; [|exact py0_ok|exact py0_ok]. destruct tz0_ok as (A & B & C & D & _). exact (conj A (conj B (conj C D))). }
  split. { split; [exists 0%nat; split; [cbn; lia|reflexivity]|]. exists 0%nat. split; [cbn; lia|]. split; [reflexivity|]. left. exists 0%nat. split; [cbn; lia|reflexivity]. }
  split; [|vm_compute; reflexivity].
  assert (B : match build propped propped_state Secant with Ok _ => True | Err _ => False end) by (vm_compute; exact Logic.I).
  unfold balanced, propped_load. destruct (build propped propped_state Secant) as [K|]; [|contradiction]. exists K. split; [reflexivity|]. split.
  - intros i Hi Ri. destruct i as [|[|[|]]]; try reflexivity. discriminate.
  - intros i Hi Ri. reflexivity.
Qed.

(** C117: when every node moves sideways by the same amount the soil resists with the resistance of its curves
    at this displacement, integrated along the pile, plus that of the base: no more than the ultimate ones. *)
Theorem C117_translation_partial : forall M z V K v py, sound_pile M z -> w_py M = Some py ->
  (forall e j, (e < w_n M)%nat -> (j < 2)%nat -> lateral_curve (py e j)) -> (forall c, w_hb M = Some c -> lateral_curve c) ->
  build M V Secant = Ok K -> (forall a, (a <= w_n M)%nat -> V (3 * a + 1)%nat == v /\ V (3 * a + 2)%nat == 0) ->
  exists p ph, (forall e j, (e < w_n M)%nat -> (j < 2)%nat -> on_curve (py e j) (Qabs v) (p e j) /\ 0 <= p e j /\ p e j <= ultimate (py e j)) /\
  match w_hb M with None => ph == 0 | Some c => on_curve c (Qabs v) ph /\ 0 <= ph /\ ph <= ultimate c end /\
  forall G, (forall i, (i < size M)%nat -> mulv (size M) K V i == G i) ->
    Qabs (total_lateral (w_n M) G) == sum (w_n M) (fun e => w_L M e * (p e 0%nat + p e 1%nat) / 2) + ph.
Proof. exact translation_resistance. Qed.
Print Assumptions C117_translation_partial.

(** C117: an element that tilts while the springs at both ends resist with [p] resists with [L p] and more:
    the stiffnesses are interpolated, not the resistances. *)
Theorem C117_tilted : forall L p kt kb u1 u2, 0 < L -> 0 < u1 -> 0 < u2 -> kt * u1 == p -> kb * u2 == p ->
  shaft_lateral L (kt, kb) (tilted L u1 u2) == L * p + L * p * ((u2 - u1) * (u2 - u1)) / (6 * u1 * u2).
Proof. exact tilted_excess. Qed.
Print Assumptions C117_tilted.

(** C117 does not hold: for every curve and every bound there are displacements of the two ends with both springs
    at their ultimate resistance at which the element resists more than the bound. *)
Theorem C117_ultimate_refuted : forall c L bound, lateral_curve c -> 0 < L -> 0 < ultimate c ->
  exists u1 u2 kt kb, fst (point c (length c - 1)) <= u1 /\ fst (point c (length c - 1)) <= u2 /\ 0 < u1 /\ 0 < u2 /\
    py_spring u1 c Secant = Ok kt /\ py_spring u2 c Secant = Ok kb /\ kt * u1 == ultimate c /\ kb * u2 == ultimate c /\
    bound < shaft_lateral L (kt, kb) (tilted L u1 u2).
Proof.
  intros c L bound G HL HU. pose proof G as (LC & ST & HD & OR).
  assert (Y : 0 < fst (point c (length c - 1))).
  { assert (E : fst (point c 0) < fst (point c (length c - 1))) by (apply strict_lt; auto; lia). rewrite (proj1 OR) in E. exact E. }
  set (y := fst (point c (length c - 1))) in *. set (P := ultimate c) in *.
  assert (LP : 0 < L * P) by (apply mul_pos; auto).
  set (rho := 1 + 6 * Qabs bound / (L * P)).
  assert (B0 : 0 <= Qabs bound / (L * P)). { unfold Qdiv. apply mul_nonneg; [apply Qabs_nonneg|]. apply Qlt_le_weak, Qinv_lt_0_compat. exact LP. }
  assert (R1 : 1 <= rho). { unfold rho. setoid_replace (6 * Qabs bound / (L * P)) with (6 * (Qabs bound / (L * P))) by (field; lra). lra. }
  assert (Y2 : 0 <= y * (rho - 1)) by (apply mul_nonneg; lra). assert (YE : y * (rho - 1) == y * rho - y) by ring.
  assert (YR : y <= y * rho) by lra. assert (YP : 0 < y * rho) by lra.
  destruct (beyond_ultimate y c G (Qlt_le_weak _ _ Y) (Qle_refl _)) as (kt & EK & KT). destruct (beyond_ultimate (y * rho) c G (Qlt_le_weak _ _ YP) YR) as (kb & EB & KB).
  exists y, (y * rho), kt, kb. split; [apply Qle_refl|]. split; [exact YR|]. split; [exact Y|]. split; [exact YP|]. split; [exact EK|]. split; [exact EB|]. split; [exact KT|]. split; [exact KB|].
  fold P in KT, KB. rewrite tilted_resistance by lra.
  assert (K1 : kt * (y * rho) == P * rho). { setoid_replace (kt * (y * rho)) with ((kt * y) * rho) by ring. rewrite KT. reflexivity. }
  rewrite KT, KB, K1.
  assert (KB0 : 0 <= kb * y).
  { apply mul_nonneg; [|lra]. destruct (py_secant (y * rho) c LC ST HD OR) as (k' & p' & E' & _ & _ & K0 & _). rewrite EB in E'. apply ok_inj in E'. subst k'. exact K0. }
  assert (T : L * (P * rho) == L * P + 6 * Qabs bound) by (unfold rho; field; lra).
  pose proof (mul_nonneg L (kb * y) ltac:(lra) KB0) as T2. pose proof (Qle_Qabs bound) as T3.
  setoid_replace (L * ((P + P) / 3 + (P * rho + kb * y) / 6)) with ((2#3) * (L * P) + (1#6) * (L * (P * rho)) + (1#6) * (L * (kb * y))) by field.
  rewrite T. lra.
Qed.
Print Assumptions C117_ultimate_refuted.

(** C117 does not hold of what the analysis reports either: soil with any ultimate resistance [p] per length, however
    small, carries any load [f] at the tip of a pile of length 1, which only the soil can carry: the analysis converges,
    and the displacement of the nodes its two springs go by is zero. *)
Theorem C117_analysis_refuted : forall solve p f max_iter, solver_ok solve -> 0 < p -> ~ f == 0 -> (1 <= max_iter)%nat ->
  exists M z c r o v R, sound_pile M z /\ w_n M = 1%nat /\ w_L M 0%nat == 1 /\ w_py M = Some (fun _ _ => c) /\
    w_tz M = None /\ w_mt M = None /\ w_hb M = None /\ w_mb M = None /\ w_qz M = None /\
    lateral_curve c /\ ultimate c == p /\ r 1%nat = false /\ r 4%nat = false /\
    winkler_model solve M (at_tip f) zero r max_iter = Ok o /\ o_iter o = 2%nat /\ o_d o = Some v /\ o_Q o = Some R /\
    R 1%nat == 0 /\ R 4%nat == 0 /\ v 4%nat == (3#140000) * f /\ (forall j, (j < 2)%nat -> spring_disp 1 v 1 0 j == 0).
Proof.
  intros solve p f mi SO P NZ Hm. destruct (unmoved solve p f mi SO P NZ Hm) as (o & v & R & H1 & H2 & H3 & H4 & V1 & V4 & R1 & R4).
  exists (plain_soil (soft p)), z0, (soft p), guided, o, v, R. split; [apply plain_pile|]. do 8 (split; [reflexivity|]).
  split; [exact (proj1 (soft_curve p P))|]. split; [reflexivity|]. split; [reflexivity|]. split; [reflexivity|].
  split; [exact H1|]. split; [exact H2|]. split; [exact H3|]. split; [exact H4|]. split; [exact R1|]. split; [exact R4|]. split; [exact V4|].
  intros j Hj. rewrite spring_disp_node by lia. destruct j as [|[|]]; [exact V1|exact V1|lia].
Qed.
Print Assumptions C117_analysis_refuted.

(** the hypotheses of the translation theorem: the pile of the examples, moved sideways by 0.055 *)
Definition moved : vec := of_list [0; 55#1000; 0; 0; 55#1000; 0; 0; 55#1000; 0].
Example C117_example : sound_pile soil0 z0 /\ (exists py, w_py soil0 = Some py /\ forall e j, lateral_curve (py e j)) /\ (exists K, build soil0 moved Secant = Ok K) /\
  (forall a, (a <= w_n soil0)%nat -> moved (3 * a + 1)%nat == 55#1000 /\ moved (3 * a + 2)%nat == 0) /\ lateral_curve py0 /\ 0 < ultimate py0.
Proof.
  split; [exact (sound_model_pile _ _ soil0_sound)|]. split; [eexists; split; [reflexivity|]; intros e j; exact py0_ok|]. split.
  { assert (B : match build soil0 moved Secant with Ok _ => True | Err _ => False end) by (vm_compute; exact Logic.I).
    destruct (build soil0 moved Secant) as [K|]; [exists K; reflexivity|contradiction]. }
  split; [|split; [exact py0_ok|reflexivity]].
  intros a Ha. cbn in Ha. destruct a as [|[|[|]]]; [| | |lia]; split; reflexivity.
Qed.
