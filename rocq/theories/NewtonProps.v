(** Property C132: how the passes of the analysis approach the state of rest of a pile on one base spring. *)
From Coq Require Import List Bool Arith ZArith QArith Qabs Qminmax Lia Lqa Setoid.
From Verif Require Import Base LinAlg PileModel BeamModel BeamSpec BeamProofs SolveModel SolveSpec SolveProofs ForceProofs SpringModel SpringSpec SpringProofs SoilProofs SpringProper SpringWitness WinklerModel WinklerSpec WinklerProofs BalanceSpec BalanceProofs BareModel BareSpec BareProofs EquilSpec EquilProofs NewtonSpec NewtonProofs.
Import ListNotations.
Local Open Scope Q_scope.

(** C132: under any loads there is one and only one state of rest. *)
Theorem C132_rest_exists : forall M z F U0 r c t, sound_pile M z -> base_only M -> one_spring (w_n M) (w_qz M) (w_hb M) (w_mb M) t c -> lateral_curve c ->
  held (w_n M) r -> r t = false ->
  exists V, at_rest (w_n M) (jit_build (w_n M) (w_mech M)) (w_qz M) (w_hb M) (w_mb M) F U0 r V /\
    forall V', at_rest (w_n M) (jit_build (w_n M) (w_mech M)) (w_qz M) (w_hb M) (w_mb M) F U0 r V' -> veq (size M) V V'.
Proof.
  intros M z F U0 r c t SP BO OS LC HL Hf. destruct (rest_exists M z r t c SP OS LC HL Hf F U0) as [V RV]. exists V. split; [exact RV|].
  intros V' RV'. destruct (pile_base_curves M t c OS LC) as (GQ & GH & GM). exact (rest_unique _ _ z _ _ _ F U0 r (deforms M z SP) (downwards M z SP) GQ GH GM V V' HL RV RV').
Qed.
Print Assumptions C132_rest_exists.

Lemma way_of : forall s x y, s * s == 1 -> 0 <= s * x -> s * x <= s * y -> on_the_way x y.
Proof.
  intros s x y S A B. assert (C : s == 1 \/ s == -1).
  { assert (Z : (s - 1) * (s + 1) == 0) by (setoid_replace ((s - 1) * (s + 1)) with (s * s - 1) by ring; rewrite S; ring). apply Qmult_integral in Z. destruct Z; [left|right]; lra. }
  unfold on_the_way. destruct C as [C|C]; rewrite C in A, B; [left|right]; lra.
Qed.

Section Analysis.
Variables (solve : solver) (M : wmodel) (z : nat -> Q) (F U0 : vec) (r : nat -> bool) (c : list (Q * Q)) (t : nat) (V W : vec).
Hypothesis SO : solver_ok solve.
Hypothesis SP : sound_pile M z.
Hypothesis BO : base_only M.
Hypothesis OS : one_spring (w_n M) (w_qz M) (w_hb M) (w_mb M) t c.
Hypothesis LC : lateral_curve c.
Hypothesis CC : concave c.
Let s := supports_of r U0.
Let K := jit_build (w_n M) (w_mech M).
Hypothesis HL : held (w_n M) s.
Hypothesis Hf : s t = false.
Hypothesis RV : at_rest (w_n M) K (w_qz M) (w_hb M) (w_mb M) F U0 s V.
Hypothesis HW : unit_response (size M) K s t W.
Let rho := W t * steepest c / (1 + W t * steepest c).
Let sg := direction (V t).

Lemma analysis : forall max_iter, exists o, winkler_model solve M F U0 r max_iter = Ok o /\
  chain (size M) U0 s t (steepest c) W sg (Qabs (V t)) (o_hist o) /\ (1 <= length (o_hist o))%nat /\
  (forall v, o_d o = Some v -> exists rest, o_hist o = v :: rest) /\
  (forall m, (2 <= m)%nat -> (m <= 100)%nat -> (m <= S max_iter)%nat -> close_enough (size M) F s t (steepest c) W (Qabs (V t)) m ->
     exists v R rest, o_d o = Some v /\ o_Q o = Some R /\ o_hist o = v :: rest /\ (2 <= o_iter o <= m)%nat /\ o_iter o = length (o_hist o)).
Proof using SO SP BO OS LC CC HL Hf RV HW.
  intros mi. destruct (response_exists M z s SP HL F U0) as [D HD]. destruct (curve_softening c LC CC) as [SF BS].
  pose proof (rest_equation M z s t c SP OS LC HL F U0 V W D RV HW HD) as YR. unfold winkler_model.
  exact (winkler_newton solve (size M) (build M) F U0 s K t (stiffness_of c) (fun x => interp x c) (steepest c) W D SO (pile_dof M t c OS) Hf (pile_psd M z SP) (pile_definite M z s SP HL)
    (one_spring_build M t c BO OS BS) SF HW HD sg (Qabs (V t)) (direction_square (V t)) (Qabs_nonneg (V t)) YR mi).
Qed.

Lemma chain_way : forall hist, chain (size M) U0 s t (steepest c) W sg (Qabs (V t)) hist -> forall j d, nth_error (rev hist) j = Some d ->
  prescribed (size M) U0 s d /\ on_the_way (d t) (V t) /\ Qabs (V t - d t) <= power rho (S j) * Qabs (V t) /\
  (forall d', nth_error (rev hist) (S j) = Some d' -> on_the_way (d t) (d' t)).
Proof using.
  clear. intros hist CH j d E. destruct (chain_nth _ _ _ _ _ _ _ _ _ CH j d E) as (A & B1 & B2 & B3 & B4). fold rho in B3. pose proof (direction_square (V t)) as SQ. fold sg in SQ. pose proof (direction_size (V t)) as SZ. fold sg in SZ.
  split; [exact A|]. split; [apply (way_of sg); [exact SQ|exact B1|rewrite SZ; exact B2]|]. split.
  - assert (SV : sg * (V t - d t) == Qabs (V t) - sg * d t) by (rewrite <- SZ; ring).
    rewrite (size_of sg SQ (V t - d t)) by (rewrite SV; lra). rewrite SV. exact B3.
  - intros d' E'. apply (way_of sg); [exact SQ|exact B1|exact (B4 d' E')].
Qed.
End Analysis.

(** C132: with a spring whose curve never gets steeper, every pass ends between the start and the state of rest [V]
    and no further from it than the pass before; what is missing shrinks in every pass at least by the factor
    [w k / (1 + w k)], where [w] is what a load of 1 moves the tip of the pile alone and [k] the stiffness of the spring
    at the start.  The passes never go back and never go past the state of rest, and the displacements reported are
    those of the last pass. *)
Theorem C132_approach_partial : forall solve M z F U0 r c t V W max_iter, solver_ok solve -> sound_pile M z -> base_only M ->
  one_spring (w_n M) (w_qz M) (w_hb M) (w_mb M) t c -> lateral_curve c -> concave c ->
  held (w_n M) (supports_of r U0) -> supports_of r U0 t = false ->
  at_rest (w_n M) (jit_build (w_n M) (w_mech M)) (w_qz M) (w_hb M) (w_mb M) F U0 (supports_of r U0) V ->
  unit_response (size M) (jit_build (w_n M) (w_mech M)) (supports_of r U0) t W ->
  let rho := W t * steepest c / (1 + W t * steepest c) in
  0 <= rho /\ rho < 1 /\
  exists o, winkler_model solve M F U0 r max_iter = Ok o /\ (1 <= length (o_hist o))%nat /\
    (forall j d, nth_error (rev (o_hist o)) j = Some d ->
       prescribed (size M) U0 (supports_of r U0) d /\ on_the_way (d t) (V t) /\ Qabs (V t - d t) <= power rho (S j) * Qabs (V t) /\
       (forall d', nth_error (rev (o_hist o)) (S j) = Some d' -> on_the_way (d t) (d' t))) /\
    (forall v, o_d o = Some v -> exists rest, o_hist o = v :: rest).
Proof.
  intros solve M z F U0 r c t V W mi SO SP BO OS LC CC HL Hf RV HW rho.
  pose proof (w_pos _ _ _ _ _ (pile_dof M t c OS) Hf (pile_psd M z SP) (pile_definite M z _ SP HL) HW) as WP.
  assert (A : 0 <= W t * steepest c) by (apply mul_nonneg; [lra|apply (k0_nonneg c LC CC)]).
  split. { unfold rho, Qdiv. apply mul_nonneg; [exact A|]. apply Qlt_le_weak, Qinv_lt_0_compat. lra. }
  split. { unfold rho. apply Qlt_shift_div_r; lra. }
  destruct (analysis solve M z F U0 r c t V W SO SP BO OS LC CC HL Hf RV HW mi) as (o & E & CH & LN & HO & _).
  exists o. split; [exact E|]. split; [exact LN|]. split; [|exact HO]. exact (chain_way M U0 r c t V W (o_hist o) CH).
Qed.
Print Assumptions C132_approach_partial.

Lemma rest_no_further : forall M z F U0 r c t V W D, sound_pile M z -> one_spring (w_n M) (w_qz M) (w_hb M) (w_mb M) t c -> lateral_curve c ->
  held (w_n M) r -> r t = false -> at_rest (w_n M) (jit_build (w_n M) (w_mech M)) (w_qz M) (w_hb M) (w_mb M) F U0 r V ->
  unit_response (size M) (jit_build (w_n M) (w_mech M)) r t W -> without_springs (size M) (jit_build (w_n M) (w_mech M)) F U0 r D -> Qabs (V t) <= Qabs (D t).
Proof.
  intros M z F U0 r c t V W D SP OS LC HL Hf RV HW HD. pose proof (rest_equation M z r t c SP OS LC HL F U0 V W D RV HW HD) as YR.
  pose proof (w_pos _ _ _ _ _ (pile_dof M t c OS) Hf (pile_psd M z SP) (pile_definite M z _ SP HL) HW) as WP.
  assert (P : 0 <= W t * interp (Qabs (V t)) c) by (apply mul_nonneg; [lra|apply (p_nonneg c LC), Qabs_nonneg]).
  assert (B : direction (V t) * D t <= Qabs (D t)) by (unfold direction; destruct (Qltb (V t) 0); [rewrite <- Qabs_opp; setoid_replace (-1 * D t) with (- D t) by ring|setoid_replace (1 * D t) with (D t) by ring]; apply Qle_Qabs).
  lra.
Qed.

(** C132: the analysis converges, within [m] passes, when what the factor leaves of the movement of the pile alone
    after [m] passes, as a force at the tip, is below the tolerance. *)
Theorem C132_converges_partial : forall solve M z F U0 r c t W D max_iter m, solver_ok solve -> sound_pile M z -> base_only M ->
  one_spring (w_n M) (w_qz M) (w_hb M) (w_mb M) t c -> lateral_curve c -> concave c ->
  held (w_n M) (supports_of r U0) -> supports_of r U0 t = false ->
  unit_response (size M) (jit_build (w_n M) (w_mech M)) (supports_of r U0) t W ->
  without_springs (size M) (jit_build (w_n M) (w_mech M)) F U0 (supports_of r U0) D ->
  (2 <= m)%nat -> (m <= 100)%nat -> (m <= S max_iter)%nat ->
  (let wk := W t * steepest c in let left := power (wk / (1 + wk)) m * Qabs (D t) * (1 + wk) / W t in
   left * left < (1#100000000) * free_load2 (size M) F (supports_of r U0)) ->
  exists o v R, winkler_model solve M F U0 r max_iter = Ok o /\ o_d o = Some v /\ o_Q o = Some R /\ (2 <= o_iter o <= m)%nat.
Proof.
  intros solve M z F U0 r c t W D mi m SO SP BO OS LC CC HL Hf HW HD M2 M3 M4 CE.
  destruct (rest_exists M z _ t c SP OS LC HL Hf F U0) as [V RV]. pose proof (rest_no_further M z F U0 _ c t V W D SP OS LC HL Hf RV HW HD) as VD.
  pose proof (w_pos _ _ _ _ _ (pile_dof M t c OS) Hf (pile_psd M z SP) (pile_definite M z _ SP HL) HW) as WP.
  assert (A : 0 <= W t * steepest c) by (apply mul_nonneg; [lra|apply (k0_nonneg c LC CC)]).
  cbv zeta in CE. set (wk := W t * steepest c) in *. set (q := power (wk / (1 + wk)) m) in *.
  assert (Q0 : 0 <= q) by (apply power_nonneg; unfold Qdiv; apply mul_nonneg; [exact A|apply Qlt_le_weak, Qinv_lt_0_compat; lra]).
  assert (CL : close_enough (size M) F (supports_of r U0) t (steepest c) W (Qabs (V t)) m).
  { unfold close_enough. fold wk. fold q. set (G := free_load2 (size M) F (supports_of r U0)) in *.
    assert (B0 : 0 <= q * Qabs (V t) * (1 + wk)) by (apply mul_nonneg; [apply mul_nonneg; [exact Q0|apply Qabs_nonneg]|lra]).
    assert (B1 : q * Qabs (V t) * (1 + wk) <= q * Qabs (D t) * (1 + wk)) by (apply le_mul; [lra|rewrite !(Qmult_comm q); apply le_mul; auto]).
    pose proof (square_mono _ _ B0 B1) as SQ. eapply Qle_lt_trans; [exact SQ|]. set (e := q * Qabs (D t) * (1 + wk)) in *.
    setoid_replace (e * e) with (e / W t * (e / W t) * (W t * W t)) by (field; lra). setoid_replace ((1#100000000) * (W t * W t) * G) with ((1#100000000) * G * (W t * W t)) by ring.
    apply Qmult_lt_compat_r; [apply mul_pos; exact WP|exact CE]. }
  destruct (analysis solve M z F U0 r c t V W SO SP BO OS LC CC HL Hf RV HW mi) as (o & E & _ & _ & _ & CV).
  destruct (CV m M2 M3 M4 CL) as (v & R & rest & E1 & E2 & _ & E3 & _). exists o, v, R. auto.
Qed.
Print Assumptions C132_converges_partial.

Lemma power_mono : forall a b k, 0 <= a -> a <= b -> power a k <= power b k.
Proof.
  intros a b k A B. induction k as [|k IH]; cbn [power]; [lra|]. pose proof (power_nonneg a k A). apply Qle_trans with (b * power a k); [apply le_mul; lra|].
  rewrite !(Qmult_comm b). apply le_mul; lra.
Qed.

(** C132: a pile loaded at its tip alone, with a spring at most 8 times as stiff as the pile, converges with the
    default number of passes, whatever the load, the pile and the curve. *)
Theorem C132_tip_load_partial : forall solve M z r c t f W max_iter, solver_ok solve -> sound_pile M z -> base_only M ->
  one_spring (w_n M) (w_qz M) (w_hb M) (w_mb M) t c -> lateral_curve c -> concave c ->
  held (w_n M) (supports_of r zero) -> supports_of r zero t = false ->
  unit_response (size M) (jit_build (w_n M) (w_mech M)) (supports_of r zero) t W ->
  W t * steepest c <= 8 -> ~ f == 0 -> (99 <= max_iter)%nat ->
  exists o v R, winkler_model solve M (fun i => if Nat.eqb i t then f else 0) zero r max_iter = Ok o /\ o_d o = Some v /\ o_Q o = Some R /\ (2 <= o_iter o <= 100)%nat.
Proof.
  intros solve M z r c t f W mi SO SP BO OS LC CC HL Hf HW K8 NZ HM.
  pose proof (w_pos _ _ _ _ _ (pile_dof M t c OS) Hf (pile_psd M z SP) (pile_definite M z _ SP HL) HW) as WP.
  assert (A : 0 <= W t * steepest c) by (apply mul_nonneg; [lra|apply (k0_nonneg c LC CC)]).
  apply (C132_converges_partial solve M z _ zero r c t W (fun i => f * W i) mi 100 SO SP BO OS LC CC HL Hf HW); try lia.
  - destruct HW as [W1 W2]. split.
    + intros i Hi Ri. rewrite (W1 i Hi Ri). unfold zero. ring.
    + intros i Hi Ri. rewrite mulv_scale, (W2 i Hi Ri). destruct (Nat.eqb i t); ring.
  - cbv zeta. set (wk := W t * steepest c) in *.
    assert (FL : free_load2 (size M) (fun i => if Nat.eqb i t then f else 0) (supports_of r zero) == f * f).
    { unfold free_load2. transitivity (sum (size M) (fun i => if Nat.eqb i t then f * f else 0)); [|exact (sum_delta (size M) t (fun _ => f * f) (pile_dof M t c OS))].
      apply sum_ext. intros i Hi. destruct (Nat.eqb_spec i t) as [->|]; [rewrite Hf; reflexivity|]. destruct (supports_of r zero i); ring. }
    rewrite FL, Qabs_Qmult, (Qabs_pos (W t)) by lra.
    assert (RB : wk / (1 + wk) <= 8#9).
    { apply Qle_shift_div_r; lra. }
    assert (R0 : 0 <= wk / (1 + wk)) by (unfold Qdiv; apply mul_nonneg; [exact A|apply Qlt_le_weak, Qinv_lt_0_compat; lra]).
    pose proof (power_mono _ _ 100 R0 RB) as PM. pose proof (power_nonneg _ 100 R0) as P0. set (q := power (wk / (1 + wk)) 100) in *.
    assert (NB : power (8#9) 100 * 9 < 1#10000) by (vm_compute; reflexivity).
    assert (QB : q * (1 + wk) < 1#10000). { eapply Qle_lt_trans; [|exact NB]. apply Qle_trans with (power (8#9) 100 * (1 + wk)); [apply le_mul; lra|]. rewrite !(Qmult_comm (power (8#9) 100)). apply le_mul; lra. }
    assert (Q0 : 0 <= q * (1 + wk)) by (apply mul_nonneg; lra).
    assert (F2 : 0 < f * f). { assert (Z : 0 < Qabs f) by (destruct (Qlt_le_dec 0 (Qabs f)) as [|L]; [auto|exfalso; apply NZ; pose proof (Qabs_nonneg f); assert (E : Qabs f == 0) by lra; revert E; destruct f as [[|p|p] d]; unfold Qeq; cbn; lia]).
      setoid_replace (f * f) with (Qabs f * Qabs f) by (apply (Qabs_case f); intros; ring). apply mul_pos; auto. }
    setoid_replace (q * (Qabs f * W t) * (1 + wk) / W t * (q * (Qabs f * W t) * (1 + wk) / W t)) with ((q * (1 + wk)) * (q * (1 + wk)) * (Qabs f * Qabs f)) by (field; lra).
    setoid_replace (Qabs f * Qabs f) with (f * f) by (apply (Qabs_case f); intros; ring).
    apply Qmult_lt_compat_r; [exact F2|]. apply Qle_lt_trans with ((1#10000) * (q * (1 + wk))); [apply le_mul; lra|lra].
Qed.
Print Assumptions C132_tip_load_partial.

(** elastic up to 1/20000, then constant *)
Definition early (p : Q) : list (Q * Q) := [(0, 0); (1#20000, p); (1, p)].
Definition on_base (M : wmodel) (c : list (Q * Q)) : wmodel := {| w_n := w_n M; w_mech := w_mech M; w_L := w_L M;
  w_py := None; w_tz := None; w_mt := None; w_mtc := w_mtc M; w_hb := Some c; w_mb := None; w_qz := None |}.

Section Early.
Variable p : Q.
Hypothesis P0 : 0 < p.
Lemma early_curve : lateral_curve (early p) /\ concave (early p).
Proof using P0. split; [|split; [|exact Logic.I]; cbn; lra]. split; [cbn; lia|]. split; [cbn; repeat split; lra|]. split; [cbn; repeat split; lra|]. split; reflexivity. Qed.
Lemma early_at : forall x, 1#20000 <= x -> interp x (early p) == p.
Proof using. clear. intros x H. unfold early. rewrite interp_cons, (proj2 (Qltb_false x (1#20000))) by lra. rewrite interp_cons. destruct (Qltb x 1) eqn:E; [|reflexivity]. rewrite (proj2 (Qltb_false x (1#20000))) by lra. field. Qed.
Lemma early_sum : Qeq_bool (qsum (map snd (early p))) 0 = false.
Proof using P0. destruct (Qeq_bool _ 0) eqn:E; [|reflexivity]. apply Qeq_bool_iff in E. cbn in E. lra. Qed.
Lemma early_secant : forall u, 1#20000 <= u -> 0 <= stiffness_of (early p) u Secant /\ stiffness_of (early p) u Secant * u == p.
Proof using P0.
  intros u H. destruct early_curve as [LC CC]. destruct (secant_terms (early p) LC u) as (k & E & K0 & K). unfold stiffness_of. rewrite E. split; [exact K0|].
  pose proof (Qabs_pos u ltac:(lra)) as AU. transitivity (k * Qabs u); [apply Qmult_comp; [reflexivity|symmetry; exact AU]|].
  transitivity (interp (Qabs u) (early p)); [exact K|]. transitivity (interp u (early p)); [exact (p_comp (early p) _ _ AU)|exact (early_at u H)].
Qed.
Lemma early_tangent : forall u, 1#20000 <= u -> u <= 1#2000 -> 0 <= stiffness_of (early p) u Tangent /\ stiffness_of (early p) u Tangent * u == p.
Proof using P0.
  intros u H H'. destruct early_curve as [LC CC]. pose proof (Qabs_pos u ltac:(lra)) as AU. unfold stiffness_of, base_spring. rewrite early_sum. unfold lateral_terms. cbn [orb].
  destruct (Qeq_bool (Qabs u) 0) eqn:Z; [apply Qeq_bool_iff in Z; lra|]. set (dx := Qmin (1#2000) (Qabs u)). assert (DX : dx == u) by (unfold dx; rewrite AU; apply Q.min_r; exact H').
  unfold ratio. destruct (Qeq_bool dx 0) eqn:ZD; [apply Qeq_bool_iff in ZD; lra|].
  assert (R1 : resistance (early p) (Qabs u) == p).
  { transitivity (interp (Qabs u) (early p)); [exact (p_resistance (early p) LC _)|]. transitivity (interp u (early p)); [exact (p_comp (early p) _ _ AU)|exact (early_at u H)]. }
  assert (R2 : resistance (early p) (Qabs u - dx) == 0).
  { transitivity (interp (Qabs u - dx) (early p)); [exact (p_resistance (early p) LC _)|]. transitivity (interp 0 (early p)); [apply (p_comp (early p)); rewrite DX, AU; ring|exact (p_zero (early p) LC)]. }
  assert (E : (resistance (early p) (Qabs u) - resistance (early p) (Qabs u - dx)) / dx == p / u) by (rewrite R1, R2, DX; field; lra).
  assert (PU : 0 <= p / u) by (unfold Qdiv; apply mul_nonneg; [lra|apply Qlt_le_weak, Qinv_lt_0_compat; lra]).
  assert (E2 : Qabs ((resistance (early p) (Qabs u) - resistance (early p) (Qabs u - dx)) / dx) == p / u) by (rewrite E; apply Qabs_pos; exact PU).
  split; [apply Qabs_nonneg|]. transitivity (p / u * u); [apply Qmult_comp; [exact E2|reflexivity]|field; lra].
Qed.
End Early.

(** C132 does not hold without a bound on the stiffness of the spring: for every pile whose tip can move and whose supports
    react to a load of 1 there with less than 141, there are a spring and a load at the tip with exactly one state of rest that
    the analysis, however many passes it is allowed, gives up on. *)
Theorem C132_slow_refuted : forall solve M0 z r W, solver_ok solve -> sound_pile M0 z -> held (w_n M0) (supports_of r zero) ->
  let t := (3 * w_n M0 + 1)%nat in supports_of r zero t = false ->
  let K := jit_build (w_n M0) (w_mech M0) in unit_response (size M0) K (supports_of r zero) t W ->
  sum (size M0) (fun i => if supports_of r zero i then mulv (size M0) K W i * mulv (size M0) K W i else 0) <= 20000 ->
  exists c f, let M := on_base M0 c in let F := fun i => if Nat.eqb i t then f else 0 in
    sound_pile M z /\ base_only M /\ one_spring (w_n M) (w_qz M) (w_hb M) (w_mb M) t c /\ lateral_curve c /\ concave c /\
    (exists V, at_rest (w_n M) K (w_qz M) (w_hb M) (w_mb M) F zero (supports_of r zero) V /\ V t == 1#1000) /\
    forall max_iter, (99 <= max_iter)%nat -> exists o, winkler_model solve M F zero r max_iter = Ok o /\ o_d o = None /\ o_Q o = None /\ o_iter o = 100%nat.
Proof.
  intros solve M0 z r W SO SP0 HL t Hf K HW RE.
  assert (Ht : (t < size M0)%nat) by (unfold t, size; lia).
  pose proof (w_pos (size M0) _ K t W Ht Hf (pile_psd M0 z SP0) (pile_definite M0 z _ SP0 HL) HW) as WP.
  set (p := (1#20) / W t). assert (P0 : 0 < p) by (unfold p, Qdiv; apply mul_pos; [reflexivity|apply Qinv_lt_0_compat; exact WP]).
  assert (PW : p * W t == 1#20) by (unfold p; field; lra).
  destruct (early_curve p P0) as [LC CC]. exists (early p), ((51#1000) / W t). intros M F.
  assert (SP : sound_pile M z) by (destruct SP0 as [A B]; constructor; [exact A|exact B]).
  assert (BO : base_only M) by (repeat split).
  assert (OS : one_spring (w_n M) (w_qz M) (w_hb M) (w_mb M) t (early p)) by (split; [reflexivity|left; repeat split]).
  split; [exact SP|]. split; [exact BO|]. split; [exact OS|]. split; [exact LC|]. split; [exact CC|]. split.
  - destruct (rest_exists M z _ t (early p) SP OS LC HL Hf F zero) as [V RV]. exists V. split; [exact RV|].
    assert (HD : without_springs (size M) K F zero (supports_of r zero) (fun i => (51#1000) / W t * W i)).
    { destruct HW as [W1 W2]. split; [intros i Hi Ri; rewrite (W1 i Hi Ri); unfold zero; ring|]. intros i Hi Ri. rewrite mulv_scale. change (size M) with (size M0). rewrite (W2 i Hi Ri). unfold F. destruct (Nat.eqb i t); ring. }
    pose proof (rest_equation M z _ t (early p) SP OS LC HL F zero V W _ RV HW HD) as YR. cbv beta in YR.
    assert (X : (51#1000) / W t * W t == 51#1000) by (field; lra).
    pose proof (Qabs_nonneg (V t)) as N. pose proof (p_nonneg (early p) LC _ N) as PN. pose proof (mul_nonneg _ _ (Qlt_le_weak _ _ WP) PN) as WN.
    unfold direction in YR. destruct (Qltb (V t) 0) eqn:S; [exfalso; rewrite X in YR; lra|]. apply Qltb_false in S. rewrite X in YR.
    pose proof (Qabs_pos (V t) S) as AV. rewrite (p_comp (early p) _ _ AV), AV in YR.
    destruct (Qlt_le_dec (V t) (1#20000)) as [L|L]; [exfalso|].
    + assert (B : interp (V t) (early p) <= p) by (pose proof (early_at p (1#20000) ltac:(lra)) as EA; apply Qle_trans with (interp (1#20000) (early p)); [apply (p_mono (early p) LC); lra|lra]).
      assert (B2 : W t * interp (V t) (early p) <= W t * p) by (rewrite !(Qmult_comm (W t)); apply le_mul; lra). rewrite (Qmult_comm (W t) p), PW in B2. lra.
    + rewrite (early_at p _ L), (Qmult_comm (W t) p), PW in YR. lra.
  - intros mi HM. destruct (curve_softening (early p) LC CC) as [SF BS]. unfold winkler_model.
    apply (slow_winkler solve (size M) (build M) (supports_of r zero) K t (stiffness_of (early p)) W SO Ht Hf (pile_psd M0 z SP0) (pile_definite M0 z _ SP0 HL) (one_spring_build M t (early p) BO OS BS) HW); [| | |exact RE|exact HM].
    + intros u. rewrite (sf_init _ _ _ SF u). unfold steepest, early, point. cbn [nth fst snd]. unfold p. field. lra.
    + intros u A B. destruct (early_secant p P0 u A) as [S0 SE]. split; [exact S0|]. rewrite SE. exact PW.
    + intros u A B. destruct (early_tangent p P0 u A B) as [S0 SE]. split; [exact S0|]. rewrite SE. exact PW.
Qed.
Print Assumptions C132_slow_refuted.

(** A pile of one element clamped at its head, on a lateral spring 3.3 times as stiff: the hypotheses of all theorems above *)
Definition cantilever : wmodel := {| w_n := 1; w_mech := fun _ => mech0; w_L := fun _ => 1;
  w_py := None; w_tz := None; w_mt := None; w_mtc := fun _ => (0, 0, 0, 0); w_hb := Some py0; w_mb := None; w_qz := None |}.
Definition head (i : nat) : bool := (i <? 3)%nat.
Definition tip_moved : vec := of_list [0; 0; 0; 0; 1#3000; 1#2000].

Example C132_example : sound_pile cantilever z0 /\ base_only cantilever /\ one_spring (w_n cantilever) (w_qz cantilever) (w_hb cantilever) (w_mb cantilever) 4 py0 /\
  lateral_curve py0 /\ concave py0 /\ held (w_n cantilever) (supports_of head zero) /\ supports_of head zero 4 = false /\
  unit_response (size cantilever) (jit_build 1 (fun _ => mech0)) (supports_of head zero) 4 tip_moved /\ tip_moved 4%nat * steepest py0 <= 8 /\
  sum 6 (fun i => if supports_of head zero i then mulv 6 (jit_build 1 (fun _ => mech0)) tip_moved i * mulv 6 (jit_build 1 (fun _ => mech0)) tip_moved i else 0) <= 20000.
Proof.
  split. { constructor; [intros e He; cbn in He; split; [|reflexivity]; destruct e as [|]; [reflexivity|lia]|intros e He; exact mech0_deforms]. }
  split; [repeat split|]. split; [split; [reflexivity|left; repeat split]|]. split; [exact py0_ok|]. split; [split; [discriminate|exact Logic.I]|].
  split. { split; [exists 0%nat; split; [cbn; lia|reflexivity]|]. exists 0%nat. split; [cbn; lia|]. split; [reflexivity|]. left. exists 0%nat. split; [cbn; lia|reflexivity]. }
  split; [reflexivity|]. split.
  { split.
    - intros i Hi Ri. destruct i as [|[|[|[|[|[|]]]]]]; try reflexivity; cbn in Ri; discriminate.
    - intros i Hi Ri. change (size cantilever) with 6%nat in *. destruct i as [|[|[|[|[|[|]]]]]]; try (cbn in Ri; discriminate); try lia; vm_compute; reflexivity. }
  split; vm_compute; discriminate.
Qed.
