(** The Newton-Raphson iteration on a pile with one base spring. *)
From Coq Require Import List Bool Arith ZArith QArith Qabs Qminmax Lia Lqa Setoid.
From Verif Require Import Base LinAlg PileModel BeamModel BeamSpec BeamProofs SolveModel SolveSpec SolveProofs ForceProofs SpringModel SpringSpec SpringProofs SoilProofs SpringProper WinklerModel WinklerSpec WinklerProofs BalanceSpec BalanceProofs BareModel BareSpec BareProofs EquilSpec EquilProofs NewtonSpec.
Import ListNotations.
Local Open Scope Q_scope.

(** ** Concave curves *)
Definition first_slope_over (s : Q) (c : curve) : Prop :=
  match c with (x0, y0) :: (x1, y1) :: _ => s * (x1 - x0) <= y1 - y0 | _ => s == 0 end.

Lemma le_mul : forall a b k, 0 <= k -> a <= b -> a * k <= b * k.
Proof. intros. apply Qmult_le_compat_r; auto. Qed.

Lemma support_line : forall c x0 y0 t x, c = (x0, y0) :: t -> strict c -> hardening c -> concave c -> x0 <= x ->
  exists s, 0 <= s /\ first_slope_over s c /\ forall y, x0 <= y -> interp y c <= interp x c + s * (y - x).
Proof.
  induction c as [|[a b] c IH]; intros x0 y0 t x E ST HD CC X; [discriminate|]. injection E as -> -> ->.
  destruct t as [|[x1 y1] t].
  - exists 0. split; [lra|]. split; [reflexivity|]. intros y Y. cbn. lra.
  - cbn [strict] in ST. destruct ST as [S1 S2]. cbn [hardening] in HD. destruct HD as [H1 H2].
    assert (CC' : concave ((x1, y1) :: t)) by (destruct t as [|[x2 y2] t]; [exact Logic.I|exact (proj2 CC)]).
    set (k := (y1 - y0) / (x1 - x0)).
    assert (K : k * (x1 - x0) == y1 - y0) by (unfold k; field; lra).
    assert (K0 : 0 <= k). { unfold k, Qdiv. apply mul_nonneg; [lra|]. apply Qlt_le_weak, Qinv_lt_0_compat. lra. }
    assert (SL : forall s, 0 <= s -> first_slope_over s ((x1, y1) :: t) -> s <= k).
    { intros s s0 F. destruct t as [|[x2 y2] t]; cbn [first_slope_over] in F; [lra|]. cbn [concave] in CC. destruct CC as [CC _]. cbn [strict] in S2.
      assert (A : s * (x2 - x1) * (x1 - x0) <= k * (x1 - x0) * (x2 - x1)).
      { rewrite K. eapply Qle_trans; [|exact CC]. apply le_mul; [lra|exact F]. }
      destruct (Qlt_le_dec k s) as [L|]; [exfalso|auto].
      assert (P : 0 < (s - k) * ((x2 - x1) * (x1 - x0))) by (apply mul_pos; [lra|apply mul_pos; lra]).
      assert (E : s * (x2 - x1) * (x1 - x0) - k * (x1 - x0) * (x2 - x1) == (s - k) * ((x2 - x1) * (x1 - x0))) by ring. lra. }
    assert (Y1 : interp x1 ((x1, y1) :: t) == y1) by exact (interp_at_point ((x1, y1) :: t) 0 S2 ltac:(cbn; lia)).
    destruct (Qlt_le_dec x x1) as [L|L].
    + exists k. split; [exact K0|]. split; [cbn [first_slope_over]; lra|]. intros y Y.
      destruct (IH x1 y1 t x1 eq_refl S2 H2 CC' ltac:(lra)) as (s & s0 & F & B). pose proof (SL s s0 F) as SK.
      rewrite !interp_cons. rewrite (proj2 (Qltb_true x x1) L), (proj2 (Qltb_false x x0)) by lra.
      destruct (Qltb y x1) eqn:EY.
      * rewrite (proj2 (Qltb_false y x0)) by lra. fold k. lra.
      * apply Qltb_false in EY. specialize (B y ltac:(lra)). rewrite Y1 in B. fold k.
        assert (P : s * (y - x1) <= k * (y - x1)) by (apply le_mul; lra).
        assert (E : y0 + k * (x - x0) + k * (y - x) == y0 + k * (x1 - x0) + k * (y - x1)) by ring. rewrite E, K. lra.
    + destruct (IH x1 y1 t x eq_refl S2 H2 CC' L) as (s & s0 & F & B). pose proof (SL s s0 F) as SK.
      exists s. split; [exact s0|]. split; [cbn [first_slope_over]; rewrite <- K; apply le_mul; lra|]. intros y Y.
      rewrite !interp_cons. rewrite (proj2 (Qltb_false x x1)) by lra. destruct (Qltb y x1) eqn:EY.
      * apply Qltb_true in EY. rewrite (proj2 (Qltb_false y x0)) by lra. fold k. specialize (B x1 ltac:(lra)). rewrite Y1 in B.
        assert (P : s * (x1 - y) <= k * (x1 - y)) by (apply le_mul; lra).
        assert (E : y0 + k * (y - x0) == y0 + k * (x1 - x0) - k * (x1 - y)) by ring. rewrite E, K.
        assert (E2 : s * (y - x) == s * (x1 - x) - s * (x1 - y)) by ring. lra.
      * apply Qltb_false in EY. apply B. lra.
Qed.

(** What the passes need to know of a spring: resistance [p], stiffness at the origin [k0] and the stiffnesses it is given *)
Record softening (kap : Q -> kind -> Q) (p : Q -> Q) (k0 : Q) : Prop := {
  sf_k0 : 0 <= k0;
  sf_zero : p 0 == 0;
  sf_comp : forall x y, x == y -> p x == p y;
  sf_mono : forall x y, 0 <= x -> x <= y -> p x <= p y;
  sf_lip : forall x y, 0 <= x -> x <= y -> p y - p x <= k0 * (y - x);
  sf_init : forall u, kap u Initial == k0;
  sf_sec0 : forall u, 0 <= kap u Secant;
  sf_sec : forall u, kap u Secant * Qabs u == p (Qabs u);
  sf_tan0 : forall u, 0 <= kap u Tangent /\ kap u Tangent <= k0;
  sf_tan : forall u y, Qabs u <= y -> p y - p (Qabs u) <= kap u Tangent * (y - Qabs u) }.

Definition stiffness_of (c : curve) (u : Q) (k : kind) : Q := match base_spring u c k with Ok v => v | Err _ => 0 end.

Section Curve.
Variable c : curve.
Hypothesis LC : lateral_curve c.
Hypothesis CC : concave c.
Let p (x : Q) := interp x c.
Let k0 := steepest c.

Lemma curve_parts : exists x1 y1 t x0 y0, c = (x0, y0) :: (x1, y1) :: t /\ x0 == 0 /\ y0 == 0 /\ 0 < x1 /\ 0 <= y1.
Proof.
  clear CC p k0. destruct LC as (L & ST & HD & O1 & O2). destruct c as [|[x0 y0] [|[x1 y1] t]]; try (cbn in L; lia). exists x1, y1, t, x0, y0.
  cbn in O1, O2. cbn [strict] in ST. cbn [hardening] in HD. split; [reflexivity|]. repeat split; auto; lra.
Qed.

Lemma line : forall x, 0 <= x -> exists s, 0 <= s /\ s <= k0 /\ forall y, 0 <= y -> p y <= p x + s * (y - x).
Proof.
  intros x X. destruct curve_parts as (x1 & y1 & t & x0 & y0 & E & X0 & Y0 & X1 & Y1). destruct LC as (L & ST & HD & O1 & O2).
  destruct (support_line c x0 y0 _ x E ST HD CC ltac:(lra)) as (s & s0 & F & B). exists s. split; [exact s0|]. split.
  - unfold k0, steepest, point. rewrite E in F |- *. cbn [first_slope_over] in F. cbn [nth fst snd]. rewrite X0, Y0 in F.
    assert (A : s * x1 <= y1) by lra. apply Qle_shift_div_l; auto.
  - intros y Y. apply B. lra.
Qed.

Lemma p_comp : forall x y, x == y -> p x == p y.
Proof. clear LC CC k0. intros x y E. unfold p. apply interp_comp; [exact E|apply qp_list_refl]. Qed.

Lemma p_zero : p 0 == 0.
Proof.
  clear CC k0. destruct LC as (L & ST & HD & O1 & O2). rewrite <- (p_comp (fst (point c 0)) 0 O1). unfold p. rewrite (interp_at_point c 0 ST) by lia. exact O2.
Qed.

Lemma p_mono : forall x y, x <= y -> p x <= p y.
Proof. clear CC k0. intros x y H. destruct LC as (L & ST & HD & OR). apply interp_mono; auto using strict_ordered, lateral_nonempty. Qed.

Lemma on_p : forall x q, on_curve c x q -> q == p x.
Proof.
  clear CC k0. intros x q H. destruct LC as (L & ST & HD & OR). pose proof (lateral_nonempty c L) as NE. pose proof (strict_ordered c ST) as SO.
  apply (on_curve_unique c x _ _ ST NE); [exact H|apply interp_on_curve; auto].
Qed.

Lemma p_resistance : forall x, resistance c x == p x.
Proof.
  clear CC k0. intros x. apply on_p. destruct LC as (L & ST & HD & OR). apply resistance_on_curve; [apply lateral_nonempty; exact L|apply strict_ordered; exact ST].
Qed.

Lemma k0_nonneg : 0 <= k0.
Proof. destruct (line 0 ltac:(lra)) as (s & A & B & _). lra. Qed.

Lemma p_lip : forall x y, 0 <= x -> x <= y -> p y - p x <= k0 * (y - x).
Proof.
  intros x y X Y. destruct (line x X) as (s & s0 & SK & B). specialize (B y ltac:(lra)).
  assert (P : s * (y - x) <= k0 * (y - x)) by (apply le_mul; lra). lra.
Qed.

Lemma p_nonneg : forall x, 0 <= x -> 0 <= p x.
Proof. intros x X. rewrite <- p_zero. apply p_mono. exact X. Qed.

(** a curve whose resistances add up to zero resists nothing *)
Lemma no_resistance : Qeq_bool (qsum (map snd c)) 0 = true -> k0 == 0 /\ forall x, 0 <= x -> p x == 0.
Proof.
  intros Z. assert (P : forall x, 0 <= x -> p x == 0).
  { intros x X. destruct LC as (L & ST & HD & OR). destruct (base_secant x c L ST HD OR) as (k & q & E & OC & KP & _). unfold base_spring in E. rewrite Z in E. apply ok_inj in E. subst k.
    assert (A : q == p (Qabs x)) by (apply on_p; exact OC).
    rewrite <- (p_comp (Qabs x) x) by (apply Qabs_pos; exact X). rewrite <- A, <- KP. ring. }
  split; [|exact P]. destruct curve_parts as (x1 & y1 & t & x0 & y0 & E & X0 & Y0 & X1 & Y1). destruct LC as (L & ST & HD & OR).
  pose proof (interp_at_point c 1 ST ltac:(lia)) as A. specialize (P (fst (point c 1))). unfold p in P. rewrite A in P.
  unfold k0, steepest. rewrite P; [field|]; rewrite E; cbn; lra.
Qed.

Lemma slope_initial : ratio (fst (pt c 1) - fst (pt c 0), snd (pt c 0), snd (pt c 1)) = Ok (Qabs ((snd (pt c 1) - snd (pt c 0)) / (fst (pt c 1) - fst (pt c 0)))) /\
  Qabs ((snd (pt c 1) - snd (pt c 0)) / (fst (pt c 1) - fst (pt c 0))) == k0.
Proof.
  destruct curve_parts as (x1 & y1 & t & x0 & y0 & E & X0 & Y0 & X1 & Y1). unfold pt, ratio, k0, steepest, point. rewrite E. cbn [nth fst snd]. split.
  - destruct (Qeq_bool (x1 - x0) 0) eqn:B; [apply Qeq_bool_iff in B; lra|reflexivity].
  - rewrite X0, Y0. setoid_replace ((y1 - 0) / (x1 - 0)) with (y1 / x1) by (field; lra). apply Qabs_pos. unfold Qdiv. apply mul_nonneg; [lra|]. apply Qlt_le_weak, Qinv_lt_0_compat. exact X1.
Qed.

Lemma tangent_terms : forall u, exists k, base_spring u c Tangent = Ok k /\ 0 <= k /\ k <= k0 /\ forall y, Qabs u <= y -> p y - p (Qabs u) <= k * (y - Qabs u).
Proof.
  intros u. unfold base_spring. destruct (Qeq_bool (qsum (map snd c)) 0) eqn:Z.
  { destruct (no_resistance Z) as [A B]. exists 0. split; [reflexivity|]. split; [lra|]. split; [rewrite A; lra|]. intros y Y. pose proof (Qabs_nonneg u). rewrite !B by lra. lra. }
  pose proof (Qabs_nonneg u) as D0. set (d := Qabs u) in *. unfold lateral_terms. destruct (Qeq_bool d 0) eqn:DZ; cbn [orb].
  - apply Qeq_bool_iff in DZ. destruct slope_initial as [A B]. rewrite A. eexists. split; [reflexivity|]. rewrite B. split; [apply k0_nonneg|]. split; [lra|].
    intros y Y. rewrite B. apply p_lip; lra.
  - apply Qeq_bool_neq in DZ. assert (DP : 0 < d) by lra. set (dx := Qmin (1#2000) d).
    assert (DX : 0 < dx) by (unfold dx; apply Q.min_glb_lt; lra). assert (DD : dx <= d) by apply Q.le_min_r.
    unfold ratio. destruct (Qeq_bool dx 0) eqn:B; [apply Qeq_bool_iff in B; lra|].
    eexists. split; [reflexivity|]. set (k := (resistance c d - resistance c (d - dx)) / dx).
    assert (KE : k * dx == p d - p (d - dx)) by (unfold k; rewrite !p_resistance; field; lra).
    assert (K0 : 0 <= k). { unfold k. rewrite !p_resistance. unfold Qdiv. apply mul_nonneg; [pose proof (p_mono (d - dx) d ltac:(lra)); lra|]. apply Qlt_le_weak, Qinv_lt_0_compat. exact DX. }
    rewrite (Qabs_pos k K0). split; [exact K0|]. split.
    + pose proof (p_lip (d - dx) d ltac:(lra) ltac:(lra)) as H. destruct (Qlt_le_dec k0 k) as [L|]; [exfalso|auto].
      assert (P : 0 < (k - k0) * dx) by (apply mul_pos; lra). assert (E : k0 * (d - (d - dx)) == k0 * dx) by ring. assert (E' : (k - k0) * dx == k * dx - k0 * dx) by ring. lra.
    + intros y Y. destruct (line d ltac:(lra)) as (s & s0 & SK & L). pose proof (L (d - dx) ltac:(lra)) as A. specialize (L y ltac:(lra)).
      assert (S : s <= k).
      { destruct (Qlt_le_dec k s) as [G|]; [exfalso|auto]. assert (P : 0 < (s - k) * dx) by (apply mul_pos; lra).
        assert (E : s * (d - dx - d) == - (s * dx)) by ring. assert (E' : (s - k) * dx == s * dx - k * dx) by ring. lra. }
      assert (YD : 0 <= y - d) by lra. pose proof (le_mul s k (y - d) YD S) as P. rewrite (Qabs_pos k K0). lra.
Qed.

Lemma initial_terms : forall u, exists k, base_spring u c Initial = Ok k /\ k == k0.
Proof.
  intros u. unfold base_spring. destruct (Qeq_bool (qsum (map snd c)) 0) eqn:Z.
  - exists 0. split; [reflexivity|]. symmetry. exact (proj1 (no_resistance Z)).
  - unfold lateral_terms. cbn [orb]. destruct slope_initial as [A B]. rewrite A. eexists. split; [reflexivity|exact B].
Qed.

Lemma secant_terms : forall u, exists k, base_spring u c Secant = Ok k /\ 0 <= k /\ k * Qabs u == p (Qabs u).
Proof.
  intros u. destruct LC as (L & ST & HD & OR). destruct (base_secant u c L ST HD OR) as (k & q & E & OC & KP & K0 & _). exists k. split; [exact E|]. split; [exact K0|].
  rewrite KP. apply on_p. exact OC.
Qed.

Lemma curve_softening : softening (stiffness_of c) p k0 /\ forall u k, base_spring u c k = Ok (stiffness_of c u k).
Proof.
  split.
  - constructor.
    + apply k0_nonneg.
    + apply p_zero.
    + apply p_comp.
    + intros x y _ H. apply p_mono. exact H.
    + exact p_lip.
    + intros u. destruct (initial_terms u) as (k & E & K). unfold stiffness_of. rewrite E. exact K.
    + intros u. destruct (secant_terms u) as (k & E & K & _). unfold stiffness_of. rewrite E. exact K.
    + intros u. destruct (secant_terms u) as (k & E & _ & K). unfold stiffness_of. rewrite E. exact K.
    + intros u. destruct (tangent_terms u) as (k & E & K & K' & _). unfold stiffness_of. rewrite E. auto.
    + intros u. destruct (tangent_terms u) as (k & E & _ & _ & K). unfold stiffness_of. rewrite E. exact K.
  - intros u k. unfold stiffness_of. destruct k; [destruct (initial_terms u) as (v & E & _)|destruct (secant_terms u) as (v & E & _)|destruct (tangent_terms u) as (v & E & _)]; rewrite E; reflexivity.
Qed.
End Curve.

(** ** A state of rest exists *)
Lemma reach : forall c x0 y0 t w Y, c = (x0, y0) :: t -> strict c -> hardening c -> 0 <= w -> x0 + w * y0 <= Y ->
  exists x, x0 <= x /\ x + w * interp x c == Y.
Proof.
  induction c as [|[a b] c IH]; intros x0 y0 t w Y E ST HD W H; [discriminate|]. injection E as -> -> ->. destruct t as [|[x1 y1] t].
  - exists (Y - w * y0). cbn. split; lra.
  - cbn [strict] in ST. destruct ST as [S1 S2]. cbn [hardening] in HD. destruct HD as [H1 H2].
    destruct (Qlt_le_dec Y (x1 + w * y1)) as [L|L].
    + set (k := (y1 - y0) / (x1 - x0)). assert (K0 : 0 <= k). { unfold k, Qdiv. apply mul_nonneg; [lra|]. apply Qlt_le_weak, Qinv_lt_0_compat. lra. }
      assert (K : k * (x1 - x0) == y1 - y0) by (unfold k; field; lra). pose proof (mul_nonneg w k W K0) as WK.
      set (h := (Y - x0 - w * y0) / (1 + w * k)). assert (HE : h * (1 + w * k) == Y - x0 - w * y0) by (unfold h; field; lra).
      assert (H0 : 0 <= h). { unfold h, Qdiv. apply mul_nonneg; [lra|]. apply Qlt_le_weak, Qinv_lt_0_compat. lra. }
      assert (HL : h < x1 - x0).
      { destruct (Qlt_le_dec h (x1 - x0)) as [|G]; [auto|exfalso]. assert (P : 0 <= (h - (x1 - x0)) * (1 + w * k)) by (apply mul_nonneg; lra).
        assert (E : (h - (x1 - x0)) * (1 + w * k) == h * (1 + w * k) - (x1 - x0) - w * (k * (x1 - x0))) by ring. rewrite HE, K in E. assert (E2 : w * (y1 - y0) == w * y1 - w * y0) by ring. lra. }
      exists (x0 + h). split; [lra|]. rewrite interp_cons, (proj2 (Qltb_true (x0 + h) x1)), (proj2 (Qltb_false (x0 + h) x0)) by lra. fold k.
      setoid_replace (x0 + h + w * (y0 + k * (x0 + h - x0))) with (x0 + w * y0 + h * (1 + w * k)) by ring. rewrite HE. ring.
    + destruct (IH x1 y1 t w Y eq_refl S2 H2 W L) as (x & A & B). exists x. split; [lra|]. rewrite interp_cons, (proj2 (Qltb_false x x1)) by lra. exact B.
Qed.

(** ** One spring on one degree of freedom *)
Definition delta (t i : nat) (x : Q) : Q := if Nat.eqb i t then x else 0.

Lemma power_nonneg : forall q k, 0 <= q -> 0 <= power q k.
Proof. intros q k H. induction k as [|k IH]; cbn [power]; [lra|apply mul_nonneg; auto]. Qed.

Section One.
Variables (solve : solver) (n : nat) (build : vec -> kind -> res mat) (F U0 : vec) (supports : nat -> bool).
Variables (Kb : mat) (t : nat) (kap : Q -> kind -> Q) (p : Q -> Q) (k0 : Q) (W D : vec).
Hypothesis SO : solver_ok solve.
Hypothesis Ht : (t < n)%nat.
Hypothesis Hf : supports t = false.
Hypothesis PS : psd n Kb.
Hypothesis PD : forall v, (forall i, (i < n)%nat -> supports i = true -> v i == 0) -> energy n Kb v == 0 -> forall i, (i < n)%nat -> v i == 0.
Hypothesis HB : forall u k, exists K, build u k = Ok K /\ forall v i, (i < n)%nat -> mulv n K v i == mulv n Kb v i + delta t i (kap (u t) k * v t).
Hypothesis SF : softening kap p k0.
Hypothesis HW : unit_response n Kb supports t W.
Hypothesis HD : without_springs n Kb F U0 supports D.

Let w := W t.
Let X := D t.

Lemma delta_t : forall x, delta t t x = x.
Proof. clear. intros. unfold delta. rewrite Nat.eqb_refl. reflexivity. Qed.

Lemma bare_stable : stable n Kb supports.
Proof using PD.
  intros v V0 KV. apply PD; [exact V0|]. unfold energy, dot. apply sum_zero. intros i Hi. destruct (supports i) eqn:S; [rewrite (V0 i Hi S)|rewrite (KV i Hi S)]; ring.
Qed.

Lemma unit_energy : energy n Kb W == w.
Proof using Ht Hf HW.
  unfold energy, dot, w. transitivity (sum n (fun i => if Nat.eqb i t then W i else 0)); [|exact (sum_delta n t W Ht)]. apply sum_ext. intros i Hi. destruct HW as [A B].
  destruct (supports i) eqn:S.
  - destruct (Nat.eqb_spec i t) as [->|]; [congruence|]. rewrite (A i Hi S). ring.
  - rewrite (B i Hi S). destruct (Nat.eqb i t); ring.
Qed.

Lemma w_pos : 0 < w.
Proof using Ht Hf PS PD HW.
  assert (A : 0 <= w) by (rewrite <- unit_energy; apply PS). destruct (Qlt_le_dec 0 w) as [|L]; [auto|exfalso].
  assert (Z : forall i, (i < n)%nat -> W i == 0) by (apply PD; [exact (proj1 HW)|rewrite unit_energy; lra]).
  pose proof (proj2 HW t Ht Hf) as E. cbv beta in E. rewrite Nat.eqb_refl in E. unfold mulv in E. rewrite sum_zero in E; [lra|]. intros i Hi. rewrite (Z i Hi). ring.
Qed.

(** displacements that the pile has under the loads and a force [a] against them at [t] *)
Lemma held_back : forall d a, (forall i, (i < n)%nat -> supports i = true -> d i == U0 i) ->
  (forall i, (i < n)%nat -> supports i = false -> mulv n Kb d i == F i - delta t i a) ->
  forall i, (i < n)%nat -> d i == D i - a * W i.
Proof using PD HW HD.
  intros d a S1 S2 i Hi. destruct HW as [A B]. destruct HD as [A' B'].
  assert (Z : d i - (D i - a * W i) == 0); [|lra].
  apply (bare_stable (fun j => d j - (D j - a * W j))); [| |exact Hi].
  - intros j Hj Sj. rewrite (S1 j Hj Sj), (A j Hj Sj), (A' j Hj Sj). ring.
  - intros j Hj Sj. rewrite mulv_minus, mulv_minus, mulv_scale, (S2 j Hj Sj), (B j Hj Sj), (B' j Hj Sj). unfold delta. destruct (Nat.eqb j t); ring.
Qed.

Lemma sprung_stable : forall K k, 0 <= k -> (forall v i, (i < n)%nat -> mulv n K v i == mulv n Kb v i + delta t i (k * v t)) -> stable n K supports.
Proof using Ht Hf PS PD.
  intros K k K0 E v V0 KV. apply PD; [exact V0|].
  assert (A : energy n Kb v + k * (v t * v t) == 0).
  { unfold energy, dot. assert (SD : k * (v t * v t) == sum n (fun i => if Nat.eqb i t then v i * (k * v t) else 0)) by (pose proof (sum_delta n t (fun i => v i * (k * v t)) Ht) as Z; cbv beta in Z; rewrite Z; ring).
    rewrite SD.
    rewrite <- sum_plus. apply sum_zero. intros i Hi. destruct (supports i) eqn:S.
    - destruct (Nat.eqb_spec i t) as [->|]; [congruence|]. rewrite (V0 i Hi S). ring.
    - specialize (KV i Hi S). rewrite E in KV by exact Hi. unfold delta in KV. destruct (Nat.eqb i t).
      + setoid_replace (v i * mulv n Kb v i + v i * (k * v t)) with (v i * (mulv n Kb v i + k * v t)) by ring. rewrite KV. ring.
      + setoid_replace (mulv n Kb v i) with (mulv n Kb v i + 0) by ring. rewrite KV. ring. }
  pose proof (PS v) as P. pose proof (mul_nonneg k (v t * v t) K0 (square_nonneg (v t))) as P2. lra.
Qed.

(** one pass *)
Lemma pass : forall K k d U Rg u R q, 0 <= k -> (forall v i, (i < n)%nat -> mulv n K v i == mulv n Kb v i + delta t i (k * v t)) ->
  (forall i, (i < n)%nat -> supports i = true -> d i + U i == U0 i) ->
  (forall i, (i < n)%nat -> supports i = false -> Rg i == F i - mulv n Kb d i - delta t i q) ->
  solve_equations solve n K Rg U supports = Some (u, R) ->
  let d' := fun i => d i + u i in
  (forall i, (i < n)%nat -> supports i = true -> d' i == U0 i) /\ (forall i, (i < n)%nat -> supports i = false -> R i == 0) /\
  (forall i, (i < n)%nat -> supports i = false -> mulv n Kb d' i == F i - delta t i (q + k * u t)) /\
  d' t - d t == u t /\ u t * (1 + w * k) == X - d t - w * q.
Proof using SO Ht Hf PS PD HW HD.
  intros K k d U Rg u R q K0 E DU RG SE d'. destruct (solve_equations_sound solve n K Rg U supports u R SO SE) as (S1 & S2 & S3).
  assert (A : forall i, (i < n)%nat -> supports i = true -> d' i == U0 i) by (intros i Hi Si; unfold d'; rewrite (S3 i Hi Si); apply DU; auto).
  assert (B : forall i, (i < n)%nat -> supports i = false -> mulv n Kb d' i == F i - delta t i (q + k * u t)).
  { intros i Hi Si. unfold d'. rewrite mulv_plus. specialize (S1 i Hi). rewrite E, (S2 i Hi Si), (RG i Hi Si) in S1 by exact Hi. unfold delta in *. destruct (Nat.eqb i t); lra. }
  split; [exact A|]. split; [exact S2|]. split; [exact B|]. split; [unfold d'; ring|].
  pose proof (held_back d' (q + k * u t) A B t Ht) as H. fold w X in H. unfold d' in H.
  assert (E1 : (q + k * u t) * w == w * q + u t * (w * k)) by ring. assert (E2 : u t * (1 + w * k) == u t + u t * (w * k)) by ring. lra.
Qed.

(** [sg] is the direction of the movement, [y] the size of the movement at rest *)
Variables (sg y : Q).
Hypothesis SG : sg * sg == 1.
Hypothesis Y0 : 0 <= y.
Hypothesis YR : y + w * p y == sg * X.

Lemma size_of : forall d, 0 <= sg * d -> Qabs d == sg * d.
Proof using SG.
  intros d H. assert (C : sg == 1 \/ sg == -1).
  { assert (Z : (sg - 1) * (sg + 1) == 0) by (setoid_replace ((sg - 1) * (sg + 1)) with (sg * sg - 1) by ring; rewrite SG; ring). apply Qmult_integral in Z. destruct Z; [left|right]; lra. }
  destruct C as [C|C]; rewrite C in *; [rewrite Qabs_pos by lra; ring|rewrite Qabs_neg by lra; ring].
Qed.

Let rho := w * k0 / (1 + w * k0).

Lemma rho_bounds : 0 <= w * k0 /\ 0 <= rho /\ rho * (1 + w * k0) == w * k0.
Proof using Ht Hf PS PD HW SF.
  pose proof w_pos as P. assert (A : 0 <= w * k0) by (apply mul_nonneg; [lra|apply (sf_k0 _ _ _ SF)]). split; [exact A|]. split.
  - unfold rho, Qdiv. apply mul_nonneg; [exact A|]. apply Qlt_le_weak, Qinv_lt_0_compat. lra.
  - unfold rho. field. lra.
Qed.

(** a Newton step towards a root of a concave function from below *)
Lemma newton_step : forall x h k, 0 <= x -> x <= y -> 0 <= k -> k <= k0 -> p y - p x <= k * (y - x) -> h * (1 + w * k) == y + w * p y - x - w * p x ->
  0 <= h /\ x + h <= y /\ y - (x + h) <= rho * (y - x).
Proof using Ht Hf PS PD HW SF.
  intros x h k X0 XY K0 KK T E. pose proof w_pos as P. destruct rho_bounds as (R0 & R1 & R2).
  pose proof (mul_nonneg w k ltac:(lra) K0) as WK. pose proof (sf_mono _ _ _ SF x y X0 XY) as MN.
  assert (W1 : 0 <= w * (p y - p x)) by (apply mul_nonneg; lra).
  assert (W2 : 0 <= w * (k * (y - x) - (p y - p x))) by (apply mul_nonneg; lra).
  assert (W3 : 0 <= w * (k0 - k)) by (apply mul_nonneg; lra).
  assert (H0 : 0 <= h).
  { destruct (Qlt_le_dec h 0) as [L|]; [exfalso|auto]. assert (N : 0 < (- h) * (1 + w * k)) by (apply mul_pos; lra). lra. }
  assert (HL : h <= y - x).
  { destruct (Qlt_le_dec (y - x) h) as [L|]; [exfalso|auto]. assert (N : 0 < (h - (y - x)) * (1 + w * k)) by (apply mul_pos; lra).
    assert (E2 : (h - (y - x)) * (1 + w * k) == h * (1 + w * k) - (y - x) - w * (k * (y - x))) by ring. lra. }
  split; [exact H0|]. split; [lra|].
  assert (HG : y - x <= h * (1 + w * k0)).
  { assert (M : 0 <= h * (w * (k0 - k))) by (apply mul_nonneg; lra). assert (E3 : h * (1 + w * k0) == h * (1 + w * k) + h * (w * (k0 - k))) by ring. lra. }
  assert (G : (y - (x + h)) * (1 + w * k0) <= rho * (y - x) * (1 + w * k0)).
  { setoid_replace (rho * (y - x) * (1 + w * k0)) with ((rho * (1 + w * k0)) * (y - x)) by ring. rewrite R2. lra. }
  destruct (Qlt_le_dec (rho * (y - x)) (y - (x + h))) as [L|]; [exfalso|auto].
  assert (N : 0 < (y - (x + h) - rho * (y - x)) * (1 + w * k0)) by (apply mul_pos; lra). lra.
Qed.

(** before pass number [S k] *)
Definition ready (k : nat) (d U : vec) (K : mat) (Rg : vec) : Prop :=
  (forall i, (i < n)%nat -> supports i = true -> d i + U i == U0 i) /\
  (forall i, (i < n)%nat -> supports i = false -> Rg i == F i - mulv n Kb d i - delta t i (sg * p (sg * d t))) /\
  0 <= sg * d t /\ sg * d t <= y /\ y - sg * d t <= power rho k * y /\
  exists kt, 0 <= kt /\ kt <= k0 /\ p y - p (sg * d t) <= kt * (y - sg * d t) /\ forall v i, (i < n)%nat -> mulv n K v i == mulv n Kb v i + delta t i (kt * v t).

(** after pass number [k], which started from displacement [x0] of [t] *)
Definition passed (k : nat) (x0 : Q) (d R : vec) : Prop :=
  (forall i, (i < n)%nat -> supports i = true -> d i == U0 i) /\ (forall i, (i < n)%nat -> supports i = false -> R i == 0) /\
  sg * x0 <= sg * d t /\ sg * d t <= y /\ y - sg * d t <= power rho k * y /\
  exists a, (forall i, (i < n)%nat -> supports i = false -> mulv n Kb d i == F i - delta t i a) /\ w * (sg * a) == sg * X - sg * d t.

Lemma ready_passes : forall k d U K Rg, ready k d U K Rg -> exists u R, solve_equations solve n K Rg U supports = Some (u, R) /\ passed (S k) (d t) (fun i => d i + u i) R.
Proof using SO Ht Hf PS PD SF HW HD SG YR.
  intros k d U K Rg (DU & RG & D0 & D1 & D2 & kt & K0 & K1 & KT & KE).
  destruct (proj2 (solve_equations_succeeds solve n K Rg U supports SO) (sprung_stable K kt K0 KE)) as [[u R] SE]. exists u, R. split; [exact SE|].
  destruct (pass K kt d U Rg u R (sg * p (sg * d t)) K0 KE DU RG SE) as (A & B & C & DT & N).
  assert (H : (sg * u t) * (1 + w * kt) == y + w * p y - sg * d t - w * p (sg * d t)).
  { setoid_replace ((sg * u t) * (1 + w * kt)) with (sg * (u t * (1 + w * kt))) by ring. rewrite N, YR.
    setoid_replace (sg * (X - d t - w * (sg * p (sg * d t)))) with (sg * X - sg * d t - (sg * sg) * (w * p (sg * d t))) by ring. rewrite SG. ring. }
  destruct (newton_step _ _ _ D0 D1 K0 K1 KT H) as (H0 & H1 & H2).
  assert (E : sg * (d t + u t) == sg * d t + sg * u t) by ring.
  destruct rho_bounds as (R0 & R1 & _).
  split; [exact A|]. split; [exact B|]. split; [rewrite E; lra|]. split; [rewrite E; exact H1|]. split.
  - rewrite E. cbn [power]. eapply Qle_trans; [exact H2|]. setoid_replace (rho * power rho k * y) with (rho * (power rho k * y)) by ring.
    rewrite (Qmult_comm rho (y - _)), (Qmult_comm rho (_ * y)). apply le_mul; auto.
  - eexists. split; [exact C|]. pose proof (held_back _ _ A C t Ht) as HBk. cbv beta in HBk. fold w X in HBk.
    rewrite HBk. ring.
Qed.

(** what is out of balance after a pass *)
Lemma passed_residual : forall k x0 d R, 0 <= sg * x0 -> passed k x0 d R -> exists Ks rr, build d Secant = Ok Ks /\ stable n Ks supports /\
  (forall i, (i < n)%nat -> supports i = false -> (F i - R i) + - mulv n Ks d i == delta t i rr) /\
  w * (sg * rr) == (y - sg * d t) + w * (p y - p (sg * d t)) /\
  (forall i, (i < n)%nat -> supports i = false -> (F i - R i) + - mulv n Ks d i == F i - mulv n Kb d i - delta t i (sg * p (sg * d t))).
Proof using HB Ht Hf PS PD SF SG YR.
  intros k x0 d R P0 (A & B & C1 & C2 & C3 & a & HA & WA). destruct (HB d Secant) as (Ks & EK & MK).
  assert (D0 : 0 <= sg * d t) by lra. pose proof (sf_sec _ _ _ SF (d t)) as SC. rewrite (sf_comp _ _ _ SF _ _ (size_of (d t) D0)), (size_of (d t) D0) in SC.
  assert (SE : kap (d t) Secant * d t == sg * p (sg * d t)).
  { rewrite <- SC. setoid_replace (sg * (kap (d t) Secant * (sg * d t))) with ((sg * sg) * (kap (d t) Secant * d t)) by ring. rewrite SG. ring. }
  exists Ks, (a - sg * p (sg * d t)). split; [exact EK|]. split; [exact (sprung_stable Ks _ (sf_sec0 _ _ _ SF (d t)) MK)|].
  assert (E : forall i, (i < n)%nat -> supports i = false -> (F i - R i) + - mulv n Ks d i == F i - mulv n Kb d i - delta t i (sg * p (sg * d t))).
  { intros i Hi Si. rewrite (MK d i Hi), (B i Hi Si). unfold delta. destruct (Nat.eqb i t); [rewrite SE|]; ring. }
  split; [|split; [|exact E]].
  - intros i Hi Si. rewrite (E i Hi Si), (HA i Hi Si). unfold delta. destruct (Nat.eqb i t); ring.
  - setoid_replace (w * (sg * (a - sg * p (sg * d t)))) with (w * (sg * a) - (sg * sg) * (w * p (sg * d t))) by ring. rewrite SG, WA, <- YR. ring.
Qed.

Lemma next_ready : forall k x0 d R Rg K, 0 <= sg * x0 -> passed k x0 d R -> build d Tangent = Ok K ->
  (forall i, (i < n)%nat -> supports i = false -> Rg i == F i - mulv n Kb d i - delta t i (sg * p (sg * d t))) -> ready k d zero K Rg.
Proof using HB SF SG.
  intros k x0 d R Rg K P0 (A & B & C1 & C2 & C3 & _) BT E. assert (D0 : 0 <= sg * d t) by lra.
  split; [intros i Hi Si; unfold zero; rewrite (A i Hi Si); ring|]. split; [exact E|]. split; [exact D0|]. split; [exact C2|]. split; [exact C3|].
  destruct (HB d Tangent) as (K' & EK & MK). assert (EQ : K' = K) by congruence. subst K'. exists (kap (d t) Tangent).
  destruct (sf_tan0 _ _ _ SF (d t)) as [T0 T1]. split; [exact T0|]. split; [exact T1|]. split; [|exact MK].
  pose proof (sf_tan _ _ _ SF (d t) y) as T. pose proof (size_of (d t) D0) as Z. rewrite (sf_comp _ _ _ SF _ _ Z), Z in T. apply T. exact C2.
Qed.

Lemma first_ready : forall K, build zero Initial = Ok K -> ready 0 zero U0 K F.
Proof using HB SF Y0.
  intros K BI. destruct (HB zero Initial) as (K' & EK & MK). assert (EQ : K' = K) by congruence. subst K'.
  assert (Z : sg * zero t == 0) by (unfold zero; ring). assert (PZ : p (sg * zero t) == 0) by (rewrite (sf_comp _ _ _ SF _ _ Z); apply (sf_zero _ _ _ SF)).
  split; [intros; unfold zero; ring|]. split.
  - intros i Hi Si. assert (M : mulv n Kb zero i == 0) by (apply sum_zero; intros; unfold zero; ring). rewrite M. unfold delta. destruct (Nat.eqb i t); [rewrite PZ|]; ring.
  - rewrite Z. split; [lra|]. split; [exact Y0|]. split; [cbn [power]; lra|]. exists (kap (zero t) Initial). rewrite (sf_init _ _ _ SF).
    split; [apply (sf_k0 _ _ _ SF)|]. split; [lra|]. split; [|exact MK]. rewrite (sf_comp _ _ _ SF _ _ Z), Z. apply (sf_lip _ _ _ SF); lra.
Qed.

(** the displacements after each pass, the latest first *)
Fixpoint chain (hist : list vec) : Prop :=
  match hist with
  | [] => True
  | d :: rest => (forall i, (i < n)%nat -> supports i = true -> d i == U0 i) /\ match rest with [] => 0 | d' :: _ => sg * d' t end <= sg * d t /\ sg * d t <= y /\ y - sg * d t <= power rho (length hist) * y /\ chain rest
  end.

Definition close_enough (m : nat) : Prop :=
  (power rho m * y * (1 + w * k0)) * (power rho m * y * (1 + w * k0)) < (1#100000000) * (w * w) * free_load2 n F supports.

Lemma residual_square : forall R, (forall i, (i < n)%nat -> supports i = false -> R i == 0) -> (1#100000000) * free_load2 n F supports <= tol2 n F R.
Proof using.
  clear. intros R H. unfold tol2, norm2, free_load2. rewrite !(Qmult_comm (1#100000000)). apply le_mul; [discriminate|]. apply sum_le. intros i Hi. destruct (supports i) eqn:S; [apply square_nonneg|].
  rewrite (H i Hi S). apply Qle_lteq. right. ring.
Qed.

Lemma square_mono : forall a b, 0 <= a -> a <= b -> a * a <= b * b.
Proof using.
  clear. intros a b A B. apply Qle_trans with (b * a); [apply le_mul; auto|rewrite (Qmult_comm b a); apply le_mul; lra].
Qed.

Lemma near_converges : forall k x0 d R Rg rr, 0 <= sg * x0 -> passed k x0 d R -> close_enough k ->
  (forall i, (i < n)%nat -> supports i = false -> Rg i == delta t i rr) ->
  w * (sg * rr) == (y - sg * d t) + w * (p y - p (sg * d t)) -> free_norm2 n supports Rg < tol2 n F R.
Proof using Ht Hf PS PD SF HW SG.
  intros k x0 d R Rg rr P0 (A & B & C1 & C2 & C3 & _) CE ER WR. pose proof w_pos as WP. destruct rho_bounds as (R0 & _ & _).
  assert (EN : free_norm2 n supports Rg == rr * rr).
  { unfold free_norm2. transitivity (sum n (fun i => if Nat.eqb i t then rr * rr else 0)); [|exact (sum_delta n t (fun _ => rr * rr) Ht)]. apply sum_ext. intros i Hi.
    destruct (supports i) eqn:S; [destruct (Nat.eqb_spec i t) as [->|]; [congruence|reflexivity]|]. rewrite (ER i Hi S). unfold delta. destruct (Nat.eqb i t); ring. }
  assert (D0 : 0 <= sg * d t) by lra. pose proof (sf_lip _ _ _ SF _ _ D0 C2) as LP. pose proof (sf_mono _ _ _ SF _ _ D0 C2) as MN.
  assert (W0 : 0 <= w * (p y - p (sg * d t))) by (apply mul_nonneg; lra).
  assert (W1 : 0 <= w * (k0 * (y - sg * d t) - (p y - p (sg * d t)))) by (apply mul_nonneg; lra).
  assert (B1 : w * (sg * rr) <= power rho k * y * (1 + w * k0)).
  { rewrite WR. apply Qle_trans with ((y - sg * d t) * (1 + w * k0)); [|apply le_mul; lra].
    assert (E : (y - sg * d t) * (1 + w * k0) == (y - sg * d t) + w * (k0 * (y - sg * d t))) by ring. lra. }
  assert (B0 : 0 <= w * (sg * rr)) by (rewrite WR; lra).
  pose proof (square_mono _ _ B0 B1) as SQ.
  assert (E1 : w * (sg * rr) * (w * (sg * rr)) == (w * w) * ((sg * sg) * (rr * rr))) by ring. rewrite SG in E1.
  unfold close_enough in CE. pose proof (residual_square R B) as RS.
  assert (T : (w * w) * (rr * rr) < (w * w) * ((1#100000000) * free_load2 n F supports)) by lra.
  rewrite EN. eapply Qlt_le_trans; [|exact RS]. destruct (Qlt_le_dec (rr * rr) ((1#100000000) * free_load2 n F supports)) as [|G]; [auto|exfalso].
  assert (WW : 0 <= w * w) by apply square_nonneg.
  pose proof (mul_nonneg _ _ WW (proj1 (Qle_minus_iff _ _) G)) as N. lra.
Qed.

Lemma loop_newton : forall fuel iter d U K Rg last, (iter < 100)%nat -> ready iter d U K Rg -> chain (o_hist last) -> length (o_hist last) = iter ->
  match o_hist last with [] => sg * d t == 0 | d' :: _ => d' = d end ->
  exists o, loop solve n build F U0 supports fuel iter d U K Rg last = Ok o /\ chain (o_hist o) /\ (iter + Nat.min fuel 1 <= length (o_hist o))%nat /\
    ((0 < fuel)%nat -> forall v, o_d o = Some v -> exists rest, o_hist o = v :: rest) /\
    (forall m, (2 <= m)%nat -> (iter < m)%nat -> (m <= 100)%nat -> (m <= iter + fuel)%nat -> close_enough m ->
       exists v R rest, o_d o = Some v /\ o_Q o = Some R /\ o_hist o = v :: rest /\ (2 <= o_iter o <= m)%nat /\ o_iter o = length (o_hist o)).
Proof using SO Ht Hf PS PD HB SF HW HD SG Y0 YR.
  induction fuel as [|f IH]; intros iter d U K Rg last IT RD CH LN LK.
  - exists last. split; [reflexivity|]. split; [exact CH|]. split; [cbn [Nat.min]; lia|]. split; [lia|]. intros; lia.
  - destruct (ready_passes _ _ _ _ _ RD) as (u & R & SE & PA). cbn [WinklerModel.loop]. rewrite SE. cbv zeta.
    set (d' := fun i => d i + u i) in *. assert (P0 : 0 <= sg * d t) by (destruct RD as (_ & _ & Z & _); exact Z).
    destruct (passed_residual _ _ _ _ P0 PA) as (Ks & rr & EK & ST & ER & WR & EB). rewrite EK. cbn [bind].
    set (Rg' := fun i => (F i - R i) + - mulv n Ks d' i) in *.
    assert (CH' : chain (d' :: o_hist last)).
    { destruct PA as (A & _ & C1 & C2 & C3 & _). cbn [chain length]. rewrite LN. split; [exact A|]. split; [|split; [exact C2|split; [exact C3|exact CH]]].
      destruct (o_hist last) as [|x l]; [|subst x; exact C1]. apply Qle_trans with (sg * d t); [lra|exact C1]. }
    destruct (Qltb (free_norm2 n supports Rg') (tol2 n F R) && (1 <? S iter)%nat) eqn:CV.
    + destruct (proj2 (solve_equations_succeeds solve n Ks F U0 supports SO) ST) as [[V Rf] SE2]. rewrite SE2. eexists. split; [reflexivity|].
      cbn [o_hist o_d o_Q o_iter length]. rewrite LN. apply andb_prop in CV. destruct CV as [_ C2]. apply Nat.ltb_lt in C2. split; [exact CH'|]. split; [lia|]. split.
      * intros _ v E. injection E as <-. eexists. reflexivity.
      * intros m M2 M1 M3 M4 CE. eexists _, _, _. split; [reflexivity|]. split; [reflexivity|]. split; [reflexivity|]. split; [lia|reflexivity].
    + assert (NC : forall m, (2 <= m)%nat -> m = S iter -> close_enough m -> False).
      { intros m M2 -> CE. pose proof (near_converges _ _ _ _ Rg' rr P0 PA CE ER WR) as L. apply Qltb_true in L. rewrite L in CV. cbn [andb] in CV. apply Nat.ltb_ge in CV. lia. }
      destruct (Nat.eqb_spec (S iter) 100) as [E100|N100].
      * eexists. split; [reflexivity|]. cbn [o_hist o_d o_Q o_iter length]. rewrite LN. split; [exact CH'|]. split; [lia|]. split; [discriminate|].
        intros m M2 M1 M3 M4 CE. exfalso. apply (NC m M2 ltac:(lia) CE).
      * destruct (HB d' Tangent) as (K' & EK' & MK). rewrite EK'. cbn [bind].
        assert (RD' : ready (S iter) d' zero K' Rg') by (apply (next_ready (S iter) (d t) d' R); auto).
        destruct (IH (S iter) d' zero K' Rg' {| o_d := Some d'; o_Q := Some R; o_iter := S iter; o_err := Some (free_norm2 n supports Rg'); o_tol := Some (tol2 n F R); o_hist := d' :: o_hist last |}
          ltac:(lia) RD' CH' ltac:(cbn [o_hist length]; lia) eq_refl) as (o & E & CO & LO & HO & CM).
        exists o. split; [exact E|]. split; [exact CO|]. split; [lia|]. split.
        -- intros _ v EV. destruct f as [|f]; [|apply HO; [lia|exact EV]]. cbn [WinklerModel.loop] in E. injection E as <-. cbn [o_d] in EV. injection EV as <-. eexists. reflexivity.
        -- intros m M2 M1 M3 M4 CE. destruct (Nat.eq_dec m (S iter)) as [EM|NM]; [exfalso; exact (NC m M2 EM CE)|]. apply CM; auto; lia.
Qed.

Lemma winkler_newton : forall max_iter, exists o, winkler solve n build F U0 supports max_iter = Ok o /\ chain (o_hist o) /\ (1 <= length (o_hist o))%nat /\
  (forall v, o_d o = Some v -> exists rest, o_hist o = v :: rest) /\
  (forall m, (2 <= m)%nat -> (m <= 100)%nat -> (m <= S max_iter)%nat -> close_enough m ->
     exists v R rest, o_d o = Some v /\ o_Q o = Some R /\ o_hist o = v :: rest /\ (2 <= o_iter o <= m)%nat /\ o_iter o = length (o_hist o)).
Proof using SO Ht Hf PS PD HB SF HW HD SG Y0 YR.
  intros mi. unfold winkler. destruct (HB zero Initial) as (K & EK & _). rewrite EK. cbn [bind].
  destruct (loop_newton (S mi) 0 zero U0 K F {| o_d := Some zero; o_Q := None; o_iter := 0; o_err := Some (free_norm2 n supports F); o_tol := None; o_hist := [] |}
    ltac:(lia) (first_ready K EK) Logic.I eq_refl ltac:(cbn [o_hist]; unfold zero; ring)) as (o & E & CO & LO & HO & CM).
  exists o. split; [exact E|]. split; [exact CO|]. split; [cbn [Nat.min] in LO; lia|]. split; [apply HO; lia|]. intros m M2 M3 M4 CE. apply CM; auto; lia.
Qed.

(** every pass, counted from the first *)
Lemma chain_nth : forall hist, chain hist -> forall j d, nth_error (rev hist) j = Some d ->
  (forall i, (i < n)%nat -> supports i = true -> d i == U0 i) /\ 0 <= sg * d t /\ sg * d t <= y /\ y - sg * d t <= power rho (S j) * y /\
  (forall d', nth_error (rev hist) (S j) = Some d' -> sg * d t <= sg * d' t).
Proof using.
  clear. induction hist as [|x rest IH]; intros CH j d E; [destruct j; discriminate|]. cbn [chain] in CH. destruct CH as (A & C1 & C2 & C3 & CR).
  specialize (IH CR). cbn [rev] in E.
  assert (L : (j < length (rev rest))%nat \/ j = length (rev rest)).
  { assert (Z : (j < length (rev rest ++ [x]))%nat) by (apply nth_error_Some; congruence). rewrite app_length in Z. cbn in Z. lia. }
  assert (LX : nth_error (rev rest ++ [x]) (length (rev rest)) = Some x) by (rewrite nth_error_app2, Nat.sub_diag by lia; reflexivity).
  destruct L as [L| ->].
  - rewrite nth_error_app1 in E by lia. destruct (IH j d E) as (B1 & B2 & B3 & B4 & B5). split; [exact B1|]. split; [exact B2|]. split; [exact B3|]. split; [exact B4|].
    intros d' E'. cbn [rev] in E'. destruct (Nat.eq_dec (S j) (length (rev rest))) as [EL|NL]; [|apply B5; rewrite nth_error_app1 in E' by lia; exact E'].
    rewrite EL, LX in E'. injection E' as <-. destruct rest as [|z rest]; [cbn in L; lia|]. cbn [rev] in E, EL. rewrite app_length in EL. cbn in EL.
    rewrite nth_error_app2 in E by lia. replace (j - length (rev rest))%nat with 0%nat in E by lia. cbn in E. injection E as <-. exact C1.
  - rewrite LX in E. injection E as <-. rewrite rev_length. split; [exact A|]. split; [|split; [exact C2|split; [exact C3|]]].
    + destruct rest as [|z rest]; [exact C1|]. apply Qle_trans with (sg * z t); [|exact C1].
      destruct (IH (length (rev rest)) z) as (_ & B & _); [cbn [rev]; rewrite nth_error_app2, Nat.sub_diag by lia; reflexivity|exact B].
    + intros d' E'. exfalso. cbn [rev] in E'. assert (Z : nth_error (rev rest ++ [x]) (S (length rest)) <> None) by congruence. apply nth_error_Some in Z. rewrite app_length, rev_length in Z. cbn in Z. lia.
Qed.
End One.

(** ** A spring much stiffer than the pile that yields early *)
Section Slow.
Variables (solve : solver) (n : nat) (build : vec -> kind -> res mat) (supports : nat -> bool).
Variables (Kb : mat) (t : nat) (kap : Q -> kind -> Q) (W : vec).
Hypothesis SO : solver_ok solve.
Hypothesis Ht : (t < n)%nat.
Hypothesis Hf : supports t = false.
Hypothesis PS : psd n Kb.
Hypothesis PD : forall v, (forall i, (i < n)%nat -> supports i = true -> v i == 0) -> energy n Kb v == 0 -> forall i, (i < n)%nat -> v i == 0.
Hypothesis HB : forall u k, exists K, build u k = Ok K /\ forall v i, (i < n)%nat -> mulv n K v i == mulv n Kb v i + delta t i (kap (u t) k * v t).
Hypothesis HW : unit_response n Kb supports t W.
Let w := W t.
Hypothesis K_init : forall u, kap u Initial * w == 1000.
Hypothesis K_sec : forall u, 1#20000 <= u -> u <= 1#2000 -> 0 <= kap u Secant /\ kap u Secant * u * w == 1#20.
Hypothesis K_tan : forall u, 1#20000 <= u -> u <= 1#2000 -> 0 <= kap u Tangent /\ kap u Tangent * u * w == 1#20.
(** reactions of the supports to a load of 1 *)
Hypothesis RE : sum n (fun i => if supports i then mulv n Kb W i * mulv n Kb W i else 0) <= 20000.

Let F : vec := fun i => delta t i ((51#1000) / w).
Let D : vec := fun i => (51#1000) / w * W i.

Lemma w_positive : 0 < w.
Proof using Ht Hf PS PD HW. exact (w_pos n supports Kb t W Ht Hf PS PD HW). Qed.

Lemma load_response : without_springs n Kb F zero supports D.
Proof using HW.
  destruct HW as [A B]. split.
  - intros i Hi Si. unfold D, zero. rewrite (A i Hi Si). ring.
  - intros i Hi Si. unfold D. rewrite mulv_scale, (B i Hi Si). unfold F, delta. destruct (Nat.eqb i t); ring.
Qed.

Definition bound (k : nat) : Q := power (102#100) k * (1#20000).

Lemma bound_small : forall k, (k <= 100)%nat -> bound k <= 4#10000.
Proof using.
  clear. intros k H. assert (M : forall j k, (k <= j)%nat -> power (102#100) k <= power (102#100) j).
  { clear. induction j as [|j IH]; intros k H; [replace k with 0%nat by lia; lra|]. destruct (Nat.eq_dec k (S j)) as [->|]; [lra|]. eapply Qle_trans; [apply (IH k); lia|].
    cbn [power]. assert (P : 0 <= power (102#100) j) by (apply power_nonneg; discriminate). lra. }
  unfold bound. specialize (M 100%nat k H). assert (B : power (102#100) 100 * (1#20000) <= 4#10000) by (vm_compute; discriminate).
  eapply Qle_trans; [apply le_mul; [discriminate|exact M]|exact B].
Qed.

Definition slow (iter : nat) (d U : vec) (K : mat) (Rg : vec) : Prop :=
  (forall i, (i < n)%nat -> supports i = true -> d i + U i == 0) /\
  exists kt q s, 0 <= kt /\ (forall v i, (i < n)%nat -> mulv n K v i == mulv n Kb v i + delta t i (kt * v t)) /\
    (forall i, (i < n)%nat -> supports i = false -> Rg i == F i - mulv n Kb d i - delta t i q) /\
    (forall i, (i < n)%nat -> supports i = true -> Rg i == - ((s + d t) / w * mulv n Kb W i)) /\ (forall i, (i < n)%nat -> d i == d t / w * W i) /\
    0 <= s /\ s <= inject_Z (Z.of_nat iter) * (4#10000) /\
    ((iter = 0%nat /\ d t == 0 /\ q == 0 /\ kt * w == 1000) \/ (q * w == 1#20 /\ kt * d t * w == 1#20 /\ 1#20000 <= d t /\ d t <= bound iter)).

Lemma step_bounds : forall x h wk, 1#20000 <= x -> x <= 4#10000 -> wk * x == 1#20 -> h * (1 + wk) == (1#1000) - x -> 0 <= h /\ h <= (2#100) * x.
Proof using.
  clear. intros x h wk X0 X1 E H.
  assert (G : h * (x + (1#20)) == x * ((1#1000) - x)) by (rewrite <- E; setoid_replace (h * (x + wk * x)) with (x * (h * (1 + wk))) by ring; rewrite H; ring).
  assert (P : 0 <= x * ((1#1000) - x)) by (apply mul_nonneg; lra).
  split.
  - destruct (Qlt_le_dec h 0) as [L|]; [exfalso|auto]. assert (N : 0 < (- h) * (x + (1#20))) by (apply mul_pos; lra). lra.
  - destruct (Qlt_le_dec ((2#100) * x) h) as [L|]; [exfalso|auto]. assert (N : 0 < (h - (2#100) * x) * (x + (1#20))) by (apply mul_pos; lra).
    assert (S : 0 <= x * x) by apply square_nonneg. assert (E2 : (h - (2#100) * x) * (x + (1#20)) == h * (x + (1#20)) - (2#100) * (x * x) - (1#1000) * x) by ring.
    assert (E3 : x * ((1#1000) - x) == (1#1000) * x - x * x) by ring. lra.
Qed.

(** after a pass from a slow state *)
Lemma slow_pass : forall iter d U K Rg, (iter < 100)%nat -> slow iter d U K Rg ->
  exists u R s, solve_equations solve n K Rg U supports = Some (u, R) /\
  let d' := fun i => d i + u i in
  (forall i, (i < n)%nat -> supports i = true -> d' i == 0) /\ (forall i, (i < n)%nat -> supports i = false -> R i == 0) /\
  (forall i, (i < n)%nat -> supports i = true -> R i == s / w * mulv n Kb W i) /\ (forall i, (i < n)%nat -> d' i == d' t / w * W i) /\
  0 <= s /\ s <= inject_Z (Z.of_nat (S iter)) * (4#10000) /\ 1#20000 <= d' t /\ d' t <= bound (S iter).
Proof using SO Ht Hf PS PD HW.
  intros iter d U K Rg IT (DU & kt & q & s & K0 & KE & RG & RS & DW & S0 & S1 & ALT). pose proof w_positive as WP.
  destruct (proj2 (solve_equations_succeeds solve n K Rg U supports SO) (sprung_stable n supports Kb t Ht Hf PS PD K kt K0 KE)) as [[u R] SE].
  destruct (pass solve n F zero supports Kb t W D SO Ht Hf PS PD HW load_response K kt d U Rg u R q K0 KE DU RG SE) as (A & B & C & _ & N).
  fold w in N. assert (DT : D t == 51#1000) by (unfold D; fold w; field; lra). rewrite DT in N.
  pose proof (held_back n F zero supports Kb t W D PD HW load_response _ _ A C) as HBk. cbv beta in HBk.
  assert (DW' : forall i, (i < n)%nat -> d i + u i == (d t + u t) / w * W i).
  { intros i Hi. rewrite (HBk i Hi), (HBk t Ht). unfold D. fold w. field. lra. }
  destruct (solve_equations_sound solve n K Rg U supports u R SO SE) as (T1 & _ & _).
  assert (RR : forall i, (i < n)%nat -> supports i = true -> R i == (s + (d t + u t)) / w * mulv n Kb W i).
  { intros i Hi Si. specialize (T1 i Hi). rewrite (KE u i Hi), (RS i Hi Si) in T1.
    assert (MU : mulv n Kb u i == u t / w * mulv n Kb W i).
    { rewrite <- mulv_scale. apply mulv_ext; [intros; reflexivity|]. intros j Hj. specialize (DW' j Hj). rewrite (DW j Hj) in DW'.
      assert (E : (d t + u t) / w * W j == d t / w * W j + u t / w * W j) by (field; lra). lra. }
    rewrite MU in T1. unfold delta in T1. destruct (Nat.eqb_spec i t) as [EQ|NE]; [rewrite EQ in Si; congruence|].
    assert (E : (s + (d t + u t)) / w * mulv n Kb W i == u t / w * mulv n Kb W i + 0 + (s + d t) / w * mulv n Kb W i) by (field; lra). lra. }
  assert (BD : 1#20000 <= d t + u t /\ d t + u t <= bound (S iter)).
  { destruct ALT as [(I0 & D0 & Q0 & KI)|(QP & KP & X0 & X1)].
    - subst iter. rewrite D0, Q0 in N. assert (E : u t * (1 + w * kt) == u t * 1001) by (setoid_replace (w * kt) with (kt * w) by ring; rewrite KI; ring). rewrite E in N.
      assert (BE : bound 1 == 102#2000000) by reflexivity. rewrite BE, D0. split; lra.
    - pose proof (bound_small iter ltac:(lia)) as BS.
      destruct (step_bounds (d t) (u t) (w * kt) X0 ltac:(lra)) as [H0 H1]; [rewrite <- KP; ring|rewrite N; rewrite (Qmult_comm w q), QP; ring|].
      split; [lra|]. unfold bound. cbn [power]. unfold bound in X1. lra. }
  pose proof (bound_small (S iter) ltac:(lia)) as BS.
  exists u, R, (s + (d t + u t)). split; [exact SE|]. cbv zeta beta. split; [exact A|]. split; [exact B|]. split; [exact RR|]. split; [exact DW'|].
  split; [lra|]. split; [|exact BD].
  assert (E : inject_Z (Z.of_nat (S iter)) == inject_Z (Z.of_nat iter) + 1) by (rewrite Nat2Z.inj_succ; unfold Z.succ; rewrite inject_Z_plus; reflexivity). rewrite E. lra.
Qed.

(** what is out of balance stays above the tolerance *)
Lemma slow_residual : forall k d R s Ks, (k <= 100)%nat -> (forall i, (i < n)%nat -> supports i = false -> R i == 0) ->
  (forall i, (i < n)%nat -> supports i = true -> R i == s / w * mulv n Kb W i) -> (forall i, (i < n)%nat -> d i == d t / w * W i) ->
  0 <= s -> s <= inject_Z (Z.of_nat k) * (4#10000) -> 1#20000 <= d t -> d t <= bound k ->
  (forall v i, (i < n)%nat -> mulv n Ks v i == mulv n Kb v i + delta t i (kap (d t) Secant * v t)) ->
  Qltb (free_norm2 n supports (fun i => (F i - R i) + - mulv n Ks d i)) (tol2 n F R) = false /\
  (forall i, (i < n)%nat -> supports i = false -> (F i - R i) + - mulv n Ks d i == F i - mulv n Kb d i - delta t i ((1#20) / w)) /\
  (forall i, (i < n)%nat -> supports i = true -> (F i - R i) + - mulv n Ks d i == - ((s + d t) / w * mulv n Kb W i)).
Proof using Ht Hf PS PD HW K_sec RE.
  intros k d R s Ks HK B RR DW S0 S1 X0 X1 MK. pose proof w_positive as WP. pose proof (bound_small k HK) as BS.
  destruct (K_sec (d t) X0 ltac:(lra)) as [KS0 KS].
  assert (SE : kap (d t) Secant * d t == (1#20) / w) by (rewrite <- KS; field; lra).
  assert (MD : forall i, mulv n Kb d i == d t / w * mulv n Kb W i) by (intros i; rewrite <- mulv_scale; apply mulv_ext; [intros; reflexivity|exact DW]).
  assert (E : forall i, (i < n)%nat -> supports i = false -> (F i - R i) + - mulv n Ks d i == F i - mulv n Kb d i - delta t i ((1#20) / w)).
  { intros i Hi Si. rewrite (MK d i Hi), (B i Hi Si). unfold delta. destruct (Nat.eqb i t); [rewrite SE|]; ring. }
  split; [|split; [exact E|]].
  2:{ intros i Hi Si. rewrite (MK d i Hi), (RR i Hi Si), MD. unfold F, delta. destruct (Nat.eqb_spec i t) as [->|]; [congruence|]. field. lra. }
  apply Qltb_false.
  set (rr := ((1#1000) - d t) / w).
  assert (EN : free_norm2 n supports (fun i => (F i - R i) + - mulv n Ks d i) == rr * rr).
  { unfold free_norm2. transitivity (sum n (fun i => if Nat.eqb i t then rr * rr else 0)); [|exact (sum_delta n t (fun _ => rr * rr) Ht)]. apply sum_ext. intros i Hi.
    destruct (supports i) eqn:S; [destruct (Nat.eqb_spec i t) as [->|]; [congruence|reflexivity]|]. rewrite (E i Hi S), MD. destruct HW as [_ HW2]. rewrite (HW2 i Hi S).
    unfold F, delta, rr. destruct (Nat.eqb i t); field; lra. }
  rewrite EN. unfold tol2, norm2.
  assert (ES : sum n (fun i => (F i - R i) * (F i - R i)) == (51#1000) / w * ((51#1000) / w) + s / w * (s / w) * sum n (fun i => if supports i then mulv n Kb W i * mulv n Kb W i else 0)).
  { rewrite <- sum_scale. transitivity (sum n (fun i => (if Nat.eqb i t then (51#1000) / w * ((51#1000) / w) else 0) + s / w * (s / w) * (if supports i then mulv n Kb W i * mulv n Kb W i else 0))).
    - apply sum_ext. intros i Hi. unfold F, delta. destruct (supports i) eqn:S.
      + rewrite (RR i Hi S). destruct (Nat.eqb_spec i t) as [->|]; [congruence|]. ring.
      + rewrite (B i Hi S). destruct (Nat.eqb i t); ring.
    - rewrite sum_plus. rewrite (sum_delta n t (fun _ => (51#1000) / w * ((51#1000) / w)) Ht). reflexivity. }
  rewrite ES.
  assert (SB : s <= 4#100).
  { eapply Qle_trans; [exact S1|]. apply Qle_trans with (100 * (4#10000)); [|discriminate]. apply le_mul; [discriminate|]. change 100 with (inject_Z 100). rewrite <- Zle_Qle. lia. }
  set (iw := / w). assert (IW : 0 < iw) by (unfold iw; apply Qinv_lt_0_compat; exact WP). assert (IW2 : 0 < iw * iw) by (apply mul_pos; auto).
  set (G := sum n (fun i => if supports i then mulv n Kb W i * mulv n Kb W i else 0)) in *.
  assert (G0 : 0 <= G) by (apply sum_nonneg; intros i Hi; destruct (supports i); [apply square_nonneg|lra]).
  pose proof (square_mono _ _ S0 SB) as SQ.
  assert (SG : s * s * G <= (4#100) * (4#100) * 20000).
  { apply Qle_trans with ((4#100) * (4#100) * G); [apply le_mul; auto|]. rewrite !(Qmult_comm ((4#100) * (4#100))). apply le_mul; [discriminate|exact RE]. }
  assert (RQ : (6#10000) * (6#10000) <= ((1#1000) - d t) * ((1#1000) - d t)) by (apply square_mono; lra).
  setoid_replace (rr * rr) with (((1#1000) - d t) * ((1#1000) - d t) * (iw * iw)) by (unfold rr, iw; field; lra).
  setoid_replace ((1#100000000) * ((51#1000) / w * ((51#1000) / w) + s / w * (s / w) * G)) with ((1#100000000) * ((51#1000) * (51#1000) + s * s * G) * (iw * iw)) by (unfold iw; field; lra).
  apply le_mul; [lra|]. lra.
Qed.

Lemma slow_loop : forall fuel iter d U K Rg last, (iter < 100)%nat -> (100 <= iter + fuel)%nat -> slow iter d U K Rg ->
  exists o, loop solve n build F zero supports fuel iter d U K Rg last = Ok o /\ o_d o = None /\ o_Q o = None /\ o_iter o = 100%nat.
Proof using SO Ht Hf PS PD HB HW K_sec K_tan RE.
  induction fuel as [|f IH]; intros iter d U K Rg last IT FU SL; [lia|]. destruct (slow_pass iter d U K Rg IT SL) as (u & R & s & SE & A & B & RR & DW & S0 & S1 & X0 & X1).
  cbn [WinklerModel.loop]. rewrite SE. cbv zeta. set (d' := fun i => d i + u i) in *. destruct (HB d' Secant) as (Ks & EK & MK). rewrite EK. cbn [bind].
  destruct (slow_residual (S iter) d' R s Ks ltac:(lia) B RR DW S0 S1 X0 X1 MK) as (NC & EF & ESu). rewrite NC. cbn [andb].
  destruct (Nat.eqb_spec (S iter) 100) as [E100|N100].
  - eexists. split; [reflexivity|]. repeat split.
  - destruct (HB d' Tangent) as (Kt & EKt & MKt). rewrite EKt. cbn [bind]. pose proof (bound_small (S iter) ltac:(lia)) as BS.
    assert (X2 : d' t <= 1#2000) by (eapply Qle_trans; [exact X1|]; eapply Qle_trans; [exact BS|discriminate]).
    destruct (K_tan (d' t) X0 X2) as [KT0 KT]. pose proof w_positive as WP.
    apply IH; [lia|lia|]. split; [intros i Hi Si; pose proof (A i Hi Si) as AZ; cbv beta in AZ; unfold zero, d'; lra|].
    exists (kap (d' t) Tangent), ((1#20) / w), s. split; [exact KT0|]. split; [exact MKt|]. split; [exact EF|]. split; [exact ESu|]. split; [exact DW|]. split; [exact S0|]. split; [exact S1|].
    right. split; [field; lra|]. split; [exact KT|]. split; [exact X0|exact X1].
Qed.

Lemma slow_winkler : forall max_iter, (99 <= max_iter)%nat -> exists o, winkler solve n build F zero supports max_iter = Ok o /\ o_d o = None /\ o_Q o = None /\ o_iter o = 100%nat.
Proof using SO Ht Hf PS PD HB HW K_init K_sec K_tan RE.
  intros mi HM. unfold winkler. destruct (HB zero Initial) as (K & EK & MK). rewrite EK. cbn [bind]. pose proof w_positive as WP.
  apply slow_loop; [lia|lia|]. split; [intros; unfold zero; ring|]. exists (kap (zero t) Initial), 0, 0. pose proof (K_init (zero t)) as KI.
  assert (ZM : forall i, mulv n Kb zero i == 0) by (intros i; apply sum_zero; intros; unfold zero; ring).
  split. { destruct (Qlt_le_dec (kap (zero t) Initial) 0) as [L|]; [exfalso|auto]. assert (N : 0 < (- kap (zero t) Initial) * w) by (apply mul_pos; lra). lra. }
  split; [exact MK|]. split; [intros i Hi Si; rewrite ZM; unfold delta; destruct (Nat.eqb i t); ring|].
  split. { intros i Hi Si. unfold F, delta, zero. destruct (Nat.eqb_spec i t) as [->|]; [congruence|]. field. lra. }
  split. { intros i Hi. unfold zero. field. lra. }
  split; [lra|]. split; [discriminate|]. left. split; [reflexivity|]. split; [reflexivity|]. split; [reflexivity|exact KI].
Qed.
End Slow.

(** ** The model of the pile *)
Lemma one_spring_build : forall M t c, base_only M -> one_spring (w_n M) (w_qz M) (w_hb M) (w_mb M) t c -> (forall u k, base_spring u c k = Ok (stiffness_of c u k)) ->
  forall u k, exists K, build M u k = Ok K /\ forall v i, (i < size M)%nat -> mulv (size M) K v i == mulv (size M) (jit_build (w_n M) (w_mech M)) v i + delta t i (stiffness_of c (u t) k * v t).
Proof.
  intros M t c BO OS BS u k. assert (EX : exists K, build M u k = Ok K).
  { destruct BO as (E1 & E2 & E3). unfold build, soil_elements. rewrite E1, E2, E3. cbn [opt_res bind]. destruct OS as (Q1 & [(H1 & M1 & _)|(H1 & M1 & _)]); rewrite Q1, H1, M1; unfold add_base; cbn [opt_res]; rewrite BS; cbn [bind]; eexists; reflexivity. }
  destruct EX as [K EK]. exists K. split; [exact EK|]. destruct (base_build M u k K BO EK) as (q & h & m & EQ & EH & EM & MV).
  intros v i Hi. rewrite MV. apply Qplus_comp; [reflexivity|]. unfold spring_force, delta. destruct OS as (Q1 & [(H1 & M1 & ->)|(H1 & M1 & ->)]); rewrite Q1 in EQ; rewrite H1 in EH; rewrite M1 in EM; subst q.
  - subst m. rewrite BS in EH. apply ok_inj in EH. subst h. destruct (Nat.eqb_spec i (3 * w_n M)) as [->|N1].
    + destruct (Nat.eqb_spec (3 * w_n M) (3 * w_n M + 1)); [lia|]. ring.
    + destruct (Nat.eqb_spec i (3 * w_n M + 1)) as [->|N2]; [ring|]. destruct (Nat.eqb i (3 * w_n M + 2)); ring.
  - subst h. rewrite BS in EM. apply ok_inj in EM. subst m. destruct (Nat.eqb_spec i (3 * w_n M)) as [->|N1].
    + destruct (Nat.eqb_spec (3 * w_n M) (3 * w_n M + 2)); [lia|]. ring.
    + destruct (Nat.eqb_spec i (3 * w_n M + 1)) as [->|N2]; [|destruct (Nat.eqb_spec i (3 * w_n M + 2)) as [->|]; ring].
      destruct (Nat.eqb_spec (3 * w_n M + 1) (3 * w_n M + 2)); [lia|]. ring.
Qed.

Lemma one_spring_dof : forall n qz hb mb t c, one_spring n qz hb mb t c -> (t < 3 * n + 3)%nat.
Proof. intros n qz hb mb t c (_ & [(_ & _ & ->)|(_ & _ & ->)]); lia. Qed.

Section Pile.
Variables (M : wmodel) (z : nat -> Q) (r : nat -> bool) (t : nat) (c : list (Q * Q)).
Hypothesis SP : sound_pile M z.
Hypothesis BO : base_only M.
Hypothesis OS : one_spring (w_n M) (w_qz M) (w_hb M) (w_mb M) t c.
Hypothesis LC : lateral_curve c.
Hypothesis HL : held (w_n M) r.
Hypothesis Hf : r t = false.
Let N := size M.
Let Kb := jit_build (w_n M) (w_mech M).

Lemma pile_psd : psd N Kb.
Proof using SP. apply build_psd. intros e He. apply (deforms M z SP e He). Qed.

Lemma pile_definite : forall v, (forall i, (i < N)%nat -> r i = true -> v i == 0) -> energy N Kb v == 0 -> forall i, (i < N)%nat -> v i == 0.
Proof using SP HL. exact (held_rigid_zero (w_n M) (w_mech M) z r (deforms M z SP) (downwards M z SP) HL). Qed.

Lemma pile_dof : (t < N)%nat.
Proof using OS. exact (one_spring_dof _ _ _ _ _ _ OS). Qed.

Lemma pile_base_curves : base_curves M.
Proof using OS LC.
  destruct OS as (Q1 & [(H1 & M1 & _)|(H1 & M1 & _)]); unfold base_curves; rewrite Q1, H1, M1; (split; [discriminate|]); split; intros c' E; try discriminate; injection E as <-; exact LC.
Qed.

(** responses exist *)
Lemma response_exists : forall F U0, exists D, without_springs N Kb F U0 r D.
Proof using SP HL.
  intros F U0. destruct (proj2 (solve_equations_succeeds gauss_solver N Kb F U0 r gauss_solver_ok) (bare_stable N r Kb pile_definite)) as [[D R] SE].
  destruct (solve_equations_sound gauss_solver N Kb F U0 r D R gauss_solver_ok SE) as (A & B & C). exists D. split.
  - intros i Hi Ri. rewrite (C i Hi Ri). reflexivity.
  - intros i Hi Ri. rewrite (A i Hi), (B i Hi Ri). ring.
Qed.

(** rest in terms of the spring *)
Definition signed (u : Q) : Q := if Qltb u 0 then - interp (Qabs u) c else interp (Qabs u) c.

Lemma signed_resists : forall u f, resists (Some c) u f <-> f == signed u.
Proof using LC.
  intros u f. unfold signed. cbn [resists]. split.
  - intros (p & OC & A & B). pose proof (on_p c LC _ _ OC) as E. destruct (Qltb u 0) eqn:S; [apply Qltb_true in S; rewrite B, E by lra; reflexivity|apply Qltb_false in S; rewrite A, E by lra; reflexivity].
  - intros E. exists (interp (Qabs u) c). destruct LC as (L & ST & HD & OR). split; [apply interp_on_curve; [apply lateral_nonempty; exact L|apply strict_ordered; exact ST]|].
    assert (Z : u == 0 -> interp (Qabs u) c == 0). { intros Z. rewrite (p_comp c (Qabs u) 0); [apply p_zero; exact LC|]. rewrite Z. reflexivity. }
    destruct (Qltb u 0) eqn:S; [apply Qltb_true in S|apply Qltb_false in S]; split; intros U.
    + lra.
    + exact E.
    + exact E.
    + rewrite E, Z by lra. ring.
Qed.

Lemma rest_iff : forall F U0 V, at_rest (w_n M) Kb (w_qz M) (w_hb M) (w_mb M) F U0 r V <->
  ((forall i, (i < N)%nat -> r i = true -> V i == U0 i) /\ (forall i, (i < N)%nat -> r i = false -> mulv N Kb V i == F i - delta t i (signed (V t)))).
Proof using OS LC.
  clear Hf HL SP BO. intros F U0 V. unfold at_rest. fold Kb. change (3 * w_n M + 3)%nat with N.
  assert (TI : forall i f, delta t i f = (if Nat.eqb i (3 * w_n M) then 0 else if Nat.eqb i (3 * w_n M + 1) then (if Nat.eqb t (3 * w_n M + 1) then f else 0) else if Nat.eqb i (3 * w_n M + 2) then (if Nat.eqb t (3 * w_n M + 2) then f else 0) else 0)).
  { intros i f. unfold delta. assert (TT : t = (3 * w_n M + 1)%nat \/ t = (3 * w_n M + 2)%nat) by (destruct OS as (_ & [(_ & _ & E)|(_ & _ & E)]); auto).
    destruct TT as [-> | ->]; destruct (Nat.eqb_spec i (3 * w_n M)), (Nat.eqb_spec i (3 * w_n M + 1)), (Nat.eqb_spec i (3 * w_n M + 2)); try lia; try reflexivity.
    all: try (rewrite Nat.eqb_refl; reflexivity).
    all: destruct (Nat.eqb_spec (3 * w_n M + 1) (3 * w_n M + 2)), (Nat.eqb_spec (3 * w_n M + 2) (3 * w_n M + 1)); try lia; reflexivity. }
  destruct OS as (Q1 & [(H1 & M1 & E)|(H1 & M1 & E)]); rewrite Q1, H1, M1; split.
  - intros (A & fq & fh & fm & RQ & RH & RM & B). split; [exact A|]. intros i Hi Ri. specialize (B i Hi Ri). rewrite <- E in RH. apply signed_resists in RH. cbn [resists_axially] in RQ. cbn [resists] in RM. rewrite TI.
    rewrite E at 1. rewrite Nat.eqb_refl. destruct (Nat.eqb t (3 * w_n M + 2)) eqn:E2; [apply Nat.eqb_eq in E2; lia|].
    destruct (Nat.eqb i (3 * w_n M)); [lra|]. destruct (Nat.eqb i (3 * w_n M + 1)); [lra|]. destruct (Nat.eqb i (3 * w_n M + 2)); lra.
  - intros (A & B). split; [exact A|]. exists 0, (signed (V t)), 0. split; [reflexivity|]. split; [rewrite <- E; apply signed_resists; reflexivity|]. split; [reflexivity|].
    intros i Hi Ri. rewrite (B i Hi Ri), TI. rewrite E at 1. rewrite Nat.eqb_refl. destruct (Nat.eqb t (3 * w_n M + 2)) eqn:E2; [apply Nat.eqb_eq in E2; lia|].
    destruct (Nat.eqb i (3 * w_n M)); [ring|]. destruct (Nat.eqb i (3 * w_n M + 1)); [ring|]. destruct (Nat.eqb i (3 * w_n M + 2)); ring.
  - intros (A & fq & fh & fm & RQ & RH & RM & B). split; [exact A|]. intros i Hi Ri. specialize (B i Hi Ri). rewrite <- E in RM. apply signed_resists in RM. cbn [resists_axially] in RQ. cbn [resists] in RH. rewrite TI.
    destruct (Nat.eqb t (3 * w_n M + 1)) eqn:E2; [apply Nat.eqb_eq in E2; lia|]. destruct (Nat.eqb t (3 * w_n M + 2)) eqn:E3; [|apply Nat.eqb_neq in E3; lia].
    destruct (Nat.eqb i (3 * w_n M)); [lra|]. destruct (Nat.eqb i (3 * w_n M + 1)); [lra|]. destruct (Nat.eqb i (3 * w_n M + 2)); lra.
  - intros (A & B). split; [exact A|]. exists 0, 0, (signed (V t)). split; [reflexivity|]. split; [reflexivity|]. split; [rewrite <- E; apply signed_resists; reflexivity|].
    intros i Hi Ri. rewrite (B i Hi Ri), TI. destruct (Nat.eqb t (3 * w_n M + 1)) eqn:E2; [apply Nat.eqb_eq in E2; lia|]. destruct (Nat.eqb t (3 * w_n M + 2)) eqn:E3; [|apply Nat.eqb_neq in E3; lia].
    destruct (Nat.eqb i (3 * w_n M)); [ring|]. destruct (Nat.eqb i (3 * w_n M + 1)); [ring|]. destruct (Nat.eqb i (3 * w_n M + 2)); ring.
Qed.

Definition direction (u : Q) : Q := if Qltb u 0 then -1 else 1.
Lemma direction_square : forall u, direction u * direction u == 1.
Proof using. clear. intros u. unfold direction. destruct (Qltb u 0); reflexivity. Qed.
Lemma direction_size : forall u, direction u * u == Qabs u.
Proof using. clear. intros u. unfold direction. destruct (Qltb u 0) eqn:S; [apply Qltb_true in S; rewrite Qabs_neg by lra; ring|apply Qltb_false in S; rewrite Qabs_pos by lra; ring]. Qed.
Lemma direction_signed : forall u, direction u * signed u == interp (Qabs u) c.
Proof using. clear. intros u. unfold direction, signed. destruct (Qltb u 0); ring. Qed.

(** the equation of the tip *)
Lemma rest_equation : forall F U0 V W D, at_rest (w_n M) Kb (w_qz M) (w_hb M) (w_mb M) F U0 r V -> unit_response N Kb r t W -> without_springs N Kb F U0 r D ->
  Qabs (V t) + W t * interp (Qabs (V t)) c == direction (V t) * D t.
Proof using SP OS LC HL.
  intros F U0 V W D RT HW HD. apply rest_iff in RT. destruct RT as [A B].
  pose proof (held_back N F U0 r Kb t W D pile_definite HW HD V _ A B t pile_dof) as E.
  assert (DE : D t == V t + signed (V t) * W t) by lra. rewrite DE.
  setoid_replace (direction (V t) * (V t + signed (V t) * W t)) with (direction (V t) * V t + W t * (direction (V t) * signed (V t))) by ring.
  rewrite direction_size, direction_signed. reflexivity.
Qed.

Lemma rest_exists : forall F U0, exists V, at_rest (w_n M) Kb (w_qz M) (w_hb M) (w_mb M) F U0 r V.
Proof using SP OS LC HL Hf.
  intros F U0. destruct (response_exists F U0) as [D HD]. destruct (response_exists (fun i => if Nat.eqb i t then 1 else 0) (fun _ => 0)) as [W HW]. fold (unit_response N Kb r t W) in HW.
  pose proof (w_pos N r Kb t W pile_dof Hf pile_psd pile_definite HW) as WP.
  pose proof (curve_parts c LC) as (x1 & y1 & l & x0 & y0 & EC & X0 & Y0 & _). destruct LC as (L & ST & HDn & OR).
  destruct (reach c x0 y0 _ (W t) (Qabs (D t)) EC ST HDn ltac:(lra)) as (x & XP & XE); [rewrite X0, Y0; pose proof (Qabs_nonneg (D t)); lra|].
  set (sg := direction (D t)). exists (fun i => D i - sg * interp x c * W i).
  assert (P0 : 0 <= interp x c) by (apply (p_nonneg c LC); lra).
  assert (VT : D t - sg * interp x c * W t == sg * x).
  { pose proof (direction_size (D t)) as E. fold sg in E. pose proof (direction_square (D t)) as E2. fold sg in E2.
    assert (DE : D t == sg * Qabs (D t)) by (rewrite <- E; setoid_replace (sg * (sg * D t)) with (sg * sg * D t) by ring; rewrite E2; ring).
    rewrite DE at 1. rewrite <- XE. ring. }
  assert (SV : signed (D t - sg * interp x c * W t) == sg * interp x c).
  { unfold signed. rewrite (Qltb_comp _ _ 0 0 VT (Qeq_refl 0)). assert (AX : Qabs (D t - sg * interp x c * W t) == x).
    { rewrite VT, Qabs_Qmult, (Qabs_pos x) by lra. unfold sg, direction. destruct (Qltb (D t) 0); cbn; ring. }
    pose proof (p_comp c _ _ AX) as PX. set (g := interp (Qabs (D t - sg * interp x c * W t)) c) in *. clearbody g. clear AX VT.
    destruct (Qltb (sg * x) 0) eqn:S; [apply Qltb_true in S|apply Qltb_false in S]; rewrite PX; unfold sg, direction in S |- *; destruct (Qltb (D t) 0); try lra; try ring.
    assert (Z : x == 0) by lra. rewrite (p_comp c _ _ Z), (p_zero c (conj L (conj ST (conj HDn OR)))). ring. }
  apply rest_iff. destruct HW as [W1 W2]. destruct HD as [D1 D2]. split.
  - intros i Hi Ri. rewrite (W1 i Hi Ri), (D1 i Hi Ri). ring.
  - intros i Hi Ri. rewrite mulv_minus. pose proof (mulv_scale N Kb (sg * interp x c) W i) as MS. rewrite MS, (W2 i Hi Ri), (D2 i Hi Ri).
    unfold delta. destruct (Nat.eqb i t); [rewrite SV|]; ring.
Qed.
End Pile.
