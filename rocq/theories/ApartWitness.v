(** A load along the pile decides when the passes of an analysis across it end. *)
From Coq Require Import List Bool Arith ZArith QArith Qabs Lia Lqa Setoid.
From Verif Require Import Base LinAlg PileModel BeamModel BeamProofs SolveModel SolveSpec SolveProofs SpringModel SpringSpec SpringProofs WinklerModel NewtonSpec NewtonProofs.
Import ListNotations.
Local Open Scope Q_scope.

Section Quick.
Variables (solve : solver) (n : nat) (build : vec -> kind -> res mat) (supports : nat -> bool).
Variables (Kb : mat) (t h : nat) (kap : Q -> kind -> Q) (W V : vec).
Hypothesis SO : solver_ok solve.
Hypothesis Ht : (t < n)%nat.
Hypothesis Hf : supports t = false.
Hypothesis Hh : (h < n)%nat.
Hypothesis Hhf : supports h = false.
Hypothesis HT : h <> t.
Hypothesis PS : psd n Kb.
Hypothesis PD : forall v, (forall i, (i < n)%nat -> supports i = true -> v i == 0) -> energy n Kb v == 0 -> forall i, (i < n)%nat -> v i == 0.
Hypothesis HB : forall u k, exists K, build u k = Ok K /\ forall v i, (i < n)%nat -> mulv n K v i == mulv n Kb v i + delta t i (kap (u t) k * v t).
Hypothesis HW : unit_response n Kb supports t W.
Hypothesis HV : unit_response n Kb supports h V.
Hypothesis VT : V t == 0.
Let w := W t.
Hypothesis K_init : forall u, kap u Initial * w == 1000.
Hypothesis K_sec : forall u, 1#20000 <= u -> u <= 1#2000 -> 0 <= kap u Secant /\ kap u Secant * u * w == 1#20.
Hypothesis K_tan : forall u, 1#20000 <= u -> u <= 1#2000 -> 0 <= kap u Tangent /\ kap u Tangent * u * w == 1#20.

Variable P : Q.
Hypothesis HP : 10 / w <= P.
Let F : vec := fun i => delta t i ((51#1000) / w) + delta h i P.
Let D : vec := fun i => (51#1000) / w * W i + P * V i.

Lemma w_plus : 0 < w.
Proof using Ht Hf PS PD HW. exact (w_pos n supports Kb t W Ht Hf PS PD HW). Qed.
Lemma both_response : without_springs n Kb F zero supports D.
Proof using HW HV.
  destruct HW as [A B]. destruct HV as [A' B']. split.
  - intros i Hi Si. unfold D, zero. rewrite (A i Hi Si), (A' i Hi Si). ring.
  - intros i Hi Si. unfold D. rewrite mulv_plus, !mulv_scale, (B i Hi Si), (B' i Hi Si). unfold F, delta. destruct (Nat.eqb i t), (Nat.eqb i h); ring.
Qed.
Lemma D_t : D t == 51#1000.
Proof using Ht Hf PS PD HW VT. pose proof w_plus. unfold D. rewrite VT. fold w. field. lra. Qed.

(** what is out of balance after a pass *)
Lemma left_over : forall d R Ks a, (forall i, (i < n)%nat -> supports i = true -> d i == zero i) -> (forall i, (i < n)%nat -> supports i = false -> R i == 0) ->
  (forall i, (i < n)%nat -> supports i = false -> mulv n Kb d i == F i - delta t i a) -> 1#20000 <= d t -> d t <= 1#2000 ->
  (forall v i, (i < n)%nat -> mulv n Ks v i == mulv n Kb v i + delta t i (kap (d t) Secant * v t)) ->
  let rr := ((1#1000) - d t) / w in
  (forall i, (i < n)%nat -> supports i = false -> F i - R i + - mulv n Ks d i == delta t i rr) /\
  free_norm2 n supports (fun i => F i - R i + - mulv n Ks d i) == rr * rr /\ (1#100000000) * (10 / w * (10 / w)) <= tol2 n F R.
Proof using Ht Hf Hh Hhf HT PS PD HW HV VT K_sec HP.
  intros d R Ks a A B C X0 X1 MK rr. pose proof w_plus as WP.
  pose proof (held_back n F zero supports Kb t W D PD HW both_response d a A C t Ht) as HBk. rewrite D_t in HBk. fold w in HBk.
  destruct (K_sec (d t) X0 X1) as [KS0 KS]. assert (SE : kap (d t) Secant * d t == (1#20) / w) by (rewrite <- KS; field; lra).
  assert (RT : a - kap (d t) Secant * d t == rr).
  { rewrite SE. unfold rr. assert (AW : a == ((51#1000) - d t) / w) by (rewrite HBk; field; lra). rewrite AW. field. lra. }
  assert (E : forall i, (i < n)%nat -> supports i = false -> F i - R i + - mulv n Ks d i == delta t i rr).
  { intros i Hi Si. rewrite (MK d i Hi), (B i Hi Si), (C i Hi Si). unfold delta. destruct (Nat.eqb i t); [|ring]. rewrite <- RT. ring. }
  split; [exact E|]. split.
  - unfold free_norm2. transitivity (sum n (fun i => if Nat.eqb i t then rr * rr else 0)); [|exact (sum_delta n t (fun _ => rr * rr) Ht)]. apply sum_ext. intros i Hi.
    destruct (supports i) eqn:S; [destruct (Nat.eqb_spec i t) as [->|]; [congruence|reflexivity]|]. rewrite (E i Hi S). unfold delta. destruct (Nat.eqb i t); ring.
  - unfold tol2, norm2. rewrite !(Qmult_comm (1#100000000)). apply le_mul; [discriminate|].
    assert (TW : 0 <= 10 / w) by (unfold Qdiv; apply mul_nonneg; [discriminate|apply Qlt_le_weak, Qinv_lt_0_compat; exact WP]).
    apply Qle_trans with (P * P); [apply square_mono; auto|].
    assert (SD : P * P == sum n (fun i => if Nat.eqb i h then P * P else 0)) by (symmetry; exact (sum_delta n h (fun _ => P * P) Hh)).
    rewrite SD. apply sum_le. intros i Hi. destruct (Nat.eqb_spec i h) as [->|]; [|apply square_nonneg].
    rewrite (B h Hh Hhf). unfold F, delta. rewrite Nat.eqb_refl. destruct (Nat.eqb_spec h t) as [|_]; [congruence|]. apply Qle_lteq. right. ring.
Qed.

Lemma quick_winkler : forall m, exists o d e tl, winkler solve n build F zero supports (S m) = Ok o /\ o_d o = Some d /\ (exists q, o_Q o = Some q) /\ o_iter o = 2%nat /\ o_err o = Some e /\ o_tol o = Some tl /\ e < tl /\
  1#20000 <= d t /\ d t <= 6#100000.
Proof using SO Ht Hf Hh Hhf HT PS PD HB HW HV VT K_init K_sec K_tan HP.
  intros m. pose proof w_plus as WP. unfold winkler. destruct (HB zero Initial) as (K & EK & MK). rewrite EK. cbn [bind].
  pose proof (K_init (zero t)) as KI. set (k0 := kap (zero t) Initial) in *.
  assert (K0 : 0 <= k0). { destruct (Qlt_le_dec k0 0) as [L|]; [exfalso|auto]. assert (N : 0 < (- k0) * w) by (apply mul_pos; lra). lra. }
  assert (ZM : forall i, mulv n Kb zero i == 0) by (intros i; apply sum_zero; intros; unfold zero; ring).
  cbn [WinklerModel.loop].
  destruct (proj2 (solve_equations_succeeds solve n K F zero supports SO) (sprung_stable n supports Kb t Ht Hf PS PD K k0 K0 MK)) as [[u R] SE]. rewrite SE. cbv zeta.
  destruct (pass solve n F zero supports Kb t W D SO Ht Hf PS PD HW both_response K k0 zero zero F u R 0 K0 MK) as (A & B & C & _ & N).
  { intros i Hi Si. unfold zero. ring. }
  { intros i Hi Si. rewrite ZM. unfold delta. destruct (Nat.eqb i t); ring. }
  { exact SE. }
  fold w in N. rewrite D_t in N. cbv beta in A, C. set (d1 := fun i => zero i + u i) in *.
  assert (U1 : u t * (1 + w * k0) == u t * 1001) by (setoid_replace (w * k0) with (k0 * w) by ring; rewrite KI; ring). rewrite U1 in N.
  assert (D1 : d1 t == u t) by (unfold d1, zero; ring). assert (ZT : zero t == 0) by reflexivity. rewrite ZT in N.
  assert (X0 : 1#20000 <= d1 t) by lra. assert (X1 : d1 t <= 51#1000000) by lra. assert (X2 : d1 t <= 1#2000) by lra.
  destruct (HB d1 Secant) as (Ks & EKs & MKs). rewrite EKs. cbn [bind].
  destruct (left_over d1 R Ks _ A B C X0 X2 MKs) as (E1 & _ & _). rewrite andb_false_r. change (Nat.eqb 1 100) with false. cbv iota.
  destruct (HB d1 Tangent) as (Kt & EKt & MKt). rewrite EKt. cbn [bind]. destruct (K_tan (d1 t) X0 X2) as [KT0 KT].
  set (Rg := fun i => F i - R i + - mulv n Ks d1 i) in *. set (k1 := kap (d1 t) Tangent) in *.
  destruct (proj2 (solve_equations_succeeds solve n Kt Rg zero supports SO) (sprung_stable n supports Kb t Ht Hf PS PD Kt k1 KT0 MKt)) as [[u2 R2] SE2]. rewrite SE2.
  destruct (pass solve n F zero supports Kb t W D SO Ht Hf PS PD HW both_response Kt k1 d1 zero Rg u2 R2 ((1#20) / w) KT0 MKt) as (A2 & B2 & C2 & _ & N2).
  { intros i Hi Si. pose proof (A i Hi Si) as AZ. unfold d1, zero in *. lra. }
  { intros i Hi Si. unfold Rg. rewrite (E1 i Hi Si). rewrite (C i Hi Si). unfold delta. destruct (Nat.eqb i t); [|ring].
    pose proof (held_back n F zero supports Kb t W D PD HW both_response d1 _ A C t Ht) as HBk. rewrite D_t in HBk. fold w in HBk. cbv beta in HBk.
    set (a := 0 + k0 * u t) in *. assert (AW : a == ((51#1000) - d1 t) / w) by (rewrite HBk; field; lra). rewrite AW. field. lra. }
  { exact SE2. }
  fold w in N2. rewrite D_t in N2. cbv beta in A2, C2. set (d2 := fun i => d1 i + u2 i) in *.
  destruct (step_bounds (d1 t) (u2 t) (w * k1) X0 ltac:(lra)) as [H0 H1]; [rewrite <- KT; ring|rewrite N2; field; lra|].
  assert (D2 : d2 t == d1 t + u2 t) by reflexivity.
  assert (Y0 : 1#20000 <= d2 t) by lra. assert (Y1 : d2 t <= 6#100000) by lra. assert (Y2 : d2 t <= 1#2000) by lra.
  destruct (HB d2 Secant) as (Kf & EKf & MKf). cbv zeta. change (fun i => zero i + u i + u2 i) with d2. rewrite EKf. cbn [bind].
  destruct (left_over d2 R2 Kf _ A2 B2 C2 Y0 Y2 MKf) as (_ & EN & TL). set (rr := ((1#1000) - d2 t) / w) in *.
  set (iw := / w). assert (IW : 0 < iw) by (unfold iw; apply Qinv_lt_0_compat; exact WP). assert (IW2 : 0 < iw * iw) by (apply mul_pos; auto).
  assert (LT : free_norm2 n supports (fun i => F i - R2 i + - mulv n Kf d2 i) < tol2 n F R2).
  { eapply Qlt_le_trans; [|exact TL]. rewrite EN. setoid_replace (rr * rr) with (((1#1000) - d2 t) * ((1#1000) - d2 t) * (iw * iw)) by (unfold rr, iw; field; lra).
    setoid_replace ((1#100000000) * (10 / w * (10 / w))) with ((1#1000000) * (iw * iw)) by (unfold iw; field; lra). apply Qmult_lt_r; [exact IW2|].
    assert (S1 : ((1#1000) - d2 t) * ((1#1000) - d2 t) <= (999#1000000) * (999#1000000)) by (apply square_mono; lra). eapply Qle_lt_trans; [exact S1|reflexivity]. }
  rewrite (proj2 (Qltb_true _ _) LT). change ((1 <? 2)%nat) with true. cbn [andb].
  assert (KF0 : 0 <= kap (d2 t) Secant) by (apply K_sec; auto).
  destruct (proj2 (solve_equations_succeeds solve n Kf F zero supports SO) (sprung_stable n supports Kb t Ht Hf PS PD Kf _ KF0 MKf)) as [[uf Rf] SF]. rewrite SF.
  eexists _, d2, _, _. split; [reflexivity|]. cbn [o_d o_Q o_iter o_err o_tol]. split; [reflexivity|]. split; [eauto|]. split; [reflexivity|]. split; [reflexivity|]. split; [reflexivity|]. split; [exact LT|]. split; [exact Y0|exact Y1].
Qed.
End Quick.
