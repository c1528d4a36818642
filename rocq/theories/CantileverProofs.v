(** Flexibility of an element and the head-loaded cantilever on any mesh. *)
From Coq Require Import List Bool Arith QArith Lia Lqa Setoid.
From Verif Require Import Base LinAlg BeamModel BeamSpec BeamProofs SolveModel SolveSpec SolveProofs ForceProofs RefineSpec.
Import ListNotations.
Local Open Scope Q_scope.

Lemma flex_phi : forall E I A L phi ks u, ~ E == 0 -> ~ I == 0 -> ~ A == 0 -> ~ L == 0 -> ~ 1 + phi == 0 -> phi == 12 * E * I * ks / (L * L) ->
  let f := mulv 6 (mech_phi E I A L phi) u in
  u 0%nat == u 3%nat + f 0%nat * L / (E * A) /\
  u 2%nat == u 5%nat + f 2%nat * L / (E * I) - f 1%nat * (L * L) / (2 * (E * I)) /\
  u 1%nat == u 4%nat - L * u 5%nat - f 2%nat * (L * L) / (2 * (E * I)) + f 1%nat * (L * L * L / (3 * (E * I)) + ks * L).
Proof.
  intros E I A L phi ks u HE HI HA HL HP EP f.
  assert (EK : ks == phi * (L * L) / (12 * E * I)) by (rewrite EP; field; auto).
  unfold f, mulv, mech_phi, of_rows. cbn [sum nth]. rewrite EK. clear EK EP f.
  split; [field; auto|]. split; field; auto.
Qed.

Lemma flexibility : forall ty c E nu I A d wt L k u, 0 < E -> -(3#4) <= nu -> 0 < I -> 0 < A -> 0 < d -> 0 < L ->
  elem_mech ty c E nu I A d wt L = Ok k ->
  let f := mulv 6 k u in
  u 0%nat == u 3%nat + f 0%nat * L / (E * A) /\
  u 2%nat == u 5%nat + f 2%nat * L / (E * I) - f 1%nat * (L * L) / (2 * (E * I)) /\
  u 1%nat == u 4%nat - L * u 5%nat - f 2%nat * (L * L) / (2 * (E * I)) + f 1%nat * (L * L * L / (3 * (E * I)) + shear_flex ty E nu A d wt * L).
Proof.
  intros ty c E nu I A d wt L k u HE HN HI HA HD HL H f. unfold f. clear f.
  destruct (elem_mech_ok ty c E nu I A d wt L k) as (phi & HP & -> & EP); auto.
  apply flex_phi; try (apply pos_nonzero; lra).
  unfold shear_flex. destruct ty; rewrite EP.
  + field. apply pos_nonzero; auto.
  + set (kp := tube_kappa nu d wt). clearbody kp. field. repeat split; apply pos_nonzero; lra.
Qed.

(** Every analysed pile: the displacements at the two ends of an element differ by the element's
    flexibility times the forces found at the section just below its upper node. *)
Section Chain.
Variables (ty : elem_type) (c : bool) (E nu : Q) (n : nat) (I A dd wt z : nat -> Q) (k : nat -> mat).
Hypothesis HE : 0 < E.
Hypothesis HN : -(3#4) <= nu.
Hypothesis HK : forall e, (e < n)%nat -> 0 < I e /\ 0 < A e /\ 0 < dd e /\ z (S e) < z e /\
     elem_mech ty c E nu (I e) (A e) (dd e) (wt e) (z e - z (S e)) = Ok (k e).

Lemma chain_equilibrium : forall e, (e < n)%nat -> elem_equilibrium (z e - z (S e)) (k e).
Proof.
  intros e He. destruct (HK e He) as (P1 & P2 & P3 & P4 & P5). apply Qlt_minus_iff in P4.
  exact (proj2 (mech_element_ok _ _ _ _ _ _ _ _ _ _ HE HN P1 P2 P3 P4 P5)).
Qed.

Lemma chain : forall u e, (e < n)%nat ->
  let R := mulv (3 * n + 3) (jit_build n k) u in
  let L := z e - z (S e) in
  let ax := axial_above R e in let sh := shear_above R e in let mo := moment_above z R e (z e) in
  u (3 * e)%nat == u (3 * S e)%nat + ax * L / (E * A e) /\
  u (3 * e + 2)%nat == u (3 * S e + 2)%nat + mo * L / (E * I e) - sh * (L * L) / (2 * (E * I e)) /\
  u (3 * e + 1)%nat == u (3 * S e + 1)%nat - L * u (3 * S e + 2)%nat - mo * (L * L) / (2 * (E * I e)) +
     sh * (L * L * L / (3 * (E * I e)) + shear_flex ty E nu (A e) (dd e) (wt e) * L).
Proof.
  intros u e He R L ax sh mo. destruct (sections n k z u chain_equilibrium e He) as (S1 & S2 & S3). fold R in S1, S2, S3. fold ax in S1. fold sh in S2. fold mo in S3.
  destruct (HK e He) as (P1 & P2 & P3 & P4 & P5). apply Qlt_minus_iff in P4.
  destruct (flexibility _ _ _ _ _ _ _ _ _ _ (elem_disp u e) HE HN P1 P2 P3 P4 P5) as (F0 & F2 & F1). cbv zeta in F0, F1, F2.
  rewrite S1 in F0. rewrite S2, S3 in F1, F2. unfold elem_disp in F0, F1, F2. fold L in F0, F1, F2.
  rewrite Nat.add_0_r in F0. replace (3 * e + 3)%nat with (3 * S e)%nat in F0 by lia. replace (3 * e + 4)%nat with (3 * S e + 1)%nat in F1 by lia.
  replace (3 * e + 5)%nat with (3 * S e + 2)%nat in F1, F2 by lia. auto.
Qed.
End Chain.

(** The cantilever held at the tip and loaded at the head. *)
Lemma sum_head : forall e (f : nat -> Q), (forall a, (0 < a <= e)%nat -> f a == 0) -> sum (S e) f == f 0%nat.
Proof.
  intros e f H. rewrite sum_first. rewrite (sum_zero e); [ring|]. intros i Hi. apply H. lia.
Qed.

Lemma cantilever_exact : forall solve n ty c E nu I A dd wt z k F restrained, solver_ok solve -> 0 < E -> -(3#4) <= nu -> 0 < I -> 0 < A -> 0 < dd ->
  (1 <= n)%nat -> (forall e, (e < n)%nat -> z (S e) < z e /\ elem_mech ty c E nu I A dd wt (z e - z (S e)) = Ok (k e)) ->
  (forall i, (3 <= i < 3 * n)%nat -> F i == 0) -> tip_only n restrained ->
  exists d Q q, beam solve n k F (fun _ => 0) restrained = Some (d, Q, q) /\
  let N := F 0%nat in let P := F 1%nat in let M := F 2%nat in let H := z 0%nat - z n in
  forall a, (a <= n)%nat -> let h := z a - z n in
    d (3 * a)%nat == N * h / (E * A) /\
    d (3 * a + 1)%nat == P * (h * h) * (3 * H - h) / (6 * (E * I)) - M * (h * h) / (2 * (E * I)) + shear_flex ty E nu A dd wt * P * h /\
    d (3 * a + 2)%nat == M * h / (E * I) - P * h * (2 * H - h) / (2 * (E * I)).
Proof.
  intros solve n ty c E nu I A dd wt z k F restrained SO HE HN HI HA HD Hn HK HF HR.
  assert (HK' : forall e, (e < n)%nat -> 0 < (fun _ : nat => I) e /\ 0 < (fun _ : nat => A) e /\ 0 < (fun _ : nat => dd) e /\ z (S e) < z e /\
     elem_mech ty c E nu I A dd ((fun _ : nat => wt) e) (z e - z (S e)) = Ok (k e)).
  { intros e He. destruct (HK e He). auto. }
  assert (HH : held n (supports_of restrained (fun _ => 0))).
  { assert (X : forall i, (3 * n <= i < 3 * n + 3)%nat -> supports_of restrained (fun _ => 0) i = true).
    { intros i Hi. unfold supports_of. rewrite HR by lia. rewrite (proj2 (Nat.leb_le _ _)) by lia. reflexivity. }
    split; [exists n; split; [lia|apply X; lia]|]. exists n. split; [lia|]. split; [apply X; lia|]. left. exists n. split; [lia|apply X; lia]. }
  destruct (proj2 (pile_beam_succeeds solve n ty c E nu _ _ _ _ z k F (fun _ => 0) restrained SO HE HN HK') HH) as [[[d Q] q] HB].
  exists d, Q, q. split; [exact HB|]. cbv zeta.
  destruct (beam_sound _ _ _ _ _ _ _ _ _ SO HB) as (B1 & B2 & B3).
  assert (Q0 : forall i, (i < 3 * n)%nat -> Q i == 0).
  { intros i Hi. apply B2; [lia| |reflexivity]. rewrite HR by lia. apply Nat.leb_gt. lia. }
  set (R := mulv (3 * n + 3) (jit_build n k) d) in *.
  assert (R0 : forall i, (3 <= i < 3 * n)%nat -> R i == 0).
  { intros i Hi. rewrite B1 by lia. rewrite Q0, HF by lia. ring. }
  assert (RH : forall i, (i < 3)%nat -> R i == F i).
  { intros i Hi. rewrite B1 by lia. rewrite Q0 by lia. ring. }
  assert (SE : forall e, (e < n)%nat -> axial_above R e == F 0%nat /\ shear_above R e == F 1%nat /\ moment_above z R e (z e) == F 2%nat - (z 0%nat - z e) * F 1%nat).
  { intros e He. unfold axial_above, shear_above, moment_above.
    rewrite (sum_head e (fun a => R (3 * a)%nat)) by (intros a Ha; apply R0; lia).
    rewrite (sum_head e (fun a => R (3 * a + 1)%nat)) by (intros a Ha; apply R0; lia).
    rewrite (sum_head e (fun a => R (3 * a + 2)%nat - (z a - z e) * R (3 * a + 1)%nat)) by (intros a Ha; rewrite !R0 by lia; ring).
    cbn [Nat.mul Nat.add]. rewrite !RH by lia. split; [reflexivity|]. split; reflexivity. }
  assert (D0 : forall i, (3 * n <= i < 3 * n + 3)%nat -> d i == 0).
  { intros i Hi. rewrite B3; [reflexivity|lia|]. left. rewrite HR by lia. apply Nat.leb_le. lia. }
  assert (EI : ~ E * I == 0) by (apply pos_nonzero; nra). assert (EA : ~ E * A == 0) by (apply pos_nonzero; nra).
  assert (NE : ~ E == 0) by (apply pos_nonzero; auto). assert (NI : ~ I == 0) by (apply pos_nonzero; auto). assert (NA : ~ A == 0) by (apply pos_nonzero; auto).
  assert (IND : forall b, (b <= n)%nat -> let a := (n - b)%nat in let h := z a - z n in let H := z 0%nat - z n in
    d (3 * a)%nat == F 0%nat * h / (E * A) /\
    d (3 * a + 1)%nat == F 1%nat * (h * h) * (3 * H - h) / (6 * (E * I)) - F 2%nat * (h * h) / (2 * (E * I)) + shear_flex ty E nu A dd wt * F 1%nat * h /\
    d (3 * a + 2)%nat == F 2%nat * h / (E * I) - F 1%nat * h * (2 * H - h) / (2 * (E * I))).
  { induction b as [|b IH]; intros Hb.
    - cbv zeta. rewrite Nat.sub_0_r, !D0 by lia. split; [|split]; field; auto.
    - cbv zeta in IH |- *. specialize (IH ltac:(lia)). set (a := (n - S b)%nat) in *. replace (n - b)%nat with (S a) in IH by lia. destruct IH as (I0 & I1 & I2).
      destruct (chain ty c E nu n _ _ _ _ z k HE HN HK' d a ltac:(lia)) as (C0 & C2 & C1). cbv zeta in C0, C1, C2. fold R in C0, C1, C2.
      destruct (SE a ltac:(lia)) as (S0 & S1 & S2). rewrite S0, I0 in C0. rewrite S1, S2, I2 in C2. rewrite S1, S2, I1, I2 in C1. rewrite C0, C1, C2.
      split; [|split]; field; auto. }
  intros a Ha. specialize (IND (n - a)%nat ltac:(lia)). cbv zeta in IND. replace (n - (n - a))%nat with a in IND by lia. exact IND.
Qed.
