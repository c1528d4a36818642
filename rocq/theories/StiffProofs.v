(** Least potential energy and what follows for stiffer piles. *)
From Coq Require Import List Bool Arith ZArith QArith Qabs Lia Lqa.
From Verif Require Import Base LinAlg PileModel BeamModel BeamProofs SolveModel SolveSpec SolveProofs ForceProofs StiffSpec.
Import ListNotations.
Local Open Scope Q_scope.

Lemma dot_plus_r : forall n u v w, dot n u (fun i => v i + w i) == dot n u v + dot n u w.
Proof. intros. unfold dot. rewrite <- sum_plus. apply sum_ext. intros; ring. Qed.
Lemma dot_plus_l : forall n u v w, dot n (fun i => v i + w i) u == dot n v u + dot n w u.
Proof. intros. unfold dot. rewrite <- sum_plus. apply sum_ext. intros; ring. Qed.

Lemma energy_plus : forall n K u w, symmetric n K -> energy n K (fun i => u i + w i) == energy n K u + 2 * dot n w (mulv n K u) + energy n K w.
Proof.
  intros n K u w SY. unfold energy. rewrite dot_plus_l.
  assert (X : forall v, dot n v (mulv n K (fun i => u i + w i)) == dot n v (mulv n K u) + dot n v (mulv n K w)).
  { intros v. rewrite <- dot_plus_r. apply dot_ext; intros i Hi; [reflexivity|apply mulv_plus]. }
  rewrite !X, (symmetric_work n K u w SY). ring.
Qed.

(** the solution has the least potential energy *)
Lemma least_potential : forall n K F d Q (s : nat -> bool) v, symmetric n K -> psd n K ->
  (forall i, (i < n)%nat -> mulv n K d i == F i + Q i) -> (forall i, (i < n)%nat -> s i = false -> Q i == 0) ->
  (forall i, (i < n)%nat -> s i = true -> v i == d i) -> potential n K F v - potential n K F d == energy n K (fun i => v i - d i).
Proof.
  intros n K F d Q s v SY PS A B C. unfold potential.
  assert (E : energy n K v == energy n K (fun i => d i + (v i - d i))) by (apply energy_ext; intros; [reflexivity|ring]).
  assert (W : dot n (fun i => v i - d i) (mulv n K d) == dot n F v - dot n F d).
  { unfold dot. setoid_replace (sum n (fun i => F i * v i) - sum n (fun i => F i * d i)) with (sum n (fun i => F i * v i - F i * d i)).
    2: { symmetry. rewrite <- sum_minus. reflexivity. }
    apply sum_ext. intros i Hi. rewrite (A i Hi). destruct (s i) eqn:S; [rewrite (C i Hi S); ring|rewrite (B i Hi S); ring]. }
  rewrite E, (energy_plus n K d (fun i => v i - d i) SY), W. ring.
Qed.

Section Piles.
Variables (n : nat).
Let N := (3 * n + 3)%nat.

Definition proper (k : nat -> mat) : Prop := forall e, (e < n)%nat -> symmetric 6 (k e) /\ psd 6 (k e).

Lemma beam_least : forall solve k F U r d Q q v, solver_ok solve -> proper k -> beam solve n k F U r = Some (d, Q, q) -> prescribed N r U v ->
  potential N (jit_build n k) F v - potential N (jit_build n k) F d == energy N (jit_build n k) (fun i => v i - d i).
Proof.
  intros solve k F U r d Q q v SO PR B PV. destruct (beam_sound _ _ _ _ _ _ _ _ _ SO B) as (H1 & H2 & H3).
  apply (least_potential N (jit_build n k) F d Q (supports_of r U)).
  - apply build_symmetric. intros e He. apply (PR e He).
  - apply build_psd. intros e He. apply (PR e He).
  - exact H1.
  - intros i Hi S. unfold supports_of in S. apply orb_false_elim in S. destruct S as [S1 S2]. apply negb_false_iff, Qeq_bool_iff in S2. apply H2; auto.
  - intros i Hi S. unfold supports_of in S. apply orb_prop in S.
    assert (X : r i = true \/ ~ U i == 0). { destruct S as [S|S]; [left; auto|right]. apply negb_true_iff in S. apply Qeq_bool_neq. exact S. }
    rewrite (H3 i Hi X). apply PV; auto.
Qed.

Lemma beam_prescribed : forall solve k F U r d Q q, solver_ok solve -> beam solve n k F U r = Some (d, Q, q) -> prescribed N r U d.
Proof. intros solve k F U r d Q q SO B i Hi S. destruct (beam_sound _ _ _ _ _ _ _ _ _ SO B) as (_ & _ & H3). rewrite (H3 i Hi S). reflexivity. Qed.

(** energy of the solution: work of loads and of reactions *)
Lemma beam_work : forall solve k F U r d Q q, solver_ok solve -> beam solve n k F U r = Some (d, Q, q) ->
  energy N (jit_build n k) d == dot N F d + dot N Q U.
Proof.
  intros solve k F U r d Q q SO B. destruct (beam_sound _ _ _ _ _ _ _ _ _ SO B) as (H1 & H2 & H3).
  unfold energy, dot. rewrite <- sum_plus. apply sum_ext. intros i Hi. unfold N. rewrite (H1 i Hi).
  destruct (r i) eqn:R; [rewrite (H3 i Hi (or_introl R)); ring|].
  destruct (Qeq_dec (U i) 0) as [Z|Z]; [rewrite (H2 i Hi R Z), Z; ring|rewrite (H3 i Hi (or_intror Z)); ring].
Qed.

Lemma stiffer_energy : forall k k' u, stiffer n k k' -> energy N (jit_build n k) u <= energy N (jit_build n k') u.
Proof. intros k k' u ST. unfold N. rewrite !build_energy. apply sum_le. intros e He. apply ST; auto. Qed.

(** stiffer, and held by more supports, under the same loads and the same prescribed displacements *)
Lemma stiffer_potential : forall solve solve' k k' F U r r' d Q q d' Q' q', solver_ok solve -> solver_ok solve' -> proper k -> stiffer n k k' -> more_supports n r r' ->
  beam solve n k F U r = Some (d, Q, q) -> beam solve' n k' F U r' = Some (d', Q', q') ->
  potential N (jit_build n k) F d + energy N (jit_build n k) (fun i => d' i - d i) <= potential N (jit_build n k') F d'.
Proof.
  intros solve solve' k k' F U r r' d Q q d' Q' q' SO SO' PR ST MS B B'.
  assert (PV : prescribed N r U d').
  { intros i Hi S. apply (beam_prescribed _ _ _ _ _ _ _ _ SO' B' i Hi). destruct S as [S|S]; [left; apply MS; auto|right; exact S]. }
  pose proof (beam_least _ _ _ _ _ _ _ _ _ SO PR B PV) as L. pose proof (stiffer_energy k k' d' ST) as SE. unfold potential in *. lra.
Qed.

Lemma dot_zero_r : forall m u v, (forall i, (i < m)%nat -> v i == 0) -> dot m u v == 0.
Proof. intros m u v H. unfold dot. apply sum_zero. intros i Hi. rewrite (H i Hi). ring. Qed.
Lemma dot_zero_l : forall m u v, (forall i, (i < m)%nat -> u i == 0) -> dot m u v == 0.
Proof. intros m u v H. unfold dot. apply sum_zero. intros i Hi. rewrite (H i Hi). ring. Qed.

Lemma stiffer_loads : forall solve solve' k k' F U r r' d Q q d' Q' q', solver_ok solve -> solver_ok solve' -> proper k -> stiffer n k k' -> more_supports n r r' ->
  (forall i, (i < N)%nat -> U i == 0) -> beam solve n k F U r = Some (d, Q, q) -> beam solve' n k' F U r' = Some (d', Q', q') ->
  0 <= dot N F d' /\ dot N F d' + energy N (jit_build n k) (fun i => d' i - d i) <= dot N F d.
Proof.
  intros solve solve' k k' F U r r' d Q q d' Q' q' SO SO' PR ST MS UZ B B'.
  pose proof (stiffer_potential _ _ _ _ _ _ _ _ _ _ _ _ _ _ SO SO' PR ST MS B B') as P. unfold potential in P.
  pose proof (beam_work _ _ _ _ _ _ _ _ SO B) as W. pose proof (beam_work _ _ _ _ _ _ _ _ SO' B') as W'.
  rewrite (dot_zero_r N Q U UZ) in W. rewrite (dot_zero_r N Q' U UZ) in W'.
  pose proof (stiffer_energy k k' d' ST) as SE.
  assert (PS : psd N (jit_build n k)) by (apply build_psd; intros e He; apply (PR e He)). pose proof (PS d') as E0. split; lra.
Qed.

Lemma stiffer_settlements : forall solve solve' k k' F U r r' d Q q d' Q' q', solver_ok solve -> solver_ok solve' -> proper k -> stiffer n k k' -> more_supports n r r' ->
  (forall i, (i < N)%nat -> F i == 0) -> beam solve n k F U r = Some (d, Q, q) -> beam solve' n k' F U r' = Some (d', Q', q') ->
  0 <= dot N Q U /\ dot N Q U <= dot N Q' U.
Proof.
  intros solve solve' k k' F U r r' d Q q d' Q' q' SO SO' PR ST MS FZ B B'.
  pose proof (stiffer_potential _ _ _ _ _ _ _ _ _ _ _ _ _ _ SO SO' PR ST MS B B') as P. unfold potential in P.
  pose proof (beam_work _ _ _ _ _ _ _ _ SO B) as W. pose proof (beam_work _ _ _ _ _ _ _ _ SO' B') as W'.
  rewrite (dot_zero_l N F _ FZ) in W, P. rewrite (dot_zero_l N F _ FZ) in W', P.
  assert (PS : psd N (jit_build n k)) by (apply build_psd; intros e He; apply (PR e He)). pose proof (PS d) as E0. pose proof (PS (fun i => d' i - d i)) as E1. split; lra.
Qed.

Lemma dot_single : forall m F v i, (i < m)%nat -> (forall j, (j < m)%nat -> j <> i -> F j == 0) -> dot m F v == F i * v i.
Proof.
  intros m F v i Hi Z. unfold dot. rewrite <- (sum_delta m i (fun j => F j * v j) Hi). apply sum_ext. intros j Hj.
  destruct (Nat.eqb j i) eqn:E; [reflexivity|]. apply Nat.eqb_neq in E. rewrite (Z j Hj E). ring.
Qed.

Lemma abs_le_from : forall f x y, ~ f == 0 -> 0 <= f * x -> f * x <= f * y -> Qabs x <= Qabs y.
Proof.
  intros f x y NZ H H'. assert (P : Qabs (f * x) <= Qabs (f * y)) by (rewrite !Qabs_pos by lra; exact H').
  rewrite !Qabs_Qmult in P. apply (Qmult_le_l (Qabs x) (Qabs y) (Qabs f)); auto.
  destruct (Qlt_le_dec 0 (Qabs f)) as [?|L]; auto. exfalso. apply NZ.
  assert (Z : Qabs f == 0) by (apply Qle_antisym; [exact L|apply Qabs_nonneg]). revert Z. apply Qabs_case; intros; lra.
Qed.
End Piles.

(** ** Elements *)
Lemma quotient_le : forall a b c d, 0 < b -> 0 < d -> a * d <= c * b -> a / b <= c / d.
Proof.
  intros a b c d B D H. apply Qle_shift_div_r; auto. setoid_replace (c / d * b) with (c * b / d) by (field; apply pos_nonzero; auto).
  apply Qle_shift_div_l; auto.
Qed.

Lemma mech_stiffer : forall E I A E' I' A' L phi phi' u, 0 < L -> 0 <= phi -> 0 <= phi' -> A * E <= A' * E' -> E * I <= E' * I' ->
  E * I * (1 + phi') <= E' * I' * (1 + phi) -> energy 6 (mech_phi E I A L phi) u <= energy 6 (mech_phi E' I' A' L phi') u.
Proof.
  intros E I A E' I' A' L phi phi' u HL P P' HA HB HS. rewrite !mech_bending by (apply pos_nonzero; lra).
  assert (HL3 : 0 < L * L * L) by (repeat apply mul_pos; auto).
  pose proof (square_nonneg (u 0%nat - u 3%nat)) as S1. pose proof (square_nonneg (u 2%nat - u 5%nat)) as S2.
  pose proof (square_nonneg (u 1%nat - u 4%nat + L * (1#2) * (u 2%nat + u 5%nat))) as S3.
  assert (X1 : A * E / L <= A' * E' / L) by (apply quotient_le; auto; apply Qmult_le_compat_r; lra).
  assert (X2 : E * I / L <= E' * I' / L) by (apply quotient_le; auto; apply Qmult_le_compat_r; lra).
  assert (X3 : 12 * E * I / ((1 + phi) * (L * L * L)) <= 12 * E' * I' / ((1 + phi') * (L * L * L))).
  { apply quotient_le; [apply mul_pos; lra|apply mul_pos; lra|].
    setoid_replace (12 * E * I * ((1 + phi') * (L * L * L))) with (12 * (L * L * L) * (E * I * (1 + phi'))) by ring.
    setoid_replace (12 * E' * I' * ((1 + phi) * (L * L * L))) with (12 * (L * L * L) * (E' * I' * (1 + phi))) by ring.
    apply Qmult_le_l; auto. apply mul_pos; lra. }
  pose proof (Qmult_le_compat_r _ _ _ X1 S1). pose proof (Qmult_le_compat_r _ _ _ X2 S2). pose proof (Qmult_le_compat_r _ _ _ X3 S3). lra.
Qed.
