(** Result tables of analyses that differ along the pile only, or across it only. *)
From Coq Require Import List Bool Arith ZArith QArith Qabs Lia Lqa.
From Verif Require Import Base LinAlg BCModel PileModel StressModel BeamModel SolveModel SolveSpec SolveProofs SpringModel SpringProper WholeModel ApartSpec ApartProofs ApartCalls.
Import ListNotations.
Local Open Scope Q_scope.

Lemma jit_build_uncoupled : forall n k, (forall e, (e < n)%nat -> uncoupled (k e)) -> uncoupled (jit_build n k).
Proof.
  intros n k H i j D. unfold jit_build. apply sum_zero. intros e He. unfold block. destruct (_ && _)%bool eqn:B; [|reflexivity].
  apply andb_true_iff in B. destruct B as [B1 B2]. apply andb_true_iff in B1. apply andb_true_iff in B2. destruct B1 as [B1 _]. destruct B2 as [B2 _]. apply Nat.leb_le in B1. apply Nat.leb_le in B2.
  apply (H e He). rewrite (along_shift e i B1), (along_shift e j B2). exact D.
Qed.

Definition agree3 (D : nat -> bool) (p p' : triple) : Prop := let '(a, b, c) := p in let '(a', b', c') := p' in (D 0%nat = true -> a == a') /\ (D 1%nat = true -> b == b') /\ (D 2%nat = true -> c == c').

Section Tables.
Variable D : nat -> bool.
Hypothesis DC : forall i j, D i <> D j -> along i <> along j.
Hypothesis DM : forall i, D (i mod 3) = D i.

Lemma D_node : forall i c, (c < 3)%nat -> D (3 * i + c) = D c.
Proof using DM. intros i c H. rewrite <- (DM (3 * i + c)). replace (3 * i + c)%nat with (c + i * 3)%nat by lia. rewrite Nat.mod_add by lia. rewrite Nat.mod_small by lia. reflexivity. Qed.

Lemma node_rows_alike : forall m v v', agree (3 * m) D v v' -> Forall2 (agree3 D) (node_rows m v) (node_rows m v').
Proof using DM.
  intros m v v' H. unfold node_rows. assert (L : forall i, In i (seq 0 m) -> (i < m)%nat) by (intros i Hi; apply in_seq in Hi; lia).
  induction (seq 0 m) as [|i t IH]; constructor; [|apply IH; intros; apply L; right; auto]. specialize (L i (or_introl eq_refl)). unfold agree3. repeat split; intros E; apply H; try lia.
  - replace (3 * i)%nat with (3 * i + 0)%nat by lia. rewrite D_node by lia. exact E.
  - rewrite D_node by lia. exact E.
  - rewrite D_node by lia. exact E.
Qed.
Lemma disp_rows_alike : forall z v v', agree (3 * length z) D v v' -> Forall2 (fun q q' => fst q = fst q' /\ agree3 D (snd q) (snd q')) (disp_rows z v) (disp_rows z v').
Proof using DM.
  intros z v v' H. unfold disp_rows. pose proof (node_rows_alike _ v v' H) as N. revert N. generalize (node_rows (length z) v) (node_rows (length z) v'). intros a b N.
  clear H. revert z. induction N as [|x y t t' Hx Ht IH]; intros [|z0 z]; cbn; constructor; auto.
Qed.
Lemma six_alike : forall a a' b b', agree3 D a a' -> agree3 D b b' -> agree 6 D (six (a, b)) (six (a', b')).
Proof using DM.
  intros [[a1 a2] a3] [[a1' a2'] a3'] [[b1 b2] b3] [[b1' b2'] b3'] (A1 & A2 & A3) (B1 & B2 & B3) i Hi Di. rewrite <- DM in Di. unfold six, of_list.
  destruct i as [|[|[|[|[|[|]]]]]]; try lia; cbn in Di |- *; auto.
Qed.
Lemma repeat_inner_alike : forall a b, Forall2 (agree3 D) a b -> Forall2 (agree3 D) (repeat_inner a) (repeat_inner b).
Proof using.
  intros a b H. unfold repeat_inner.
  assert (RL : forall l l', Forall2 (agree3 D) l l' -> Forall2 (agree3 D) (removelast l) (removelast l')) by (intros l l' X; induction X as [|x y t t' Hx Ht IH]; cbn; [constructor|]; destruct Ht; [constructor|]; constructor; auto).
  assert (FM : forall l l', Forall2 (agree3 D) l l' -> Forall2 (agree3 D) (flat_map (fun x => [x; x]) l) (flat_map (fun x => [x; x]) l')) by (intros l l' X; induction X; cbn; repeat (constructor; auto)).
  assert (RV : forall l l', Forall2 (agree3 D) l l' -> Forall2 (agree3 D) (rev l) (rev l')) by (intros l l' X; induction X; cbn; [constructor|]; apply Forall2_app; auto).
  pose proof (RV _ _ H) as R. destruct H as [|x y t t' Hx Ht]; [constructor|]. destruct R as [|x1 y1 t1 t1' Hx1 Ht1]; [constructor|].
  constructor; [exact Hx|]. apply Forall2_app; [|constructor; [exact Hx1|constructor]]. apply FM. unfold inner. cbn [tl]. apply RL. exact Ht.
Qed.
Lemma pair_up_alike : forall a b, Forall2 (agree3 D) a b -> Forall2 (fun p q => agree3 D (fst p) (fst q) /\ agree3 D (snd p) (snd q)) (pair_up a) (pair_up b).
Proof using.
  fix F 3. intros a b H. destruct H as [|x y t t' Hx Ht]; [constructor|]. destruct Ht as [|x1 y1 t1 t1' Hx1 Ht1]; [constructor|]. cbn [pair_up]. constructor; [split; assumption|]. apply F. exact Ht1.
Qed.
Lemma forces_alike : forall m k v v', (forall e, uncoupled (k e)) -> agree (3 * m) D v v' -> Forall2 (agree 6 D) (pile_internal_forces m k v) (pile_internal_forces m k v').
Proof using DC DM.
  intros m k v v' UK H. unfold pile_internal_forces. pose proof (pair_up_alike _ _ (repeat_inner_alike _ _ (node_rows_alike m v v' H))) as P. fold (stacked (node_rows m v)) in P. fold (stacked (node_rows m v')) in P.
  revert P. generalize (stacked (node_rows m v)) (stacked (node_rows m v')) (seq 0 (m - 1)). intros a b s P. revert s. induction P as [|p q t t' [H1 H2] Ht IH]; intros [|e s]; cbn [combine map]; constructor; auto.
  intros i Hi Di. cbn [fst snd]. destruct p as [p1 p2]. destruct q as [q1 q2]. apply Qmult_comp; [reflexivity|]. apply (mulv_alike 6 D DC (k e) (k e)); [|apply six_alike; auto|exact Hi|exact Di].
  split; [apply UK|]. split; [apply UK|]. intros x y _ _. reflexivity.
Qed.
Lemma structural_alike : forall z q q' L, Forall2 (agree 6 D) q q' -> D 1 = D 2 -> Forall2 (fun r r' => fst r = fst r' /\ agree3 D (snd r) (snd r')) (structural_forces z q L) (structural_forces z q' L).
Proof using DM.
  intros z q q' L H E12. unfold structural_forces.
  assert (R : Forall2 (agree3 D) (flat_map (fun ql => force_rows (fst ql) (snd ql)) (combine q L)) (flat_map (fun ql => force_rows (fst ql) (snd ql)) (combine q' L))).
  { revert L. induction H as [|a b t t' Hab Ht IH]; intros [|l L]; cbn [combine flat_map]; [constructor|constructor|constructor|]. apply Forall2_app; [|apply IH].
    assert (X : forall i, (i < 6)%nat -> D i = true -> a i == b i) by exact Hab.
    assert (D3 : D 3 = D 0) by (rewrite <- (DM 3); reflexivity). assert (D4 : D 4 = D 1) by (rewrite <- (DM 4); reflexivity).
    unfold force_rows. cbn [fst snd]. constructor; [|constructor; [|constructor]].
    - unfold agree3. repeat split; intros E; [rewrite (X 0%nat)|rewrite (X 1%nat)|rewrite (X 2%nat)]; try lia; try exact E; reflexivity.
    - unfold agree3. repeat split; intros E; [rewrite (X 3%nat) by (try lia; congruence)|rewrite (X 4%nat) by (try lia; congruence)|rewrite (X 2%nat), (X 1%nat) by (try lia; congruence)]; reflexivity. }
  revert R. generalize (repeat_inner z). generalize (flat_map (fun ql => force_rows (fst ql) (snd ql)) (combine q L)) (flat_map (fun ql => force_rows (fst ql) (snd ql)) (combine q' L)).
  intros a b w R. revert w. induction R; intros [|w0 w]; cbn; constructor; auto.
Qed.

Variables (solve solve' : solver).
Hypothesis SO : solver_ok solve.
Hypothesis SO' : solver_ok solve'.

Lemma beam_alike : forall n k F F' U U' r r' d R q d' R' q', (forall e, uncoupled (k e)) ->
  agree (3 * n + 3) D F F' -> agree (3 * n + 3) D U U' -> held_alike (3 * n + 3) D r r' ->
  beam solve n k F U r = Some (d, R, q) -> beam solve' n k F' U' r' = Some (d', R', q') ->
  agree (3 * n + 3) D d d' /\ agree (3 * n + 3) D R R' /\ Forall2 (agree 6 D) q q'.
Proof using DC DM SO SO'.
  intros n k F F' U U' r r' d R q d' R' q' UK HF HU HR H H'. unfold beam in H, H'.
  destruct (solve_equations solve _ _ F U _) as [[x y]|] eqn:E; [|discriminate H]. destruct (solve_equations solve' _ _ F' U' _) as [[x' y']|] eqn:E'; [|discriminate H'].
  cbn [option_map fst snd] in H, H'. injection H as <- <- <-. injection H' as <- <- <-.
  assert (AK : alike D (jit_build n k) (jit_build n k)) by (split; [|split]; [apply jit_build_uncoupled; intros; apply UK|apply jit_build_uncoupled; intros; apply UK|intros i j _ _; reflexivity]).
  destruct (solve_alike _ D DC solve solve' _ _ SO SO' (supports_alike _ D _ _ _ _ HR HU) _ _ _ _ _ _ _ _ _ _ AK HF HU E E') as [A B].
  split; [exact A|]. split; [exact B|]. apply forces_alike; [exact UK|]. replace (3 * S n)%nat with (3 * n + 3)%nat by lia. exact A.
Qed.
End Tables.

Lemma across_dm : forall i, across (i mod 3) = across i.
Proof. intros i. unfold across. rewrite Nat.mod_mod by lia. reflexivity. Qed.
Lemma along_dm : forall i, along (i mod 3) = along i.
Proof. intros i. unfold along. rewrite Nat.mod_mod by lia. reflexivity. Qed.
