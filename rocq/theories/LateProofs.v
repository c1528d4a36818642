From Coq Require Import List Bool Arith ZArith QArith Qabs Qround Qreals Reals Lia Lqa Lra Psatz.
From Verif Require Import Base LinAlg PileModel BeamProofs SolveModel SolveSpec SolveProofs SpringModel WinklerModel LateModel LateSpec.
Import ListNotations.
Local Open Scope Q_scope.

(** ** Rounding of a square root *)
Lemma root_floor : forall q, 0 <= q -> let f := Z.sqrt (Qfloor q) in (0 <= f)%Z /\ inject_Z f * inject_Z f <= q /\ q < (inject_Z f + 1) * (inject_Z f + 1).
Proof.
  intros q P f. assert (F0 : (0 <= Qfloor q)%Z) by (change 0%Z with (Qfloor 0); apply Qfloor_resp_le; exact P).
  destruct (Z.sqrt_spec _ F0) as [A B]. fold f in A, B. pose proof (Z.sqrt_nonneg (Qfloor q)) as C. fold f in C.
  split; [exact C|]. pose proof (Qfloor_le q) as L1. pose proof (Qlt_floor q) as L2. split.
  - rewrite <- inject_Z_mult. apply Qle_trans with (inject_Z (Qfloor q)); [|exact L1]. rewrite <- Zle_Qle. exact A.
  - apply Qlt_le_trans with (inject_Z (Qfloor q + 1)); [exact L2|]. change 1 with (inject_Z 1). rewrite <- inject_Z_plus, <- inject_Z_mult, <- Zle_Qle. unfold Z.succ in B. lia.
Qed.

Lemma Qltb_reflect : forall a b, (Qltb a b = true /\ a < b) \/ (Qltb a b = false /\ b <= a).
Proof.
  intros a b. destruct (Qltb a b) eqn:E; [left|right]; (split; [reflexivity|]).
  - apply Qltb_true. exact E.
  - apply Qltb_false. exact E.
Qed.

Lemma rint_root_bounds : forall q, 0 <= q -> let k := rint_root q in
  (0 <= k)%Z /\ q <= (inject_Z k + (1#2)) * (inject_Z k + (1#2)) /\ ((1 <= k)%Z -> (inject_Z k - (1#2)) * (inject_Z k - (1#2)) <= q).
Proof.
  intros q P. cbv zeta. unfold rint_root. destruct (root_floor q P) as (A & B & C). set (f := Z.sqrt (Qfloor q)) in *.
  assert (A' : 0 <= inject_Z f) by (change 0 with (inject_Z 0); rewrite <- Zle_Qle; exact A).
  set (x := inject_Z f) in *. assert (X1 : inject_Z (f + 1) == x + 1) by (rewrite inject_Z_plus; reflexivity).
  assert (UP : (x + (1#2)) * (x + (1#2)) <= q -> (0 <= f + 1)%Z /\ q <= (inject_Z (f + 1) + (1 # 2)) * (inject_Z (f + 1) + (1 # 2)) /\
    ((1 <= f + 1)%Z -> (inject_Z (f + 1) - (1 # 2)) * (inject_Z (f + 1) - (1 # 2)) <= q)).
  { intros H. split; [lia|]. split; [|intros _].
    - assert (E : (inject_Z (f + 1) + (1 # 2)) * (inject_Z (f + 1) + (1 # 2)) == (x + 1) * (x + 1) + x + (5#4)) by (rewrite X1; ring). rewrite E. Lqa.lra.
    - assert (E : (inject_Z (f + 1) - (1 # 2)) * (inject_Z (f + 1) - (1 # 2)) == (x + (1#2)) * (x + (1#2))) by (rewrite X1; ring). rewrite E. exact H. }
  assert (DN : q <= (x + (1#2)) * (x + (1#2)) -> (0 <= f)%Z /\ q <= (x + (1 # 2)) * (x + (1 # 2)) /\ ((1 <= f)%Z -> (x - (1 # 2)) * (x - (1 # 2)) <= q)).
  { intros H. split; [exact A|]. split; [exact H|]. intros F1. assert (1 <= x) by (unfold x; change 1 with (inject_Z 1); rewrite <- Zle_Qle; exact F1).
    assert (E : (x - (1 # 2)) * (x - (1 # 2)) == x * x - x + (1#4)) by ring. rewrite E. Lqa.lra. }
  destruct (Qltb_reflect q ((x + (1 # 2)) * (x + (1 # 2)))) as [[-> H]|[-> H]]; [apply DN; Lqa.lra|].
  destruct (Qltb_reflect ((x + (1 # 2)) * (x + (1 # 2))) q) as [[-> H2]|[-> H2]]; [apply UP; exact H|].
  destruct (Z.even f); [apply DN; exact H2|apply UP; exact H].
Qed.

Lemma Qltb_comp : forall a b c d, a == c -> b == d -> Qltb a b = Qltb c d.
Proof.
  intros a b c d E1 E2. destruct (Qltb_reflect a b) as [[-> H]|[-> H]], (Qltb_reflect c d) as [[-> H2]|[-> H2]]; auto; exfalso; Lqa.lra.
Qed.

Lemma rint_root_comp : forall a b, a == b -> rint_root a = rint_root b.
Proof.
  intros a b E. unfold rint_root. rewrite (Qfloor_comp a b E).
  rewrite (Qltb_comp a _ b _ E (Qeq_refl _)), (Qltb_comp _ a _ b (Qeq_refl _) E). reflexivity.
Qed.

Lemma rint_root_mono : forall a b, 0 <= a -> a <= b -> (rint_root a <= rint_root b)%Z.
Proof.
  intros a b P L. destruct (rint_root_bounds a P) as (A1 & A2 & A3). destruct (rint_root_bounds b (Qle_trans _ _ _ P L)) as (B1 & B2 & B3).
  set (k := rint_root a) in *. set (m := rint_root b) in *. destruct (Z_le_gt_dec k m) as [|G]; [assumption|].
  assert (K1 : (m + 1 <= k)%Z) by lia. specialize (A3 ltac:(lia)).
  assert (M0 : 0 <= inject_Z m) by (change 0 with (inject_Z 0); rewrite <- Zle_Qle; exact B1).
  assert (KM : inject_Z m + 1 <= inject_Z k) by (change 1 with (inject_Z 1); rewrite <- inject_Z_plus, <- Zle_Qle; exact K1).
  assert (SQ : (inject_Z m + (1#2)) * (inject_Z m + (1#2)) <= (inject_Z k - (1#2)) * (inject_Z k - (1#2))).
  { set (u := inject_Z m) in *. set (v := inject_Z k) in *. assert (0 <= (v - u - 1) * (v + u)) by (apply Qmult_le_0_compat; Lqa.lra).
    assert (E : (v - (1#2)) * (v - (1#2)) - (u + (1#2)) * (u + (1#2)) == (v - u - 1) * (v + u)) by ring. Lqa.lra. }
  assert (E : a == b) by Lqa.lra. exfalso. pose proof (rint_root_comp a b E) as R. fold k m in R. lia.
Qed.

Lemma shown_mono : forall a b, 0 <= a -> a <= b -> shown a <= shown b.
Proof.
  intros a b P L. unfold shown. apply Qmult_le_compat_r; [|discriminate].
  rewrite <- Zle_Qle. apply rint_root_mono; [Lqa.lra|Lqa.lra].
Qed.

Lemma shown_zero : forall q, 0 <= q -> q < 25 # 100000000 -> shown q == 0.
Proof.
  intros q P L. unfold shown. destruct (rint_root_bounds (q * 1000000)) as (A & B & C); [Lqa.lra|].
  assert (E : rint_root (q * 1000000) = 0%Z); [|rewrite E; reflexivity].
  destruct (Z_le_gt_dec 1 (rint_root (q * 1000000))) as [G|G]; [|lia]. specialize (C G). exfalso.
  set (x := inject_Z (rint_root (q * 1000000))) in *. assert (1 <= x) by (unfold x; change 1 with (inject_Z 1); rewrite <- Zle_Qle; exact G).
  assert (0 <= (x - 1) * x) by (apply Qmult_le_0_compat; Lqa.lra). assert (E : (x - (1 # 2)) * (x - (1 # 2)) == (x - 1) * x + (1#4)) by ring. Lqa.lra.
Qed.

Lemma shown_spec : forall q, 0 <= q -> to_three_decimals q (shown q).
Proof.
  intros q P. split; [exists (rint_root (q * 1000000)); reflexivity|].
  destruct (rint_root_bounds (q * 1000000)) as (A & B & C); [Lqa.lra|]. unfold shown. set (k := rint_root (q * 1000000)) in *.
  apply Qle_Rle in B. rewrite !Q2R_mult, Q2R_plus in B.
  assert (EK : Q2R (inject_Z k / 1000) = (Q2R (inject_Z k) / 1000)%R).
  { unfold Qdiv. rewrite Q2R_mult, Q2R_inv by discriminate. unfold Rdiv. f_equal. f_equal. unfold Q2R. cbn. Lra.lra. }
  rewrite EK. assert (H12 : Q2R (1 # 2) = (/ 2)%R) by (unfold Q2R; cbn; Lra.lra). assert (HM : Q2R 1000000 = 1000000%R) by (unfold Q2R; cbn; Lra.lra).
  rewrite H12, HM in B. assert (PR : (0 <= Q2R q)%R) by (replace 0%R with (Q2R 0) by (unfold Q2R; cbn; Lra.lra); apply Qle_Rle; exact P).
  assert (K0 : (0 <= Q2R (inject_Z k))%R) by (replace 0%R with (Q2R 0) by (unfold Q2R; cbn; Lra.lra); apply Qle_Rle; change 0%Q with (inject_Z 0); rewrite <- Zle_Qle; exact A).
  pose proof (sqrt_pos (Q2R q)) as S0. pose proof (sqrt_sqrt (Q2R q) PR) as SS. set (s := sqrt (Q2R q)) in *. set (x := Q2R (inject_Z k)) in *.
  assert (U : (1000 * s <= x + / 2)%R) by nra.
  assert (L : (x - / 2 <= 1000 * s)%R).
  { destruct (Z_le_gt_dec 1 k) as [G|G].
    - specialize (C G). apply Qle_Rle in C. unfold Qminus in C. rewrite !Q2R_mult, Q2R_plus, Q2R_opp, H12, HM in C. fold x in C. assert (1 <= x)%R.
      { unfold x. replace 1%R with (Q2R 1) by (unfold Q2R; cbn; Lra.lra). apply Qle_Rle. change 1%Q with (inject_Z 1). rewrite <- Zle_Qle. exact G. }
      nra.
    - assert (K : k = 0%Z) by lia. unfold x. rewrite K. replace (Q2R (inject_Z 0)) with 0%R by (unfold Q2R; cbn; Lra.lra). Lra.lra. }
  unfold Rabs. destruct (Rcase_abs (x / 1000 - s)); Lra.lra.
Qed.

(** ** The two loops *)
Section Loop.
Variables (solve : solver) (n : nat) (build : vec -> kind -> res mat).
Variables (F U0 : vec) (supports : nat -> bool) (ask : nat -> option narray).

(** [N] is max_iter + 1 *)
Definition same_reactions (R : option vec) (R' : narray) : Prop :=
  match R with Some V => forall i, R' i = Some (V i) | None => forall i, R' i = None end.
Definition alike (o : outcome) (p : report) : Prop :=
  p_d p = o_d o /\ p_iter p = o_iter o /\ p_err p = o_err o /\ p_tol p = o_tol o /\ same_reactions (o_Q o) (p_Q p) /\
  (o_d o = None -> o_Q o = None /\ (o_iter o < 100)%nat /\ o_tol o = None).
Definition raised_late (N : nat) (p : report) : Prop :=
  (100 <= p_iter p < N)%nat /\ ask (p_iter p) = None /\ (forall i, p_Q p i = None) /\ p_tol p = None.
Definition beyond (N : nat) (o : outcome) (p : report) : Prop :=
  o_iter o = 100%nat /\ o_d o = None /\ o_Q o = None /\ p_d p = None /\ (100 <= N)%nat /\
  (forall j, (100 <= j < p_iter p)%nat -> ask j <> None) /\
  (raised_late N p \/
   (p_iter p = N /\ ((N = 100%nat /\ (forall i, p_Q p i = None) /\ p_err p <> None /\ p_tol p <> None) \/
                     (100 < N)%nat /\ ask (N - 1)%nat = Some (p_Q p) /\ p_err p = None /\ p_tol p = late_tol n F (p_Q p)))).

Lemma late_end : forall fuel iter R err tol, (100 <= iter)%nat ->
  (iter = 100%nat -> (forall i, R i = None) /\ err <> None /\ tol <> None) ->
  ((100 < iter)%nat -> ask (iter - 1)%nat = Some R /\ err = None /\ tol = late_tol n F R) ->
  (forall j, (100 <= j < iter)%nat -> ask j <> None) ->
  let p := late n F ask fuel iter R err tol in
  p_d p = None /\ (forall j, (100 <= j < p_iter p)%nat -> ask j <> None) /\
  (raised_late (iter + fuel) p \/
   (p_iter p = iter + fuel /\ ((iter + fuel = 100 /\ (forall i, p_Q p i = None) /\ p_err p <> None /\ p_tol p <> None) \/
      (100 < iter + fuel) /\ ask (iter + fuel - 1) = Some (p_Q p) /\ p_err p = None /\ p_tol p = late_tol n F (p_Q p))))%nat.
Proof.
  induction fuel as [|f IH]; intros iter R err tol L E0 E1 EA p; unfold p; cbn [late].
  - cbn [p_d p_Q p_iter p_err p_tol]. split; [reflexivity|]. split; [exact EA|]. right. split; [lia|]. rewrite Nat.add_0_r.
    destruct (Nat.eq_dec iter 100) as [E|NE]; [left; destruct (E0 E) as (A & B & C); auto|right]. destruct (E1 ltac:(lia)) as (A & B & C). repeat split; auto; lia.
  - destruct (ask iter) as [R'|] eqn:A.
    + replace (iter + S f)%nat with (S iter + f)%nat by lia. apply IH; [lia|intros X; lia| |].
      * intros _. replace (S iter - 1)%nat with iter by lia. auto.
      * intros j Hj. destruct (Nat.eq_dec j iter) as [->|]; [rewrite A; discriminate|apply EA; lia].
    + cbn [p_d p_iter]. split; [reflexivity|]. split; [exact EA|]. left. unfold raised_late. cbn [p_iter p_Q p_tol]. repeat split; auto; lia.
Qed.

Definition follows (R : option vec) (R' : narray) : Prop := match R with Some V => R' = numbers V | None => R' = not_numbers end.

Lemma passes_loop : forall fuel iter d U K Rg R tol last, (iter < 100)%nat ->
  o_d last = Some d -> o_iter last = iter -> o_err last = Some (free_norm2 n supports Rg) -> o_tol last = tol -> follows (o_Q last) R ->
  match loop solve n build F U0 supports fuel iter d U K Rg last, passes solve n build F U0 supports ask fuel iter d U K Rg R tol with
  | Ok o, Ok p => alike o p \/ beyond (iter + fuel) o p
  | Err e, Err e' => e = e'
  | _, _ => False
  end.
Proof.
  induction fuel as [|f IH]; intros iter d U K Rg R tol last IT ED EI EE ET EQ.
  - cbn [loop passes]. left. unfold alike. cbn [p_d p_iter p_err p_tol p_Q]. rewrite ED, EI, EE, ET. refine (conj eq_refl (conj eq_refl (conj eq_refl (conj eq_refl (conj _ _))))); [|discriminate].
    unfold follows in EQ. unfold same_reactions. destruct (o_Q last); subst R; reflexivity.
  - cbn [loop passes]. destruct (solve_equations solve n K Rg U supports) as [[u_inc R1]|].
    2:{ left. unfold alike. cbn. rewrite EE. repeat split. exact IT. }
    cbv zeta. set (d' := fun i => d i + u_inc i). destruct (build d' Secant) as [Ks|e]; cbn [bind]; [|reflexivity].
    set (Rg' := fun i => F i - R1 i + - mulv n Ks d' i). destruct (Qltb (free_norm2 n supports Rg') (tol2 n F R1) && (1 <? S iter)%nat).
    + destruct (solve_equations solve n Ks F U0 supports) as [[V Rf]|]; [|reflexivity]. left. unfold alike. cbn. refine (conj eq_refl (conj eq_refl (conj eq_refl (conj eq_refl (conj (fun _ => eq_refl) _))))). discriminate.
    + destruct (Nat.eqb_spec (S iter) 100) as [E|NE].
      * right. unfold beyond. cbn [o_iter o_d o_Q].
        destruct (late_end f (S iter) not_numbers (Some (free_norm2 n supports Rg')) (Some (tol2 n F R1))) as (A & B & C);
          [lia|intros _; split; [reflexivity|split; discriminate]|intros X; lia|intros j Hj; lia|].
        replace (iter + S f)%nat with (S iter + f)%nat by lia. repeat split; auto; lia.
      * destruct (build d' Tangent) as [K'|e]; cbn [bind]; [|reflexivity].
        replace (iter + S f)%nat with (S iter + f)%nat by lia. apply IH; [lia|reflexivity|reflexivity|reflexivity|reflexivity|reflexivity].
Qed.

Lemma run_winkler : forall m, match winkler solve n build F U0 supports m, run solve n build F U0 supports ask (Z.of_nat m) with
  | Ok o, Ok p => alike o p \/ beyond (S m) o p
  | Err e, Err e' => e = e'
  | _, _ => False
  end.
Proof.
  intros m. unfold winkler, run. destruct (build zero Initial) as [K|e]; cbn [bind]; [|reflexivity].
  replace (Z.of_nat m <? 0)%Z with false by (symmetry; apply Z.ltb_ge; lia). rewrite Nat2Z.id.
  apply passes_loop; [lia|reflexivity|reflexivity|reflexivity|reflexivity|reflexivity].
Qed.
End Loop.

Lemma no_rows : forall z R, (forall i, R i = None) -> late_reactions z R = [].
Proof.
  intros z R H. unfold late_reactions, nrows.
  set (g := fun i : nat => (R (3 * i)%nat, R (3 * i + 1)%nat, R (3 * i + 2)%nat)).
  assert (G : forall l a, In (a, l) (combine z (map g (seq 0 (length z)))) -> l = (None, None, None)).
  { intros l a I. apply in_combine_r in I. apply in_map_iff in I. destruct I as (i & <- & _). unfold g. rewrite !H. reflexivity. }
  revert G. generalize (combine z (map g (seq 0 (length z)))). induction l as [|[a [[x y] w]] t IH]; intros G; [reflexivity|].
  pose proof (G _ a (or_introl eq_refl)) as E. injection E as -> -> ->. cbn. apply IH. intros l b I. apply (G l b). right. exact I.
Qed.

Lemma number_rows : forall z V R, (forall i, R i = Some (V i)) ->
  late_reactions z R = map (fun r => let '(a, (x, y, w)) := r in (a, (Some x, Some y, Some w))) (reaction_rows (disp_rows z V)).
Proof.
  intros z V R H. unfold late_reactions, nrows, reaction_rows, disp_rows, node_rows. generalize (seq 0 (length z)).
  induction z as [|a z IH]; intros [|i l]; try reflexivity. cbn [combine map filter]. rewrite !H. cbn [nmask option_map nbig].
  destruct (big (mask (V (3 * i)%nat)) || big (mask (V (3 * i + 1)%nat)) || big (mask (V (3 * i + 2)%nat)));
    [cbn [map]; f_equal; [apply IH]|apply IH].
Qed.
