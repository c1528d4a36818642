From Coq Require Import List Bool Arith ZArith QArith Qabs Qminmax Lia Lqa Setoid.
From Verif Require Import Base LinAlg PileModel BeamModel BeamProofs SolveModel SolveSpec SolveProofs ForceProofs SpringModel SpringSpec.
Import ListNotations.
Local Open Scope Q_scope.

(** ** double_inner *)

Lemma upd_length : forall l i v, length (upd l i v) = length l.
Proof. induction l as [|x l IH]; intros [|i] v; simpl; auto. Qed.

Lemma upd_nth : forall l i v p, nth p (upd l i v) 0 = if (Nat.eqb p i && (i <? length l)%nat)%bool then v else nth p l 0.
Proof.
  induction l as [|x l IH]; intros [|i] v [|p]; cbn [upd nth length]; try rewrite andb_false_r; try reflexivity.
  rewrite IH. reflexivity.
Qed.

(** value expected at position [p] *)
Definition doubled (a : list Q) (p : nat) : Q :=
  if Nat.eqb p (2 * (length a - 1) - 1) then nth (length a - 2) a 0 else nth ((p + 1) / 2)%nat a 0.

Lemma half_odd : forall j, ((2 * j + 1 + 1) / 2 = S j)%nat.
Proof. intros. replace (2 * j + 1 + 1)%nat with (S j * 2)%nat by lia. apply Nat.div_mul. lia. Qed.
Lemma half_even : forall j, ((2 * j + 1 + 1 + 1) / 2 = S j)%nat.
Proof. intros. replace (2 * j + 1 + 1 + 1)%nat with (1 + S j * 2)%nat by lia. rewrite Nat.div_add by lia. reflexivity. Qed.

Lemma loop_inv : forall fuel a i out, (2 <= length a)%nat -> length out = (2 * (length a - 1))%nat ->
  (exists j, i = (2 * j + 1)%nat) \/ i = length out ->
  (i <= length out)%nat -> (length out + 2 <= i + fuel)%nat ->
  (forall p, (p < i)%nat -> nth p out 0 = doubled a p) ->
  length (double_loop fuel a i out) = length out /\
  forall p, (p < length out)%nat -> nth p (double_loop fuel a i out) 0 = doubled a p.
Proof.
  induction fuel as [|f IH]; intros a i out HA HO HI HL HF HP; [lia|]. cbn [double_loop].
  rewrite (proj2 (Nat.ltb_lt i (length out + 1))) by lia.
  destruct (Nat.eqb_spec i 0) as [->|N0]; [destruct HI as [[j Hj]|]; lia|].
  destruct (Nat.eqb_spec i (length out)) as [E1|N1].
  - (* final out-of-range write *)
    destruct f as [|f]; cbn [double_loop].
    + rewrite upd_length. split; auto. intros p Hp. rewrite upd_nth. rewrite (proj2 (Nat.ltb_ge i (length out))) by lia.
      rewrite andb_false_r. apply HP. lia.
    + rewrite (proj2 (Nat.ltb_ge (S i) (length (upd out i (nth (length a - 1) a 0)) + 1))) by (rewrite upd_length; lia).
      rewrite upd_length. split; auto. intros p Hp. rewrite upd_nth. rewrite (proj2 (Nat.ltb_ge i (length out))) by lia.
      rewrite andb_false_r. apply HP. lia.
  - destruct (Nat.eqb_spec i (length out - 1)) as [E2|N2].
    + rewrite <- (upd_length out i (nth (length a - 2) a 0)). apply IH; auto; try (rewrite upd_length; lia).
      * intros p Hp. rewrite upd_nth. rewrite (proj2 (Nat.ltb_lt i (length out))) by lia. rewrite andb_true_r.
        destruct (Nat.eqb_spec p i) as [->|].
        -- unfold doubled. rewrite (proj2 (Nat.eqb_eq i _)) by lia. reflexivity.
        -- apply HP. lia.
    + destruct HI as [[j Hj]|]; [|lia].
      assert (O : Nat.odd i = true) by (rewrite Hj; apply Nat.odd_spec; exists j; lia). rewrite O. cbv zeta.
      set (x := ((i + 1) / 2)%nat). assert (X : x = S j) by (unfold x; rewrite Hj; apply half_odd). clearbody x. subst x.
      rewrite <- (upd_length out i (nth (S j) a 0)). rewrite <- (upd_length (upd out i (nth (S j) a 0)) (i + 1) (nth (S j) a 0)).
      apply IH; auto; try (rewrite !upd_length; lia).
      * left. exists (S j). lia.
      * intros p Hp. rewrite !upd_nth, !upd_length.
        rewrite (proj2 (Nat.ltb_lt i (length out))), (proj2 (Nat.ltb_lt (i + 1) (length out))) by lia. rewrite !andb_true_r.
        assert (DD : forall q, (q = i \/ q = i + 1)%nat -> doubled a q = nth (S j) a 0).
        { intros q Hq. unfold doubled. destruct (Nat.eqb_spec q (2 * (length a - 1) - 1)) as [E|_].
          - assert (Q2 : (S j = length a - 2)%nat) by lia. rewrite Q2. reflexivity.
          - destruct Hq as [->| ->]; rewrite Hj; [rewrite half_odd|rewrite half_even]; reflexivity. }
        destruct (Nat.eqb_spec p (i + 1)); [symmetry; apply DD; auto|].
        destruct (Nat.eqb_spec p i); [symmetry; apply DD; auto|]. apply HP. lia.
Qed.

Lemma double_inner_spec : forall a, (2 <= length a)%nat ->
  length (double_inner a) = (2 * (length a - 1))%nat /\
  forall p, (p < 2 * (length a - 1))%nat -> nth p (double_inner a) 0 = doubled a p.
Proof.
  intros a H. unfold double_inner. set (out := repeat 0 (2 * (length a - 1))).
  assert (LO : length out = (2 * (length a - 1))%nat) by apply repeat_length.
  replace (2 * length a + 2)%nat with (S (2 * length a + 1)) by lia. cbn [double_loop].
  rewrite (proj2 (Nat.ltb_lt 0 (length out + 1))) by lia. cbn [Nat.eqb].
  rewrite <- LO. rewrite <- (upd_length out 0 (nth 0 a 0)).
  apply loop_inv; auto; try (rewrite upd_length; lia).
  - left. exists 0%nat. reflexivity.
  - intros p Hp. assert (p = 0%nat) by lia. subst p. rewrite upd_nth. rewrite (proj2 (Nat.ltb_lt 0 (length out))) by lia. cbn [Nat.eqb andb].
    unfold doubled. destruct (Nat.eqb_spec 0 (2 * (length a - 1) - 1)); [lia|]. reflexivity.
Qed.

Lemma top_bottom_index : forall e, ((2 * e + 1) / 2 = e)%nat /\ ((2 * e + 1 + 1) / 2 = S e)%nat.
Proof.
  intros e. split; [|apply half_odd]. replace (2 * e + 1)%nat with (1 + e * 2)%nat by lia. rewrite Nat.div_add by lia. reflexivity.
Qed.

(** The springs of every element but the bottom one of the last see their own node. *)
Lemma own_node : forall a n e j, length a = S n -> (e < n)%nat -> (j < 2)%nat -> ~ (e = (n - 1)%nat /\ j = 1%nat) ->
  nth (2 * e + j) (double_inner a) 0 = nth (e + j) a 0.
Proof.
  intros a n e j LA He Hj NL. destruct (double_inner_spec a) as [_ D]; [lia|]. rewrite D by lia. unfold doubled.
  destruct (Nat.eqb_spec (2 * e + j) (2 * (length a - 1) - 1)); [exfalso; apply NL; lia|].
  destruct (top_bottom_index e) as [T B]. destruct j as [|[|]]; try lia.
  - rewrite Nat.add_0_r, T, Nat.add_0_r. reflexivity.
  - rewrite B. replace (e + 1)%nat with (S e) by lia. reflexivity.
Qed.

Lemma last_spring_node : forall a n, length a = S n -> (1 <= n)%nat ->
  nth (2 * (n - 1) + 1) (double_inner a) 0 = nth (n - 1) a 0.
Proof.
  intros a n LA Hn. destruct (double_inner_spec a) as [_ D]; [lia|]. rewrite D by lia. unfold doubled.
  rewrite (proj2 (Nat.eqb_eq _ _)) by lia. replace (length a - 2)%nat with (n - 1)%nat by lia. reflexivity.
Qed.

Lemma double_inner_repeat : forall a n, length a = S n -> (1 <= n)%nat ->
  (double_inner a = repeat_inner a <-> nth (n - 1) a 0 = nth n a 0).
Proof.
  intros a n LA Hn. destruct (double_inner_spec a) as [L D]; [lia|].
  pose proof (repeat_inner_length a n LA Hn) as LR.
  split.
  - intros E. rewrite <- (last_spring_node a n LA Hn), E.
    destruct (repeat_inner_nth a 0 n (n - 1) LA ltac:(lia)) as [_ R]. rewrite R. f_equal. lia.
  - intros E. apply nth_ext with (d := 0) (d' := 0); [lia|]. intros p Hp. rewrite L in Hp.
    destruct (Nat.Even_or_Odd p) as [[e ->]|[e ->]].
    + destruct (repeat_inner_nth a 0 n e LA ltac:(lia)) as [R _]. rewrite R.
      rewrite <- (Nat.add_0_r (2 * e)). rewrite (own_node a n e 0) by lia. f_equal. lia.
    + destruct (repeat_inner_nth a 0 n e LA ltac:(lia)) as [_ R]. rewrite R.
      destruct (Nat.eq_dec e (n - 1)) as [->|NE].
      * rewrite (last_spring_node a n LA Hn), E. f_equal. lia.
      * rewrite (own_node a n e 1) by lia. f_equal. lia.
Qed.

(** ** Interpolation *)

Lemma interp_one : forall x p, interp x [p] = snd p.
Proof. intros x [a b]. reflexivity. Qed.

Lemma interp_cons : forall x x0 y0 x1 y1 t, interp x ((x0, y0) :: (x1, y1) :: t) =
  if Qltb x x1 then (if Qltb x x0 then y0 else y0 + (y1 - y0) / (x1 - x0) * (x - x0)) else interp x ((x1, y1) :: t).
Proof. reflexivity. Qed.

Lemma interp_on_curve : forall c d, c <> [] -> ordered c -> on_curve c d (interp d c).
Proof.
  (* find the segment *)
  assert (P : forall c d, c <> [] -> ordered c -> fst (point c 0) <= d ->
     (exists j, (S j < length c)%nat /\ fst (point c j) < fst (point c (S j)) /\ fst (point c j) <= d /\ d <= fst (point c (S j)) /\
        (interp d c - snd (point c j)) * (fst (point c (S j)) - fst (point c j)) == (snd (point c (S j)) - snd (point c j)) * (d - fst (point c j))) \/
     (fst (point c (length c - 1)) <= d /\ interp d c == snd (point c (length c - 1)))).
  { induction c as [|[x0 y0] t IH]; intros d NE OR F; [contradiction|]. destruct t as [|[x1 y1] t].
    - right. unfold point in *. cbn in *. split; auto. reflexivity.
    - rewrite interp_cons. unfold point in F. cbn [nth fst] in F. cbn [ordered] in OR. destruct OR as [O1 O2].
      destruct (Qltb d x1) eqn:E1.
      + apply Qltb_true in E1. destruct (Qltb d x0) eqn:E0; [apply Qltb_true in E0; lra|].
        left. exists 0%nat. split; [simpl; lia|]. unfold point. cbn [nth fst snd]. repeat split; try lra. field. lra.
      + apply Qltb_false in E1. destruct (IH d ltac:(discriminate) O2 E1) as [(j & A & B & C & D & E)|[A B]].
        * left. exists (S j). split; [simpl in *; lia|]. auto.
        * right. replace (length ((x0, y0) :: (x1, y1) :: t) - 1)%nat with (S (length ((x1, y1) :: t) - 1)) by (simpl; lia). auto. }
  intros c d NE OR. destruct (Qlt_le_dec d (fst (point c 0))) as [L|L].
  - right. left. split; [lra|]. destruct c as [|[x0 y0] [|[x1 y1] t]]; [contradiction|reflexivity|].
    rewrite interp_cons. unfold point in *. cbn [nth fst snd] in *. cbn [ordered] in OR. destruct OR as [O1 _].
    rewrite (proj2 (Qltb_true d x1)) by lra. rewrite (proj2 (Qltb_true d x0)) by lra. reflexivity.
  - destruct (P c d NE OR L) as [H|H]; [left|right; right]; auto.
Qed.

Lemma strict_ordered : forall c, strict c -> ordered c.
Proof.
  induction c as [|[x0 y0] t IH]; intros H; auto. destruct t as [|[x1 y1] t]; [exact I|]. cbn [strict ordered] in H |- *.
  destruct H as [H1 H2]. split; [lra|apply IH; exact H2].
Qed.

Lemma strict_lt : forall c j i, strict c -> (i < j)%nat -> (j < length c)%nat -> fst (point c i) < fst (point c j).
Proof.
  induction c as [|[x0 y0] t IH]; intros j i S L H; [simpl in H; lia|].
  destruct j as [|j]; [lia|]. destruct t as [|[x1 y1] t]; [simpl in H; lia|]. cbn [strict] in S. destruct S as [S1 S2].
  assert (F : x0 < fst (point ((x1, y1) :: t) j)).
  { destruct j as [|j]; [exact S1|]. apply Qlt_trans with x1; auto. apply (IH (S j) 0%nat); auto; [lia|simpl in *; lia]. }
  destruct i as [|i]; [exact F|]. apply (IH j i); auto; [lia|simpl in *; lia].
Qed.

Lemma strict_le : forall c j i, strict c -> (i <= j)%nat -> (j < length c)%nat -> fst (point c i) <= fst (point c j).
Proof.
  intros c j i S L H. destruct (Nat.eq_dec i j) as [->|]; [lra|]. apply Qlt_le_weak, strict_lt; auto. lia.
Qed.

Lemma seg_point : forall a b e pa pb p, a < b -> (p - pa) * (b - a) == (pb - pa) * (e - a) ->
  (e == a -> p == pa) /\ (e == b -> p == pb).
Proof.
  intros a b e pa pb p L H. assert (N : ~ b - a == 0) by lra. split; intros E; rewrite E in H.
  - assert (X : (p - pa) * (b - a) == 0) by (rewrite H; ring). apply Qmult_integral in X. destruct X; [lra|contradiction].
  - apply Qmult_inj_r in H; auto. lra.
Qed.

(** For strictly increasing displacements the polyline is a function. *)
Lemma on_curve_unique : forall c d p q, strict c -> c <> [] -> on_curve c d p -> on_curve c d q -> p == q.
Proof.
  intros c d p q S NE HP HQ. assert (LN : (0 < length c)%nat) by (destruct c; [contradiction|simpl; lia]).
  assert (SEG : forall j i p q, (j < i)%nat -> (Datatypes.S i < length c)%nat ->
    fst (point c j) < fst (point c (Datatypes.S j)) -> d <= fst (point c (Datatypes.S j)) ->
    (p - snd (point c j)) * (fst (point c (Datatypes.S j)) - fst (point c j)) == (snd (point c (Datatypes.S j)) - snd (point c j)) * (d - fst (point c j)) ->
    fst (point c i) < fst (point c (Datatypes.S i)) -> fst (point c i) <= d ->
    (q - snd (point c i)) * (fst (point c (Datatypes.S i)) - fst (point c i)) == (snd (point c (Datatypes.S i)) - snd (point c i)) * (d - fst (point c i)) -> p == q).
  { intros j i p0 q0 L H A1 A2 A3 B1 B2 B3.
    assert (EI : i = Datatypes.S j).
    { destruct (Nat.eq_dec i (Datatypes.S j)); auto. exfalso. pose proof (strict_lt c i (Datatypes.S j) S ltac:(lia) ltac:(lia)). lra. }
    subst i. destruct (seg_point _ _ _ _ _ _ A1 A3) as [_ P]. destruct (seg_point _ _ _ _ _ _ B1 B3) as [R _].
    rewrite P, R by lra. reflexivity. }
  destruct HP as [(j & A & B & C & D & E)|[[A B]|[A B]]]; destruct HQ as [(i & A' & B' & C' & D' & E')|[[A' B']|[A' B']]].
  - destruct (Nat.lt_total j i) as [L|[->|L]].
    + eapply (SEG j i); eauto.
    + assert (N : ~ fst (point c (Datatypes.S i)) - fst (point c i) == 0) by lra. rewrite <- E' in E. apply Qmult_inj_r in E; auto. lra.
    + symmetry. eapply (SEG i j); eauto.
  - assert (j = 0%nat).
    { destruct j; auto. pose proof (strict_lt c (Datatypes.S j) 0 S ltac:(lia) ltac:(lia)). lra. }
    subst j. destruct (seg_point _ _ _ _ _ _ B E) as [P _]. rewrite P, B' by lra. reflexivity.
  - assert (Datatypes.S j = (length c - 1)%nat).
    { destruct (Nat.eq_dec (Datatypes.S j) (length c - 1)); auto. pose proof (strict_lt c (length c - 1) (Datatypes.S j) S ltac:(lia) ltac:(lia)). lra. }
    rewrite <- H in A', B'. destruct (seg_point _ _ _ _ _ _ B E) as [_ P]. rewrite P, B' by lra. reflexivity.
  - assert (i = 0%nat).
    { destruct i; auto. pose proof (strict_lt c (Datatypes.S i) 0 S ltac:(lia) ltac:(lia)). lra. }
    subst i. destruct (seg_point _ _ _ _ _ _ B' E') as [P _]. rewrite P, B by lra. reflexivity.
  - rewrite B, B'. reflexivity.
  - assert (X : (length c - 1 = 0)%nat).
    { destruct (Nat.eq_dec (length c - 1) 0); auto. pose proof (strict_lt c (length c - 1) 0 S ltac:(lia) ltac:(lia)). lra. }
    rewrite X in B'. rewrite B, B'. reflexivity.
  - assert (Datatypes.S i = (length c - 1)%nat).
    { destruct (Nat.eq_dec (Datatypes.S i) (length c - 1)); auto. pose proof (strict_lt c (length c - 1) (Datatypes.S i) S ltac:(lia) ltac:(lia)). lra. }
    rewrite <- H in A, B. destruct (seg_point _ _ _ _ _ _ B' E') as [_ P]. rewrite P, B by lra. reflexivity.
  - assert (X : (length c - 1 = 0)%nat).
    { destruct (Nat.eq_dec (length c - 1) 0); auto. pose proof (strict_lt c (length c - 1) 0 S ltac:(lia) ltac:(lia)). lra. }
    rewrite X in B. rewrite B, B'. reflexivity.
  - rewrite B, B'. reflexivity.
Qed.

Lemma convex_between : forall a b x0 x1 d lo hi, x0 < x1 -> x0 <= d -> d <= x1 -> lo <= a -> a <= hi -> lo <= b -> b <= hi ->
  lo <= a + (b - a) / (x1 - x0) * (d - x0) /\ a + (b - a) / (x1 - x0) * (d - x0) <= hi.
Proof.
  intros a b x0 x1 d lo hi L D0 D1 A0 A1 B0 B1.
  assert (W : 0 <= (d - x0) / (x1 - x0) /\ (d - x0) / (x1 - x0) <= 1).
  { split; [apply Qle_shift_div_l; lra|apply Qle_shift_div_r; lra]. }
  set (w := (d - x0) / (x1 - x0)) in *.
  assert (E : a + (b - a) / (x1 - x0) * (d - x0) == (1 - w) * a + w * b) by (unfold w; field; lra).
  rewrite E. destruct W as [W0 W1].
  assert (P1 : 0 <= (1 - w) * (a - lo)) by (apply mul_nonneg; lra).
  assert (P2 : 0 <= w * (b - lo)) by (apply mul_nonneg; lra).
  assert (P3 : 0 <= (1 - w) * (hi - a)) by (apply mul_nonneg; lra).
  assert (P4 : 0 <= w * (hi - b)) by (apply mul_nonneg; lra).
  split; nra.
Qed.

Lemma interp_between : forall c d lo hi, c <> [] -> ordered c -> (forall p, In p c -> lo <= snd p /\ snd p <= hi) ->
  lo <= interp d c /\ interp d c <= hi.
Proof.
  induction c as [|[x0 y0] t IH]; intros d lo hi NE OR H; [contradiction|]. destruct t as [|[x1 y1] t].
  - apply (H (x0, y0)). left; reflexivity.
  - rewrite interp_cons. cbn [ordered] in OR. destruct OR as [O1 O2].
    pose proof (H (x0, y0) (or_introl eq_refl)) as H0. pose proof (H (x1, y1) (or_intror (or_introl eq_refl))) as H1. cbn [snd] in H0, H1.
    destruct (Qltb d x1) eqn:E1.
    + apply Qltb_true in E1. destruct (Qltb d x0) eqn:E0; auto. apply Qltb_false in E0.
      apply convex_between; lra.
    + apply IH; auto; [discriminate|]. intros p Hp. apply H. right; auto.
Qed.

(** Interpolated values stay among those given, whatever the order of the abscissae. *)
Lemma interp_above : forall c d lo, c <> [] -> (forall p, In p c -> lo <= snd p) -> lo <= interp d c.
Proof.
  induction c as [|[x0 y0] t IH]; intros d lo NE H; [contradiction|]. destruct t as [|[x1 y1] t]; [apply (H (x0, y0)); left; reflexivity|].
  rewrite interp_cons. pose proof (H (x0, y0) (or_introl eq_refl)) as H0. pose proof (H (x1, y1) (or_intror (or_introl eq_refl))) as H1. cbn [snd] in H0, H1.
  destruct (Qltb d x1) eqn:E1; [|apply IH; [discriminate|]; intros p Hp; apply H; right; auto].
  apply Qltb_true in E1. destruct (Qltb d x0) eqn:E0; auto. apply Qltb_false in E0.
  destruct (convex_between y0 y1 x0 x1 d lo (y0 + y1 - lo)) as [A _]; try lra.
Qed.
Lemma interp_strictly_above : forall c d lo, c <> [] -> (forall p, In p c -> lo < snd p) -> lo < interp d c.
Proof.
  induction c as [|[x0 y0] t IH]; intros d lo NE H; [contradiction|]. destruct t as [|[x1 y1] t]; [apply (H (x0, y0)); left; reflexivity|].
  rewrite interp_cons. pose proof (H (x0, y0) (or_introl eq_refl)) as H0. pose proof (H (x1, y1) (or_intror (or_introl eq_refl))) as H1. cbn [snd] in H0, H1.
  destruct (Qltb d x1) eqn:E1; [|apply IH; [discriminate|]; intros p Hp; apply H; right; auto].
  apply Qltb_true in E1. destruct (Qltb d x0) eqn:E0; auto. apply Qltb_false in E0.
  destruct (Qlt_le_dec y0 y1) as [L|L]; [destruct (convex_between y0 y1 x0 x1 d y0 y1) as [A _]; lra|destruct (convex_between y0 y1 x0 x1 d y1 y0) as [A _]; lra].
Qed.

Lemma hardening_ge : forall c p, c <> [] -> hardening c -> In p c -> snd (point c 0) <= snd p.
Proof.
  induction c as [|[x0 y0] t IH]; intros p NE H HP; [contradiction|]. destruct HP as [<-|HP]; [unfold point; cbn; lra|].
  destruct t as [|[x1 y1] t]; [destruct HP|]. cbn [hardening] in H. destruct H as [H1 H2].
  specialize (IH p ltac:(discriminate) H2 HP). unfold point in *. cbn [nth snd] in *. lra.
Qed.

Lemma hardening_le : forall c p, c <> [] -> hardening c -> In p c -> snd p <= snd (last c (0, 0)).
Proof.
  induction c as [|[x0 y0] t IH]; intros p NE H HP; [contradiction|]. destruct t as [|[x1 y1] t].
  - destruct HP as [<-|[]]. cbn. lra.
  - cbn [hardening] in H. destruct H as [H1 H2]. change (last ((x0, y0) :: (x1, y1) :: t) (0, 0)) with (last ((x1, y1) :: t) (0, 0)).
    destruct HP as [<-|HP]; [|apply IH; auto; discriminate].
    apply Qle_trans with y1; auto. apply (IH (x1, y1)); auto; [discriminate|left; auto].
Qed.

Lemma interp_mono : forall c d d', c <> [] -> ordered c -> hardening c -> d <= d' -> interp d c <= interp d' c.
Proof.
  induction c as [|[x0 y0] t IH]; intros d d' NE OR H L; [contradiction|]. destruct t as [|[x1 y1] t]; [cbn; lra|].
  rewrite !interp_cons. cbn [ordered] in OR. destruct OR as [O1 O2]. cbn [hardening] in H. destruct H as [H1 H2].
  destruct (Qltb d x1) eqn:E1.
  - apply Qltb_true in E1.
    assert (V : (if Qltb d x0 then y0 else y0 + (y1 - y0) / (x1 - x0) * (d - x0)) <= y1).
    { destruct (Qltb d x0) eqn:E0; [auto|]. apply Qltb_false in E0. apply (convex_between y0 y1 x0 x1 d y0 y1); lra. }
    destruct (Qltb d' x1) eqn:E1'.
    + apply Qltb_true in E1'. destruct (Qltb d x0) eqn:E0.
      * destruct (Qltb d' x0) eqn:E0'; [lra|]. apply Qltb_false in E0'. apply (convex_between y0 y1 x0 x1 d' y0 y1); lra.
      * apply Qltb_false in E0. rewrite (proj2 (Qltb_false d' x0)) by lra.
        assert (SL : 0 <= (y1 - y0) / (x1 - x0)) by (apply Qle_shift_div_l; lra).
        assert (P : 0 <= (y1 - y0) / (x1 - x0) * (d' - d)) by (apply mul_nonneg; lra).
        set (s := (y1 - y0) / (x1 - x0)) in *. nra.
    + apply Qltb_false in E1'. apply Qle_trans with y1; auto.
      apply (interp_between ((x1, y1) :: t) d' y1 (snd (last ((x1, y1) :: t) (0, 0)))); auto; [discriminate|].
      intros p Hp. split; [apply (hardening_ge ((x1, y1) :: t)); auto; discriminate|apply hardening_le; auto; discriminate].
  - apply Qltb_false in E1. rewrite (proj2 (Qltb_false d' x1)) by lra. apply IH; auto. discriminate.
Qed.

Lemma interp_at_point : forall c i, strict c -> (i < length c)%nat -> interp (fst (point c i)) c == snd (point c i).
Proof.
  induction c as [|[x0 y0] t IH]; intros i S H; [simpl in H; lia|]. destruct t as [|[x1 y1] t].
  - destruct i; [reflexivity|simpl in H; lia].
  - rewrite interp_cons. cbn [strict] in S. destruct S as [S1 S2]. destruct i as [|i].
    + unfold point. cbn [nth fst snd]. rewrite (proj2 (Qltb_true x0 x1)), (proj2 (Qltb_false x0 x0)) by lra. field. lra.
    + change (point ((x0, y0) :: (x1, y1) :: t) (Datatypes.S i)) with (point ((x1, y1) :: t) i).
      assert (G : x1 <= fst (point ((x1, y1) :: t) i)).
      { change x1 with (fst (point ((x1, y1) :: t) 0)) at 1. apply strict_le; auto; [lia|simpl in *; lia]. }
      rewrite (proj2 (Qltb_false _ x1)) by auto. apply IH; auto. simpl in *; lia.
Qed.

(** ** Lateral and base springs *)

Lemma last_point : forall c, c <> [] -> last c (0, 0) = point c (length c - 1).
Proof.
  induction c as [|x t IH]; intros H; [contradiction|]. destruct t as [|y t]; [reflexivity|].
  change (last (x :: y :: t) (0, 0)) with (last (y :: t) (0, 0)). rewrite IH by discriminate.
  unfold point. replace (length (x :: y :: t) - 1)%nat with (S (length (y :: t) - 1)) by (simpl; lia). reflexivity.
Qed.

Lemma qmax_ge : forall l x, In x l -> x <= qmax l.
Proof.
  induction l as [|a t IH]; intros x H; [destruct H|]. destruct t as [|b t].
  - destruct H as [<-|[]]. cbn. lra.
  - change (qmax (a :: b :: t)) with (Qmax a (qmax (b :: t))). destruct H as [<-|H]; [apply Q.le_max_l|].
    apply Qle_trans with (qmax (b :: t)); auto. apply Q.le_max_r.
Qed.

Lemma qmax_in : forall l, l <> [] -> exists x, In x l /\ qmax l == x.
Proof.
  induction l as [|a t IH]; intros H; [contradiction|]. destruct t as [|b t]; [exists a; split; [left; auto|reflexivity]|].
  change (qmax (a :: b :: t)) with (Qmax a (qmax (b :: t))). destruct (IH ltac:(discriminate)) as (x & Hx & E).
  destruct (Q.max_spec a (qmax (b :: t))) as [[_ M]|[_ M]].
  - exists x. split; [right; auto|]. rewrite M. auto.
  - exists a. split; [left; auto|auto].
Qed.

Lemma last_in : forall (c : curve), c <> [] -> In (last c (0, 0)) c.
Proof.
  induction c as [|x t IH]; intros H; [contradiction|]. destruct t as [|y t]; [left; reflexivity|]. right. apply IH. discriminate.
Qed.

Lemma resistance_on_curve : forall c d, c <> [] -> ordered c -> on_curve c d (resistance c d).
Proof.
  intros c d NE OR. unfold resistance. destruct (Qltb _ d) eqn:E; [|apply interp_on_curve; auto].
  apply Qltb_true in E. right. right. unfold last_pt. rewrite last_point by auto. split; [|reflexivity].
  assert (X : fst (last c (0, 0)) <= qmax (map fst c)) by (apply qmax_ge, in_map, last_in; auto). rewrite last_point in X by auto. lra.
Qed.

Lemma resistance_between : forall c d lo hi, c <> [] -> ordered c -> (forall p, In p c -> lo <= snd p /\ snd p <= hi) ->
  lo <= resistance c d /\ resistance c d <= hi.
Proof.
  intros c d lo hi NE OR H. unfold resistance. destruct (Qltb _ d).
  - apply H, last_in; auto.
  - apply interp_between; auto.
Qed.

Lemma abs_ratio : forall x d, ~ d == 0 -> Qabs (x / d) * Qabs d == Qabs x.
Proof. intros x d N. rewrite <- Qabs_Qmult. apply Qabs_wd. field. auto. Qed.

Lemma ratio_secant : forall d p0 p1 k, ratio (d, p0, p1) = Ok k -> 0 < d -> k * d == Qabs (p1 - p0).
Proof.
  intros d p0 p1 k H D. unfold ratio in H. destruct (Qeq_bool d 0); [discriminate|]. assert (E : k = Qabs ((p1 - p0) / d)) by congruence. rewrite E.
  etransitivity; [|apply (abs_ratio (p1 - p0) d); lra]. apply Qmult_comp; [reflexivity|]. symmetry. apply Qabs_pos. lra.
Qed.

Lemma ratio_nonneg : forall t k, ratio t = Ok k -> 0 <= k.
Proof.
  intros [[dx p0] p1] k H. unfold ratio in H. destruct (Qeq_bool dx 0); [discriminate|].
  assert (E : k = Qabs ((p1 - p0) / dx)) by congruence. rewrite E. apply Qabs_nonneg.
Qed.

Lemma ok_zero : forall k : Q, Ok 0 = Ok k -> 0 <= k.
Proof. intros k H. assert (E : k = 0) by congruence. rewrite E. lra. Qed.

Lemma Qabs_pos_iff : forall u, ~ u == 0 -> 0 < Qabs u.
Proof.
  intros u H. destruct (Qlt_le_dec 0 (Qabs u)) as [|L]; auto. exfalso. apply H.
  pose proof (Qle_Qabs u). pose proof (Qle_Qabs (- u)). rewrite Qabs_opp in H1. lra.
Qed.

Lemma secant_terms : forall k d c, ~ d == 0 -> k = Secant -> lateral_terms k d c = (d, snd (pt c 0), resistance c d).
Proof.
  intros k d c N ->. unfold lateral_terms. cbn [orb]. destruct (Qeq_bool d 0) eqn:E; auto. apply Qeqb_true in E. contradiction.
Qed.

(** Both kinds of lateral spring share this. *)
Lemma lateral_secant : forall u c, ~ u == 0 -> c <> [] -> ordered c ->
  exists k p, ratio (lateral_terms Secant (Qabs u) c) = Ok k /\ 0 <= k /\ on_curve c (Qabs u) p /\ k * Qabs u == Qabs (p - snd (point c 0)).
Proof.
  intros u c N NE OR. pose proof (Qabs_pos_iff u N) as D.
  rewrite secant_terms by (auto; lra). 
  exists (Qabs ((resistance c (Qabs u) - snd (pt c 0)) / Qabs u)), (resistance c (Qabs u)).
  split; [|split; [|split]].
  - unfold ratio. destruct (Qeq_bool (Qabs u) 0) eqn:E; auto. apply Qeqb_true in E. lra.
  - apply Qabs_nonneg.
  - apply resistance_on_curve; auto.
  - apply ratio_secant; auto. unfold ratio. destruct (Qeq_bool (Qabs u) 0) eqn:E; auto. apply Qeqb_true in E. lra.
Qed.

Lemma on_curve_bounds : forall c d p, c <> [] -> strict c -> hardening c -> on_curve c d p -> snd (point c 0) <= p /\ p <= snd (point c (length c - 1)).
Proof.
  intros c d p NE ST HD H. rewrite (on_curve_unique c d p (interp d c) ST NE H (interp_on_curve c d NE (strict_ordered c ST))).
  rewrite <- last_point by auto.
  apply interp_between; auto; [apply strict_ordered; auto|]. intros q Hq. split; [apply hardening_ge; auto|apply hardening_le; auto].
Qed.

Lemma spring_secant_gen : forall (tst : bool) u c, ~ u == 0 -> c <> [] -> strict c -> hardening c ->
  origin (point c 0) -> tst = false ->
  exists k p, (if tst then Ok 0 else ratio (lateral_terms Secant (Qabs u) c)) = Ok k /\ on_curve c (Qabs u) p /\ k * Qabs u == p /\
     0 <= k /\ 0 <= p /\ p <= snd (point c (length c - 1)).
Proof.
  intros tst u c N NE ST HD [F0 P0] ->. destruct (lateral_secant u c N NE (strict_ordered c ST)) as (k & p & A & B & C & D).
  exists k, p. destruct (on_curve_bounds c (Qabs u) p NE ST HD C) as [E F]. rewrite P0 in D, E.
  repeat split; auto. rewrite D. rewrite Qabs_pos by lra. ring.
Qed.

(** Strictly increasing curves from the origin have a non-zero sum of displacements, and a zero sum of
    resistances only if they carry nothing. *)
Lemma qsum_nonneg : forall l, (forall x, In x l -> 0 <= x) -> 0 <= qsum l.
Proof.
  induction l as [|x t IH]; intros H; cbn [qsum]; [lra|]. pose proof (H x (or_introl eq_refl)). specialize (IH (fun y Hy => H y (or_intror Hy))). lra.
Qed.

Lemma qsum_zero : forall l, (forall x, In x l -> 0 <= x) -> qsum l == 0 -> forall x, In x l -> x == 0.
Proof.
  induction l as [|a t IH]; intros H Z x HX; [destruct HX|]. cbn [qsum] in Z. destruct HX as [<-|Hx].
  - pose proof (H a (or_introl eq_refl)). pose proof (qsum_nonneg t (fun y Hy => H y (or_intror Hy))). lra.
  - pose proof (H a (or_introl eq_refl)). pose proof (qsum_nonneg t (fun y Hy => H y (or_intror Hy))).
    apply IH; auto; [intros; apply H; right; auto|lra].
Qed.

Lemma strict_nonneg : forall c p, strict c -> fst (point c 0) == 0 -> In p c -> 0 <= fst p.
Proof.
  intros c p S Z H. apply In_nth with (d := (0, 0)) in H. destruct H as (i & Hi & <-). fold (point c i).
  rewrite <- Z. apply strict_le; auto. lia.
Qed.

Lemma hardening_nonneg : forall c p, hardening c -> snd (point c 0) == 0 -> In p c -> 0 <= snd p.
Proof. intros c p H Z I. rewrite <- Z. apply hardening_ge; auto. intro E; subst; destruct I. Qed.

Lemma disp_sum_nonzero : forall c, strict c -> fst (point c 0) == 0 -> (2 <= length c)%nat -> Qeq_bool (qsum (map fst c)) 0 = false.
Proof.
  intros c S Z L. apply Qeqb_false. intro E.
  assert (X : fst (point c 1) == 0).
  { apply (qsum_zero (map fst c)); auto.
    - intros x Hx. apply in_map_iff in Hx. destruct Hx as (p & <- & Hp). apply (strict_nonneg c); auto.
    - apply in_map. apply nth_In. lia. }
  pose proof (strict_lt c 1 0 S ltac:(lia) ltac:(lia)). lra.
Qed.

Lemma res_sum_zero : forall c, hardening c -> snd (point c 0) == 0 -> Qeq_bool (qsum (map snd c)) 0 = true -> forall p, In p c -> snd p == 0.
Proof.
  intros c H Z E p Hp. apply Qeqb_true in E. apply (qsum_zero (map snd c)); auto.
  - intros x Hx. apply in_map_iff in Hx. destruct Hx as (q & <- & Hq). apply (hardening_nonneg c); auto.
  - apply in_map; auto.
Qed.

Lemma py_secant : forall u c, (2 <= length c)%nat -> strict c -> hardening c -> origin (point c 0) ->
  exists k p, py_spring u c Secant = Ok k /\ on_curve c (Qabs u) p /\ k * Qabs u == p /\ 0 <= k /\ 0 <= p /\ p <= snd (point c (length c - 1)).
Proof.
  intros u c L ST HD [F0 P0]. unfold py_spring. rewrite disp_sum_nonzero by auto.
  assert (NE : c <> []) by (intro; subst; simpl in L; lia).
  destruct (Qeq_dec u 0) as [Z|N].
  - pose proof (strict_lt c 1 0 ST ltac:(lia) ltac:(lia)) as D. rewrite F0 in D.
    exists (Qabs ((snd (pt c 1) - snd (pt c 0)) / (fst (pt c 1) - fst (pt c 0)))), 0.
    assert (AZ : Qabs u == 0) by (rewrite Z; reflexivity).
    assert (DX : ~ fst (pt c 1) - fst (pt c 0) == 0).
    { change (pt c 0) with (point c 0). change (pt c 1) with (point c 1). lra. }
    split; [|split; [|split; [|split; [|split]]]].
    + unfold lateral_terms. cbn [orb]. rewrite (proj2 (Qeqb_true (Qabs u) 0)) by auto. unfold ratio.
      rewrite (proj2 (Qeqb_false _ 0)) by auto. reflexivity.
    + right. left. split; [rewrite AZ; lra|symmetry; exact P0].
    + rewrite AZ. ring.
    + apply Qabs_nonneg.
    + lra.
    + destruct (on_curve_bounds c 0 0 NE ST HD) as [_ B]; auto. right. left. split; [lra|symmetry; exact P0].
  - apply (spring_secant_gen false); auto. split; auto.
Qed.

Lemma base_secant : forall u c, (2 <= length c)%nat -> strict c -> hardening c -> origin (point c 0) ->
  exists k p, base_spring u c Secant = Ok k /\ on_curve c (Qabs u) p /\ k * Qabs u == p /\ 0 <= k /\ 0 <= p /\ p <= snd (point c (length c - 1)).
Proof.
  intros u c L ST HD P0. destruct (py_secant u c L ST HD P0) as (k & p & A & B & C & D & E & F).
  unfold base_spring. destruct (Qeq_bool (qsum (map snd c)) 0) eqn:Z.
  - assert (NE : c <> []) by (intro; subst; simpl in L; lia).
    assert (PZ : p == 0).
    { assert (X : snd (point c (length c - 1)) == 0).
      { apply (res_sum_zero c); auto; [apply P0|]. apply nth_In. lia. }
      lra. }
    exists 0, p. split; [reflexivity|]. split; [exact B|]. split; [rewrite PZ; ring|]. split; [lra|]. split; [exact E|exact F].
  - unfold py_spring in A. rewrite disp_sum_nonzero in A by (auto; apply P0). exists k, p. exact (conj A (conj B (conj C (conj D (conj E F))))).
Qed.

Lemma initial_slope : forall u c k, Qeq_bool (qsum (map fst c)) 0 = false -> py_spring u c Initial = Ok k ->
  k * Qabs (fst (point c 1) - fst (point c 0)) == Qabs (snd (point c 1) - snd (point c 0)).
Proof.
  intros u c k S H. unfold py_spring in H. rewrite S in H. unfold lateral_terms in H. cbn [orb] in H. unfold ratio in H.
  change (pt c) with (point c) in H.
  destruct (Qeq_bool (fst (point c 1) - fst (point c 0)) 0) eqn:E; [discriminate|]. apply Qeqb_false in E.
  assert (X : k = Qabs ((snd (point c 1) - snd (point c 0)) / (fst (point c 1) - fst (point c 0)))) by congruence. rewrite X. apply abs_ratio. auto.
Qed.

Lemma py_nonneg : forall u c k v, py_spring u c k = Ok v -> 0 <= v.
Proof. intros u c k v H. unfold py_spring in H. destruct (Qeq_bool _ 0); [apply ok_zero|eapply ratio_nonneg]; eauto. Qed.

Lemma base_nonneg : forall u c k v, base_spring u c k = Ok v -> 0 <= v.
Proof. intros u c k v H. unfold base_spring in H. destruct (Qeq_bool _ 0); [apply ok_zero|eapply ratio_nonneg]; eauto. Qed.

(** Tangent stiffness: slope of a chord of at most 0.0005 ending at the current displacement. *)
Lemma py_tangent : forall u c, ~ u == 0 -> c <> [] -> ordered c -> Qeq_bool (qsum (map fst c)) 0 = false ->
  exists k dx p0 p1, py_spring u c Tangent = Ok k /\ 0 < dx /\ dx <= 1#2000 /\ dx <= Qabs u /\
    on_curve c (Qabs u - dx) p0 /\ on_curve c (Qabs u) p1 /\ k * dx == Qabs (p1 - p0).
Proof.
  intros u c N NE OR S. pose proof (Qabs_pos_iff u N) as D. set (dx := Qmin (1#2000) (Qabs u)).
  assert (DX : 0 < dx) by (unfold dx; apply Q.min_glb_lt; lra).
  exists (Qabs ((resistance c (Qabs u) - resistance c (Qabs u - dx)) / dx)), dx, (resistance c (Qabs u - dx)), (resistance c (Qabs u)).
  split; [|split; [|split; [|split; [|split; [|split]]]]]; auto.
  - unfold py_spring. rewrite S. unfold lateral_terms. cbn [orb]. rewrite (proj2 (Qeqb_false (Qabs u) 0)) by lra. fold dx. unfold ratio.
    rewrite (proj2 (Qeqb_false dx 0)) by lra. reflexivity.
  - unfold dx. apply Q.le_min_l.
  - unfold dx. apply Q.le_min_r.
  - apply resistance_on_curve; auto.
  - apply resistance_on_curve; auto.
  - apply ratio_secant; auto. unfold ratio. rewrite (proj2 (Qeqb_false dx 0)) by lra. reflexivity.
Qed.

(** ** Axial springs *)

Lemma point_rev : forall c i, (i < length c)%nat -> point (rev c) i = point c (length c - 1 - i).
Proof. intros c i H. unfold point. rewrite rev_nth by auto. f_equal. lia. Qed.

Lemma origin_value : forall c m u, strict (rev c) -> (S m < length c)%nat -> origin (point c m) -> u == 0 -> interp u (rev c) == 0.
Proof.
  intros c m u ST L [F0 S0] Z.
  assert (NE : rev c <> []).
  { intro E. apply (f_equal (@length _)) in E. rewrite rev_length in E. simpl in E. lia. }
  apply (on_curve_unique (rev c) u); auto; [apply interp_on_curve; auto; apply strict_ordered; auto|].
  left. exists (length c - 1 - S m)%nat. rewrite rev_length. split; [lia|].
  replace (S (length c - 1 - S m)) with (length c - 1 - m)%nat by lia.
  pose proof (strict_lt (rev c) (length c - 1 - m) (length c - 1 - S m) ST ltac:(lia) ltac:(rewrite rev_length; lia)) as X.
  rewrite !point_rev in * by lia. replace (length c - 1 - (length c - 1 - m))%nat with m in * by lia.
  rewrite F0 in *. rewrite S0, Z. repeat split; lra.
Qed.

Lemma axial_secant_gen : forall d c, ~ d == 0 -> strict (rev c) -> hardening (rev c) ->
  (S (zero_index (length c)) < length c)%nat -> origin (point c (zero_index (length c))) ->
  exists k t, ratio (axial_terms Secant d c) = Ok k /\ on_curve (rev c) d t /\ k * d == t /\ 0 <= k /\
     (0 <= d -> 0 <= t /\ t <= snd (point c 0)) /\ (d <= 0 -> snd (point c (length c - 1)) <= t /\ t <= 0).
Proof.
  intros d c N ST HD LZ PZ. set (m := zero_index (length c)) in *.
  assert (NE : rev c <> []).
  { intro E. apply (f_equal (@length _)) in E. rewrite rev_length in E. simpl in E. lia. }
  assert (LR : length (rev c) = length c) by apply rev_length.
  assert (OR := strict_ordered _ ST).
  set (t := interp d (rev c)).
  assert (I0 : interp 0 (rev c) == 0).
  { apply (origin_value c m 0); auto. reflexivity. }
  assert (TP : 0 <= d -> 0 <= t) by (intro; rewrite <- I0; apply interp_mono; auto).
  assert (TN : d <= 0 -> t <= 0) by (intro; rewrite <- I0; apply interp_mono; auto).
  assert (BD : snd (point (rev c) 0) <= t /\ t <= snd (last (rev c) (0, 0))).
  { apply interp_between; auto. intros q Hq. split; [apply hardening_ge; auto|apply hardening_le; auto]. }
  rewrite last_point in BD by auto. rewrite LR in BD. rewrite !point_rev in BD by lia.
  replace (length c - 1 - 0)%nat with (length c - 1)%nat in BD by lia. replace (length c - 1 - (length c - 1))%nat with 0%nat in BD by lia.
  set (t0 := snd (point c m)) in *. assert (T0 : t0 == 0) by apply PZ.
  exists (Qabs ((t - t0) / d)), t. split; [|split; [|split; [|split; [|split]]]].
  - unfold axial_terms. cbn [orb]. rewrite (proj2 (Qeqb_false d 0)) by auto. fold m t. change (snd (pt c m)) with t0.
    unfold ratio. rewrite (proj2 (Qeqb_false d 0)) by auto. reflexivity.
  - apply interp_on_curve; auto.
  - assert (P : 0 <= (t - t0) / d).
    { destruct (Qlt_le_dec 0 d) as [L|L].
      - apply div_nonneg; auto. specialize (TP ltac:(lra)). lra.
      - assert (E : (t - t0) / d == (- t) / (- d)) by (rewrite T0; field; auto). rewrite E. apply div_nonneg; [specialize (TN L)|]; lra. }
    etransitivity; [apply Qmult_comp; [apply Qabs_pos; exact P|reflexivity]|]. rewrite T0. field. auto.
  - apply Qabs_nonneg.
  - intros P. split; [auto|tauto].
  - intros P. split; [tauto|auto].
Qed.

Lemma zero_index_middle : forall m, (0 < m)%nat -> (zero_index (2 * m + 1) = m <-> Nat.odd m = true).
Proof.
  intros m P. unfold zero_index. assert (E : ((2 * m + 1) / 2 = m)%nat) by apply top_bottom_index. rewrite E.
  assert (O : Nat.even (2 * m + 1) = false) by (rewrite <- Nat.negb_odd; rewrite (proj2 (Nat.odd_spec _)); [reflexivity|exists m; lia]).
  rewrite O. rewrite <- Nat.negb_even. destruct (Nat.even m) eqn:EM; cbn [negb]; split; intros H; try discriminate; auto; lia.
Qed.

Lemma axial_zero : forall c, strict (rev c) -> (S (zero_index (length c)) < length c)%nat -> forall u, u == 0 ->
  exists k, ratio (axial_terms Secant u c) = Ok k.
Proof.
  intros c ST L u Z. unfold axial_terms. cbn [orb]. rewrite (proj2 (Qeqb_true u 0)) by auto. unfold ratio.
  set (m := zero_index (length c)) in *.
  pose proof (strict_lt (rev c) (length c - 1 - m) (length c - 1 - S m) ST ltac:(lia) ltac:(rewrite rev_length; lia)) as X.
  rewrite !point_rev in X by lia.
  replace (length c - 1 - (length c - 1 - m))%nat with m in X by lia. replace (length c - 1 - (length c - 1 - S m))%nat with (S m) in X by lia.
  change (pt c) with (point c). rewrite (proj2 (Qeqb_false _ 0)) by lra. eexists; reflexivity.
Qed.

Lemma axial_secant : forall u c, strict (rev c) -> hardening (rev c) ->
  (S (zero_index (length c)) < length c)%nat -> origin (point c (zero_index (length c))) ->
  exists k t, ratio (axial_terms Secant u c) = Ok k /\ on_curve (rev c) u t /\ k * u == t /\ 0 <= k /\
     (0 <= u -> 0 <= t /\ t <= snd (point c 0)) /\ (u <= 0 -> snd (point c (length c - 1)) <= t /\ t <= 0).
Proof.
  intros u c ST HD L PZ. destruct (Qeq_dec u 0) as [Z|N]; [|apply axial_secant_gen; auto; lia].
  destruct (axial_zero c ST L u Z) as [k K]. exists k, (interp u (rev c)).
  set (m := zero_index (length c)) in *.
  assert (NE : rev c <> []).
  { intro E. apply (f_equal (@length _)) in E. rewrite rev_length in E. simpl in E. lia. }
  assert (OC := interp_on_curve (rev c) u NE (strict_ordered _ ST)).
  assert (I0 : interp u (rev c) == 0).
  { apply (origin_value c m); auto. }
  destruct (interp_between (rev c) u (snd (point (rev c) 0)) (snd (last (rev c) (0, 0))) NE (strict_ordered _ ST)) as [B1 B2].
  { intros q Hq. split; [apply hardening_ge; auto|apply hardening_le; auto]. }
  rewrite last_point in B2 by auto. rewrite rev_length in B2. rewrite point_rev in B1 by lia. rewrite point_rev in B2 by lia.
  replace (length c - 1 - 0)%nat with (length c - 1)%nat in B1 by lia. replace (length c - 1 - (length c - 1))%nat with 0%nat in B2 by lia.
  split; [exact K|]. split; [exact OC|]. split; [rewrite I0, Z; ring|]. split; [exact (ratio_nonneg _ _ K)|].
  split; intros _; split; try rewrite I0; lra.
Qed.

Lemma abs_sum_zero : forall (f : Q * Q -> Q) (c : curve), Qeq_bool (qsum (map (fun p => Qabs (f p)) c)) 0 = true -> forall p, In p c -> f p == 0.
Proof.
  intros f c E p Hp. apply Qeqb_true in E.
  assert (A : Qabs (f p) == 0).
  { apply (qsum_zero (map (fun p => Qabs (f p)) c)); auto.
    - intros x Hx. apply in_map_iff in Hx. destruct Hx as (q & <- & _). apply Qabs_nonneg.
    - apply (in_map (fun p => Qabs (f p))); auto. }
  destruct (Qeq_dec (f p) 0) as [|N]; auto. pose proof (Qabs_pos_iff _ N). lra.
Qed.

Lemma tz_secant : forall u c, strict (rev c) -> hardening (rev c) ->
  (S (zero_index (length c)) < length c)%nat -> origin (point c (zero_index (length c))) ->
  exists k t, tz_spring u c Secant = Ok k /\ on_curve (rev c) u t /\ k * u == t /\ 0 <= k /\
     (0 <= u -> 0 <= t /\ t <= snd (point c 0)) /\ (u <= 0 -> snd (point c (length c - 1)) <= t /\ t <= 0).
Proof.
  intros u c ST HD L PZ. unfold tz_spring. destruct (Qeq_bool _ 0) eqn:E; [|apply axial_secant; auto]. exfalso.
  pose proof (abs_sum_zero fst c E) as Z.
  pose proof (strict_lt (rev c) 1 0 ST ltac:(lia) ltac:(rewrite rev_length; lia)) as X. rewrite !point_rev in X by lia.
  assert (A : forall i, (i < length c)%nat -> fst (point c i) == 0) by (intros; apply Z, nth_In; auto).
  rewrite !A in X by lia. lra.
Qed.

Lemma base_axial_secant : forall u c, strict (rev c) -> hardening (rev c) ->
  (S (zero_index (length c)) < length c)%nat -> origin (point c (zero_index (length c))) ->
  exists k t, base_axial_spring u c Secant = Ok k /\ on_curve (rev c) u t /\ k * u == t /\ 0 <= k /\
     (0 <= u -> 0 <= t /\ t <= snd (point c 0)) /\ (u <= 0 -> snd (point c (length c - 1)) <= t /\ t <= 0).
Proof.
  intros u c ST HD L PZ. destruct (axial_secant u c ST HD L PZ) as (k & t & A & B & C & D & E & F).
  unfold base_axial_spring. destruct (Qeq_bool _ 0) eqn:Z; [|exists k, t; exact (conj A (conj B (conj C (conj D (conj E F)))))].
  pose proof (abs_sum_zero snd c Z) as Y.
  assert (Y' : forall i, (i < length c)%nat -> snd (point c i) == 0) by (intros; apply Y, nth_In; auto).
  assert (T : t == 0).
  { destruct (Qlt_le_dec u 0) as [N|N].
    - destruct (F ltac:(lra)) as [F1 F2]. rewrite Y' in F1 by lia. lra.
    - destruct (E N) as [F1 F2]. rewrite Y' in F2 by lia. lra. }
  exists 0, t. split; [reflexivity|]. split; [exact B|]. split; [rewrite T; ring|]. split; [lra|]. split; [exact E|exact F].
Qed.

Lemma axial_initial : forall u c k, Qeq_bool (qsum (map (fun p => Qabs (fst p)) c)) 0 = false -> tz_spring u c Initial = Ok k ->
  let m := zero_index (length c) in k * Qabs (fst (point c m) - fst (point c (S m))) == Qabs (snd (point c (S m)) - snd (point c m)).
Proof.
  intros u c k E H m. unfold tz_spring in H. rewrite E in H. unfold axial_terms in H. cbn [orb] in H. fold m in H. unfold ratio in H.
  change (pt c) with (point c) in H. destruct (Qeq_bool (fst (point c m) - fst (point c (S m))) 0) eqn:Z; [discriminate|]. apply Qeqb_false in Z.
  assert (X : k = Qabs ((snd (point c (S m)) - snd (point c m)) / (fst (point c m) - fst (point c (S m))))) by congruence. rewrite X. apply abs_ratio. auto.
Qed.

Lemma tz_nonneg : forall u c k v, tz_spring u c k = Ok v -> 0 <= v.
Proof. intros u c k v H. unfold tz_spring in H. destruct (Qeq_bool _ 0); [apply ok_zero|eapply ratio_nonneg]; eauto. Qed.
Lemma base_axial_nonneg : forall u c k v, base_axial_spring u c k = Ok v -> 0 <= v.
Proof. intros u c k v H. unfold base_axial_spring in H. destruct (Qeq_bool _ 0); [apply ok_zero|eapply ratio_nonneg]; eauto. Qed.

(** Tangent: chord of at most 0.0005 from the current displacement towards the origin. *)
Lemma tz_tangent : forall u c, ~ u == 0 -> c <> [] -> ordered (rev c) -> Qeq_bool (qsum (map (fun p => Qabs (fst p)) c)) 0 = false ->
  exists k dx x p0 p1, tz_spring u c Tangent = Ok k /\ 0 < dx /\ dx <= 1#2000 /\ Qabs x + dx == Qabs u /\ 0 <= x * u /\
    on_curve (rev c) x p0 /\ on_curve (rev c) u p1 /\ k * dx == Qabs (p1 - p0).
Proof.
  intros u c N NE OR E. pose proof (Qabs_pos_iff u N) as D. set (dx := Qmin (1#2000) (Qabs u)).
  assert (DX : 0 < dx) by (unfold dx; apply Q.min_glb_lt; lra).
  assert (DU : dx <= Qabs u) by (unfold dx; apply Q.le_min_r).
  assert (NR : rev c <> []).
  { intro X. apply NE. rewrite <- (rev_involutive c), X. reflexivity. }
  set (x := if Qltb 0 u then u - dx else u + dx).
  exists (Qabs ((interp u (rev c) - interp x (rev c)) / dx)), dx, x, (interp x (rev c)), (interp u (rev c)).
  assert (R : ratio (dx, interp x (rev c), interp u (rev c)) = Ok (Qabs ((interp u (rev c) - interp x (rev c)) / dx))).
  { unfold ratio. rewrite (proj2 (Qeqb_false dx 0)) by lra. reflexivity. }
  split; [|split; [|split; [|split; [|split; [|split; [|split]]]]]]; auto.
  - unfold tz_spring. rewrite E. unfold axial_terms. cbn [orb]. rewrite (proj2 (Qeqb_false u 0)) by auto. fold dx x. exact R.
  - unfold dx. apply Q.le_min_l.
  - unfold x. destruct (Qltb 0 u) eqn:S0.
    + apply Qltb_true in S0. rewrite (Qabs_pos u) in * by lra. rewrite Qabs_pos by lra. ring.
    + apply Qltb_false in S0. rewrite (Qabs_neg u) in * by lra. rewrite Qabs_neg by lra. ring.
  - unfold x. destruct (Qltb 0 u) eqn:S0.
    + apply Qltb_true in S0. rewrite (Qabs_pos u) in * by lra. apply mul_nonneg; lra.
    + apply Qltb_false in S0. rewrite (Qabs_neg u) in * by lra.
      assert (X : (u + dx) * u == (- (u + dx)) * (- u)) by ring. rewrite X. apply mul_nonneg; lra.
  - apply interp_on_curve; auto.
  - apply interp_on_curve; auto.
  - apply ratio_secant; auto.
Qed.

(** ** Rotational springs *)

Lemma strict_last_max : forall c, strict c -> c <> [] -> forall p, In p c -> fst p <= fst (last_pt c).
Proof.
  intros c ST NE p Hp. unfold last_pt. rewrite last_point by auto. apply In_nth with (d := (0, 0)) in Hp. destruct Hp as (i & Hi & <-).
  apply (strict_le c (length c - 1) i); auto; lia.
Qed.

Lemma moment_on_curve : forall c d, c <> [] -> ordered c -> on_curve c d (moment_at c d).
Proof.
  intros c d NE OR. unfold moment_at. destruct (Qltb _ d) eqn:E; [|apply interp_on_curve; auto].
  apply Qltb_true in E. right. right. unfold last_pt in *. rewrite last_point in * by auto. split; [lra|reflexivity].
Qed.

Lemma mt_secant : forall u p pp cols, let c := mt_curve p pp cols in
  (2 <= length cols)%nat -> strict c -> hardening c -> Qeq_bool (qsum (map (fun col => fst (pt col 0)) cols)) 0 = false ->
  exists k m, mt_spring u p pp cols Secant = Ok k /\ on_curve c (Qabs u) m /\ k * Qabs u == m /\ 0 <= k /\ 0 <= m /\ m <= snd (point c (length c - 1)).
Proof.
  intros u p pp cols c L ST HD E. unfold mt_spring. rewrite E. fold c.
  assert (P0 : point c 0 = (0, 0)) by reflexivity. assert (NE : c <> []) by (unfold c, mt_curve; discriminate).
  assert (LC : (2 <= length c)%nat).
  { unfold c, mt_curve. cbn [length]. rewrite map_length. destruct cols as [|a [|b t]]; simpl in *; lia. }
  unfold mt_terms. cbn [orb]. destruct (Qeq_bool (Qabs u) 0) eqn:Z.
  - apply Qeqb_true in Z. pose proof (strict_lt c 1 0 ST ltac:(lia) ltac:(lia)) as X. change (pt c) with (point c).
    rewrite (proj2 (Qeqb_false _ 0)) by lra.
    exists (Qabs (snd (point c 1) - snd (point c 0)) / (fst (point c 1) - fst (point c 0))), 0.
    assert (OC : on_curve c (Qabs u) 0) by (right; left; rewrite P0; cbn; split; [rewrite Z; lra|reflexivity]).
    destruct (on_curve_bounds c (Qabs u) 0 NE ST HD OC) as [_ B].
    split; [reflexivity|]. split; [exact OC|]. split; [rewrite Z; ring|]. split; [apply div_nonneg; [apply Qabs_nonneg|lra]|]. split; [lra|exact B].
  - apply Qeqb_false in Z. assert (D : 0 < Qabs u) by (pose proof (Qabs_nonneg u); lra). rewrite (proj2 (Qeqb_false _ 0)) by auto.
    change (pt c 0) with (point c 0). rewrite P0. cbn [snd].
    pose proof (moment_on_curve c (Qabs u) NE (strict_ordered _ ST)) as OC. set (m := moment_at c (Qabs u)) in *.
    destruct (on_curve_bounds c (Qabs u) m NE ST HD OC) as [B1 B2]. rewrite P0 in B1. cbn [snd] in B1.
    exists (Qabs (m - 0) / Qabs u), m.
    split; [reflexivity|]. split; [exact OC|]. split; [|split; [apply div_nonneg; [apply Qabs_nonneg|auto]|split; [exact B1|exact B2]]].
    etransitivity; [|apply Qabs_pos; exact B1]. assert (X : Qabs (m - 0) == Qabs m) by (apply Qabs_wd; ring). rewrite X. field. lra.
Qed.

Lemma combine_ordered : forall pp ys, nondecreasing pp -> ordered (combine pp ys).
Proof.
  induction pp as [|a pp IH]; intros ys H; [exact I|]. destruct ys as [|y ys]; [exact I|].
  destruct pp as [|b pp]; [exact I|]. destruct ys as [|y' ys]; [exact I|]. destruct H as [H1 H2]. cbn [combine ordered]. split; auto.
  apply (IH (y' :: ys)). auto.
Qed.

Lemma interp_nonneg : forall x c, (forall q, In q c -> 0 <= snd q) -> 0 <= interp x c.
Proof. intros x c H. destruct c as [|q c]; [cbn; lra|]. apply interp_above; [discriminate|auto]. Qed.

Lemma first_rotation : forall p pp cols, (forall col q, In col cols -> In q col -> 0 <= fst q) ->
  0 <= fst (pt (mt_curve p pp cols) 1).
Proof.
  intros p pp cols H. unfold mt_curve, pt. cbn [nth]. destruct cols as [|a [|b t]]; try (cbn; lra). cbn [tl map nth fst].
  apply interp_nonneg. intros q Hq. destruct q as [x y]. apply in_combine_r in Hq. cbn [snd].
  apply in_map_iff in Hq. destruct Hq as (r & <- & Hr). apply (H b); auto. right; left; auto.
Qed.

Lemma mt_nonneg : forall u p pp cols k v, 0 <= fst (pt (mt_curve p pp cols) 1) -> mt_spring u p pp cols k = Ok v -> 0 <= v.
Proof.
  intros u p pp cols k v X H. unfold mt_spring in H. destruct (Qeq_bool (qsum _) 0); [apply ok_zero; auto|].
  set (c := mt_curve p pp cols) in *.
  assert (D : 0 <= fst (fst (mt_terms k (Qabs u) c))).
  { unfold mt_terms. destruct (match k with Initial => true | _ => false end || Qeq_bool (Qabs u) 0)%bool.
    - cbn [fst]. change (fst (pt c 0)) with 0. lra.
    - pose proof (Qabs_nonneg u). destruct k; cbn [fst]; auto. apply Q.min_glb; lra. }
  destruct (mt_terms k (Qabs u) c) as [[dt m0] m1]. cbn [fst] in D. destruct (Qeq_bool dt 0) eqn:E; [discriminate|]. apply Qeqb_false in E.
  assert (V : v = Qabs (m1 - m0) / dt) by congruence. rewrite V. apply div_nonneg; [apply Qabs_nonneg|lra].
Qed.

(** ** Mirror symmetry *)

Lemma abs_opp : forall u, Qabs (- u) = Qabs u.
Proof. intros [n d]. unfold Qabs, Qopp. cbn [Qnum Qden]. rewrite Z.abs_opp. reflexivity. Qed.

Lemma py_even : forall u c k, py_spring (- u) c k = py_spring u c k.
Proof. intros. unfold py_spring. rewrite abs_opp. reflexivity. Qed.
Lemma base_even : forall u c k, base_spring (- u) c k = base_spring u c k.
Proof. intros. unfold base_spring. rewrite abs_opp. reflexivity. Qed.
Lemma mt_even_rotation : forall u p pp cols k, mt_spring (- u) p pp cols k = mt_spring u p pp cols k.
Proof. intros. unfold mt_spring. rewrite abs_opp. reflexivity. Qed.

Lemma component_length : forall n u c, length (component n u c) = S n.
Proof. intros. unfold component. rewrite map_length, seq_length. reflexivity. Qed.

Lemma component_nth : forall n u c i, (i <= n)%nat -> nth i (component n u c) 0 = u (3 * i + c)%nat.
Proof.
  intros n u c i H. unfold component. set (h := fun i => u (3 * i + c)%nat).
  rewrite (nth_indep _ 0 (h 0%nat)) by (rewrite map_length, seq_length; lia). rewrite map_nth, seq_nth by lia. reflexivity.
Qed.

(** node whose displacement spring [j] of element [e] uses *)
Definition spring_node (n e j : nat) : nat := if (Nat.eqb e (n - 1) && Nat.eqb j 1)%bool then (n - 1)%nat else (e + j)%nat.

Lemma spring_disp_node : forall n u c e j, (e < n)%nat -> (j < 2)%nat -> spring_disp n u c e j = u (3 * spring_node n e j + c)%nat.
Proof.
  intros n u c e j He Hj. unfold spring_disp, spring_node. pose proof (component_length n u c) as L.
  destruct (Nat.eqb_spec e (n - 1)) as [E1|N1]; destruct (Nat.eqb_spec j 1) as [E2|N2]; cbn [andb];
    try (rewrite (own_node _ n e j) by (auto; lia); apply component_nth; lia).
  subst e j. rewrite (last_spring_node _ n) by (auto; lia). apply component_nth; lia.
Qed.

Lemma collect_ext : forall {A} n (f g : nat -> res A), (forall e, (e < n)%nat -> f e = g e) -> collect n f = collect n g.
Proof.
  induction n as [|n IH]; intros f g H; auto. cbn [collect]. rewrite (IH f g) by (intros; apply H; lia). rewrite (H n) by lia. reflexivity.
Qed.

Lemma collect_ok : forall {A} n (f : nat -> res A) l d, collect n f = Ok l -> length l = n /\ forall e, (e < n)%nat -> f e = Ok (nth e l d).
Proof.
  induction n as [|n IH]; intros f l d H; cbn [collect] in H.
  - assert (E : l = []) by congruence. subst l. split; auto. intros; lia.
  - destruct (collect n f) as [l'|] eqn:C; cbn [bind] in H; [|discriminate]. destruct (f n) as [a|] eqn:F; cbn [bind] in H; [|discriminate].
    assert (E : l = l' ++ [a]) by congruence. destruct (IH f l' d C) as [L N]. subst l. split; [rewrite app_length; simpl; lia|].
    intros e He. destruct (Nat.eq_dec e n) as [->|].
    + rewrite app_nth2 by lia. rewrite L, Nat.sub_diag. exact F.
    + rewrite app_nth1 by lia. apply N. lia.
Qed.

Lemma both_ext : forall {A} (f g : nat -> res A), f 0%nat = g 0%nat -> f 1%nat = g 1%nat -> both f = both g.
Proof. intros A f g H0 H1. unfold both. rewrite H0, H1. reflexivity. Qed.

Lemma both_ok : forall {A} (f : nat -> res A) a b, both f = Ok (a, b) -> f 0%nat = Ok a /\ f 1%nat = Ok b.
Proof.
  intros A f a b H. unfold both in H. destruct (f 0%nat) as [x|]; cbn [bind] in H; [|discriminate].
  destruct (f 1%nat) as [y|]; cbn [bind] in H; [|discriminate]. inversion H. auto.
Qed.

Lemma mirror_py : forall M py u v k, mirrored u v -> py_stiffness M py v k = py_stiffness M py u k.
Proof.
  intros M py u v k H. unfold py_stiffness. apply collect_ext. intros e He.
  apply both_ext; cbv beta; rewrite !spring_disp_node by lia; rewrite (proj1 (proj2 (H _))); apply py_even.
Qed.

Lemma mirror_tz : forall M tz u v k, mirrored u v -> tz_stiffness M tz v k = tz_stiffness M tz u k.
Proof.
  intros M tz u v k H. unfold tz_stiffness. apply collect_ext. intros e He.
  apply both_ext; cbv beta; rewrite !spring_disp_node by lia; rewrite !Nat.add_0_r, (proj1 (H _)); reflexivity.
Qed.

Lemma mirror_build : forall M u v k, w_mt M = None -> mirrored u v -> build M v k = build M u k.
Proof.
  intros M u v k NM H. unfold build, soil_elements. rewrite NM. unfold opt_res at 3 6.
  assert (EP : forall py, py_stiffness M py v k = py_stiffness M py u k) by (intros; apply mirror_py; auto).
  assert (ET : forall tz, tz_stiffness M tz v k = tz_stiffness M tz u k) by (intros; apply mirror_tz; auto).
  assert (S2 : (size M - 2 = 3 * w_n M + 1)%nat) by (unfold size; lia).
  assert (S1 : (size M - 1 = 3 * w_n M + 2)%nat) by (unfold size; lia).
  assert (S3 : (size M - 3 = 3 * w_n M)%nat) by (unfold size; lia).
  assert (B2 : forall o K, add_base M 2 o base_spring v k K = add_base M 2 o base_spring u k K).
  { intros [c|] K; auto. unfold add_base, opt_res. rewrite S2, (proj1 (proj2 (H _))), base_even. reflexivity. }
  assert (B1 : forall o K, add_base M 1 o base_spring v k K = add_base M 1 o base_spring u k K).
  { intros [c|] K; auto. unfold add_base, opt_res. rewrite S1, (proj2 (proj2 (H _))), base_even. reflexivity. }
  assert (B3 : forall o K, add_base M 3 o base_axial_spring v k K = add_base M 3 o base_axial_spring u k K).
  { intros [c|] K; auto. unfold add_base, opt_res. rewrite S3, (proj1 (H _)). reflexivity. }
  destruct (w_py M) as [py|]; cbn [opt_res]; [rewrite EP; destruct (py_stiffness M py u k) as [l|]; cbn [bind]; auto|cbn [bind]];
  (destruct (w_tz M) as [tz|]; cbn [opt_res]; [rewrite ET; destruct (tz_stiffness M tz u k) as [l'|]; cbn [bind]; auto|cbn [bind]]);
  rewrite B2; destruct (add_base M 2 _ _ _ _ _) as [K1|]; cbn [bind]; auto; rewrite B1; destruct (add_base M 1 _ _ _ _ _) as [K2|]; cbn [bind]; auto.
Qed.

(** With a negative mobilised resistance the curve for zero resistance is used. *)
Lemma interp_below : forall c x, c <> [] -> ordered c -> x < fst (point c 0) -> interp x c = snd (point c 0).
Proof.
  intros c x NE OR H. destruct c as [|[x0 y0] [|[x1 y1] t]]; [contradiction|reflexivity|]. rewrite interp_cons.
  unfold point in *. cbn [nth fst snd ordered] in *. destruct OR as [O1 _].
  rewrite (proj2 (Qltb_true x x1)), (proj2 (Qltb_true x x0)) by lra. reflexivity.
Qed.

Lemma mt_curve_negative : forall p pp cols, p < 0 -> nondecreasing (0 :: pp) -> (forall col, In col cols -> col <> []) ->
  mt_curve p (0 :: pp) cols = (0, 0) :: map (fun col => point col 0) (tl cols).
Proof.
  intros p pp cols P ND H. unfold mt_curve. f_equal. apply map_ext_in. intros col HC.
  assert (NE : col <> []) by (apply H; destruct cols; [destruct HC|right; auto]).
  destruct col as [|[x y] col]; [contradiction|]. rewrite !interp_below; auto; try (apply combine_ordered; auto); cbn; discriminate.
Qed.

Lemma interp_const : forall c x v, c <> [] -> ordered c -> (forall p, In p c -> snd p == v) -> interp x c == v.
Proof.
  intros c x v NE OR H. destruct (interp_between c x v v NE OR) as [A B]; [|lra]. intros p Hp. rewrite (H p Hp). lra.
Qed.

(** Rotational springs that carry nothing without lateral pressure vanish where the pile moves in the
    negative direction. *)
Lemma mt_vanishes : forall u p pp cols k v, p < 0 -> nondecreasing (0 :: pp) -> (forall col, In col cols -> col <> []) ->
  (forall col, In col cols -> snd (point col 0) == 0) -> ordered ((0, 0) :: map (fun col => point col 0) (tl cols)) ->
  mt_spring u p (0 :: pp) cols k = Ok v -> v == 0.
Proof.
  intros u p pp cols k v P ND NE Z OR H. unfold mt_spring in H. destruct (Qeq_bool (qsum _) 0); [assert (v = 0) by congruence; subst; reflexivity|].
  rewrite mt_curve_negative in H by auto. set (c := (0, 0) :: map (fun col => point col 0) (tl cols)) in *.
  assert (C0 : forall q, In q c -> snd q == 0).
  { intros q [<-|Hq]; [reflexivity|]. apply in_map_iff in Hq. destruct Hq as (col & <- & HC). apply Z. destruct cols; [destruct HC|right; auto]. }
  assert (CP : forall i, snd (pt c i) == 0).
  { intros i. unfold pt. destruct (nth_in_or_default i c (0, 0)) as [HI|E]; [auto|rewrite E; reflexivity]. }
  assert (CM : forall d, moment_at c d == 0).
  { intros d. unfold moment_at. destruct (Qltb _ d); [apply C0, last_in; discriminate|apply interp_const; auto; discriminate]. }
  assert (T : let '(dt, m0, m1) := mt_terms k (Qabs u) c in m0 == 0 /\ m1 == 0).
  { unfold mt_terms. destruct (_ || _)%bool; [split; apply CP|]. destruct k; split; try apply CM; apply CP. }
  destruct (mt_terms k (Qabs u) c) as [[dt m0] m1]. destruct T as [T0 T1]. destruct (Qeq_bool dt 0); [discriminate|].
  assert (E : v = Qabs (m1 - m0) / dt) by congruence. rewrite E.
  assert (X : Qabs (m1 - m0) == 0) by (rewrite T0, T1; reflexivity). rewrite X. unfold Qdiv. ring.
Qed.

(** ** Base mobilisation *)

Lemma base_reported : forall u c, (2 <= length c)%nat -> strict c -> hardening c -> origin (point c 0) ->
  exists p pmax, base_mobilised u c = Ok (p, pmax) /\ on_curve c (Qabs u) p /\ p <= pmax /\
    pmax == Qmax (snd (point c (length c - 1))) (fst (point c (length c - 1))).
Proof.
  intros u c L ST HD P0. destruct (base_secant u c L ST HD P0) as (k & p & A & B & C & D & E & F).
  assert (NE : c <> []) by (intro; subst; simpl in L; lia).
  assert (LN : In (point c (length c - 1)) c) by (apply nth_In; lia).
  unfold base_mobilised. rewrite A. cbn [bind]. exists (Qabs u * k), (qmax (map snd c ++ map fst c)). split; [reflexivity|].
  assert (EP : Qabs u * k == p) by (rewrite <- C; ring).
  assert (G1 : snd (point c (length c - 1)) <= qmax (map snd c ++ map fst c)) by (apply qmax_ge, in_or_app; left; apply in_map; auto).
  assert (G2 : fst (point c (length c - 1)) <= qmax (map snd c ++ map fst c)) by (apply qmax_ge, in_or_app; right; apply in_map; auto).
  split; [|split].
  - destruct B as [(j & B1 & B2 & B3 & B4 & B5)|[[B1 B2]|[B1 B2]]].
    + left. exists j. rewrite EP. auto.
    + right; left. rewrite EP. auto.
    + right; right. rewrite EP. auto.
  - rewrite EP. lra.
  - apply Qle_antisym; [|apply Q.max_lub; auto].
    destruct (qmax_in (map snd c ++ map fst c)) as (x & Hx & EX); [destruct c; [contradiction|discriminate]|]. rewrite EX.
    apply in_app_or in Hx. destruct Hx as [Hx|Hx]; apply in_map_iff in Hx; destruct Hx as (q & <- & Hq).
    + eapply Qle_trans; [|apply Q.le_max_l]. rewrite <- last_point by auto. apply hardening_le; auto.
    + eapply Qle_trans; [|apply Q.le_max_r]. rewrite <- last_point by auto. apply (strict_last_max c ST NE q Hq).
Qed.
