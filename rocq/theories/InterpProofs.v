(** Interpolation as numpy promises it is that of the model where the abscissae are in order or the ordinates all the same,
    and so are the springs, the stiffness matrix and the analysis. *)
From Coq Require Import List Bool Arith ZArith QArith Qabs Qminmax Lia Lqa Setoid.
From Verif Require Import Base LinAlg PileModel BeamModel BeamProofs SolveModel SolveSpec SolveProofs SpringModel SpringSpec SpringProofs SoilProofs SpringProper WinklerModel TwinProofs InterpModel InterpSpec.
Import ListNotations.
Local Open Scope Q_scope.

(** ** Order *)
Lemma ordered_nth : forall c, ordered c <-> forall i j, (i <= j)%nat -> (j < length c)%nat -> fst (corner c i) <= fst (corner c j).
Proof.
  intros c. split.
  - induction c as [|[x0 y0] c IH]; intros OR i j L H; [cbn in H; lia|]. destruct i as [|i].
    + clear L. revert j H. assert (G : forall p, In p ((x0, y0) :: c) -> x0 <= fst p).
      { clear IH. revert x0 y0 OR. induction c as [|[x1 y1] c IH]; intros x0 y0 OR p [<-|I]; try (cbn; lra); [destruct I|]. cbn in OR. destruct OR as [A B]. apply Qle_trans with x1; [exact A|]. apply (IH x1 y1 B p I). }
      intros j H. apply (G (nth j ((x0, y0) :: c) (0, 0))), nth_In, H.
    + destruct j as [|j]; [lia|]. cbn [nth]. apply IH; [destruct c as [|[x1 y1] c]; [exact Logic.I|apply OR]|lia|cbn in H; lia].
  - induction c as [|[x0 y0] c IH]; intros H; [exact Logic.I|]. destruct c as [|[x1 y1] c]; [exact Logic.I|]. split; [apply (H 0%nat 1%nat); cbn; lia|].
    apply IH. intros i j L H'. apply (H (S i) (S j)); cbn in *; lia.
Qed.

Lemma ordered_tl : forall p c, ordered (p :: c) -> ordered c.
Proof. intros [x0 y0] [|[x1 y1] c] OR; [exact Logic.I|exact (proj2 OR)]. Qed.

Lemma last_final : forall c : curve, last_pt c = final c.
Proof.
  intros c. unfold last_pt, final. induction c as [|p c IH]; [reflexivity|]. destruct c as [|q c]; [reflexivity|].
  transitivity (last (q :: c) (0, 0)); [reflexivity|]. rewrite IH. cbn [length]. rewrite !Nat.sub_succ, !Nat.sub_0_r. reflexivity.
Qed.

(** The model's own interpolation on points in order *)
Lemma interp_segment : forall c x j, ordered c -> (S j < length c)%nat -> fst (corner c j) <= x -> x < fst (corner c (S j)) ->
  interp x c == snd (corner c j) + (snd (corner c (S j)) - snd (corner c j)) / (fst (corner c (S j)) - fst (corner c j)) * (x - fst (corner c j)).
Proof.
  induction c as [|[x0 y0] c IH]; intros x j OR HJ A B; [cbn in HJ; lia|]. destruct c as [|[x1 y1] c]; [cbn in HJ; lia|]. rewrite interp_step. destruct j as [|j].
  - cbn in A, B. rewrite (proj2 (Qltb_true x x1) B), (proj2 (Qltb_false x x0)) by lra. reflexivity.
  - assert (X : x1 <= x). { apply Qle_trans with (fst (corner ((x1, y1) :: c) j)); [|exact A]. apply (proj1 (ordered_nth _) (ordered_tl _ _ OR) 0%nat j); cbn in *; lia. }
    rewrite (proj2 (Qltb_false x x1) X). apply (IH x j (ordered_tl _ _ OR)); cbn in *; auto; lia.
Qed.
Lemma interp_after : forall c x, c <> [] -> ordered c -> fst (final c) <= x -> interp x c == snd (final c).
Proof.
  induction c as [|[x0 y0] c IH]; intros x NE OR A; [contradiction|]. destruct c as [|[x1 y1] c]; [reflexivity|]. rewrite interp_step.
  assert (E : final ((x0, y0) :: (x1, y1) :: c) = final ((x1, y1) :: c)) by (unfold final; cbn [length]; rewrite !Nat.sub_succ, !Nat.sub_0_r; reflexivity).
  rewrite E in A |- *. assert (X : x1 <= x). { apply Qle_trans with (fst (final ((x1, y1) :: c))); [|exact A]. unfold final. apply (proj1 (ordered_nth _) (ordered_tl _ _ OR) 0%nat); cbn; lia. }
  rewrite (proj2 (Qltb_false x x1) X). apply IH; [discriminate|exact (ordered_tl _ _ OR)|exact A].
Qed.
Lemma interp_before : forall c x, c <> [] -> ordered c -> x < fst (corner c 0) -> interp x c == snd (corner c 0).
Proof.
  intros [|[x0 y0] [|[x1 y1] c]] x NE OR A; [contradiction|reflexivity|]. rewrite interp_step. cbn in A. assert (x0 <= x1) by apply OR.
  rewrite (proj2 (Qltb_true x x1)), (proj2 (Qltb_true x x0)) by lra. reflexivity.
Qed.

Lemma in_order : forall c x v, c <> [] -> ordered c -> interpolated c x v -> v == interp x c.
Proof.
  intros c x v NE OR [(A & B)|[(A & B & C)|(A & B & [(j & H1 & H2 & H3 & H4)|(C & D)])]].
  - rewrite B. symmetry. apply interp_after; auto; lra.
  - rewrite C. symmetry. apply interp_before; auto.
  - rewrite H4. symmetry. apply interp_segment; auto.
  - rewrite D. symmetry. apply interp_after; auto; lra.
Qed.

Lemma on_flat : forall c x v, c <> [] -> flat c -> interpolated c x v -> forall p, In p c -> v == snd p.
Proof.
  intros c x v NE FL H p I. assert (L : (0 < length c)%nat) by (destruct c; [contradiction|cbn; lia]).
  assert (C : forall j, (j < length c)%nat -> snd (corner c j) == snd p) by (intros j Hj; apply FL; [apply nth_In; auto|exact I]).
  assert (CF : snd (final c) == snd p) by (apply C; lia).
  destruct H as [(_ & B)|[(_ & _ & B)|(_ & _ & [(j & H1 & H2 & H3 & H4)|(_ & B)])]].
  - rewrite B. exact CF.
  - rewrite B. apply C. exact L.
  - rewrite H4, (C (S j) H1), (C j) by lia. field. lra.
  - rewrite B. exact CF.
Qed.
Lemma interp_flat : forall c x, c <> [] -> flat c -> forall p, In p c -> interp x c == snd p.
Proof.
  induction c as [|[x0 y0] c IH]; intros x NE FL p I; [contradiction|]. destruct c as [|[x1 y1] c].
  - destruct I as [<-|[]]. reflexivity.
  - rewrite interp_step. assert (E0 : y0 == snd p) by (apply (FL (x0, y0) p); [left; reflexivity|exact I]). assert (E1 : y1 == snd p) by (apply (FL (x1, y1) p); [right; left; reflexivity|exact I]).
    assert (E2 : interp x ((x1, y1) :: c) == snd p).
    { rewrite <- E1. change y1 with (snd (x1, y1)). apply IH; [discriminate| |left; reflexivity]. intros a b A B. apply FL; right; auto. }
    destruct (Qltb x x1) eqn:L1; [|exact E2]. destruct (Qltb x x0) eqn:L0; [exact E0|]. apply Qltb_true in L1. apply Qltb_false in L0. rewrite E0, E1. field. lra.
Qed.
Lemma flat_same : forall c x v, c <> [] -> flat c -> interpolated c x v -> v == interp x c.
Proof.
  intros c x v NE FL H. destruct c as [|p c]; [contradiction|]. rewrite (on_flat (p :: c) x v NE FL H p (or_introl eq_refl)). symmetry. apply interp_flat; auto. left. reflexivity.
Qed.

Lemma model_interp : forall c x, c <> [] -> ordered c -> interpolated c x (interp x c).
Proof.
  intros c x NE OR. destruct (Qlt_le_dec (fst (final c)) x) as [A|A]; [left; split; [exact A|apply interp_after; auto; lra]|right].
  destruct (Qlt_le_dec x (fst (corner c 0))) as [B|B]; [left; split; [exact A|]; split; [exact B|apply interp_before; auto]|right]. split; [exact B|]. split; [exact A|].
  clear NE. revert A B. induction c as [|[x0 y0] c IH]; intros A B; [right; cbn in *; split; [lra|reflexivity]|]. destruct c as [|[x1 y1] c].
  - right. cbn in *. split; [lra|reflexivity].
  - assert (E : final ((x0, y0) :: (x1, y1) :: c) = final ((x1, y1) :: c)) by (unfold final; cbn [length]; rewrite !Nat.sub_succ, !Nat.sub_0_r; reflexivity).
    rewrite E in A. rewrite interp_step, E. destruct (Qltb x x1) eqn:L1.
    + apply Qltb_true in L1. cbn in B. rewrite (proj2 (Qltb_false x x0) B). left. exists 0%nat. cbn. split; [lia|]. split; [exact B|]. split; [exact L1|reflexivity].
    + apply Qltb_false in L1. destruct (IH (ordered_tl _ _ OR) A L1) as [(j & H1 & H2 & H3 & H4)|H]; [|right; exact H]. left. exists (S j). cbn [nth length] in *. split; [lia|]. auto.
Qed.

(** ** The bisection of numpy *)
Lemma bisect_ok : forall fuel imin imax pts x, (imax - imin <= fuel)%nat -> (imin <= imax)%nat -> (imax <= length pts)%nat ->
  (imin = 0%nat \/ fst (corner pts (imin - 1)) <= x) -> (imax = length pts \/ x < fst (corner pts imax)) ->
  let b := bisect fuel imin imax pts x in (imin <= b <= imax)%nat /\ (b = 0%nat \/ fst (corner pts (b - 1)) <= x) /\ (b = length pts \/ x < fst (corner pts b)).
Proof.
  induction fuel as [|fuel IH]; intros imin imax pts x HF L1 L2 A B; cbn [bisect].
  - assert (imin = imax) by lia. subst. cbv zeta. auto.
  - destruct (Nat.ltb_spec imin imax) as [L|L].
    + set (imid := (imin + (imax - imin) / 2)%nat).
      assert (D2 : ((imax - imin) / 2 < imax - imin)%nat) by (apply Nat.div_lt; lia). assert (D : (imin <= imid < imax)%nat) by (unfold imid; lia).
      cbv zeta. unfold pt. destruct (Qle_bool (fst (corner pts imid)) x) eqn:E.
      * apply Qle_bool_iff in E. destruct (IH (S imid) imax pts x) as (C1 & C2 & C3); try lia; auto. { right. rewrite Nat.sub_succ, Nat.sub_0_r. exact E. } split; [lia|]. auto.
      * assert (E' : x < fst (corner pts imid)) by (apply Qnot_le_lt; intros H; apply Qle_bool_iff in H; congruence).
        destruct (IH imin imid pts x) as (C1 & C2 & C3); try lia; auto. split; [lia|]. auto.
    + assert (imin = imax) by lia. subst. cbv zeta. auto.
Qed.

(** the guess narrows the interval only by what it has compared *)
Definition fair_start (start : curve -> Q -> nat * nat) : Prop := forall pts x, let '(imin, imax) := start pts x in
  (imin <= imax)%nat /\ (imax <= length pts)%nat /\ (imin = 0%nat \/ fst (corner pts (imin - 1)) <= x) /\ (imax = length pts \/ x < fst (corner pts imax)).

Lemma numpy_ok : forall start, fair_start start -> np_interp (numpy_interp start).
Proof.
  intros start FS x pts NE. assert (L : (0 < length pts)%nat) by (destruct pts; [contradiction|cbn; lia]). unfold numpy_interp, interpolated. rewrite last_final. unfold pt.
  destruct (Qltb (fst (final pts)) x) eqn:E1; [apply Qltb_true in E1; left; split; [exact E1|reflexivity]|]. apply Qltb_false in E1. right.
  destruct (Qltb x (fst (corner pts 0))) eqn:E2; [apply Qltb_true in E2; left; split; [exact E1|]; split; [exact E2|reflexivity]|]. apply Qltb_false in E2. right. split; [exact E2|]. split; [exact E1|].
  pose proof (FS pts x) as F. destruct (start pts x) as [imin imax]. destruct F as (F1 & F2 & F3 & F4). cbn [fst snd].
  destruct (bisect_ok (length pts) imin imax pts x ltac:(lia) F1 F2 F3 F4) as (B1 & B2 & B3). set (b := bisect (length pts) imin imax pts x) in *.
  destruct b as [|b']; [exfalso; destruct B3 as [B3|B3]; [lia|lra]|]. rewrite Nat.sub_succ, Nat.sub_0_r in *. destruct B2 as [B2|B2]; [discriminate|].
  destruct (Nat.eqb_spec b' (length pts - 1)) as [->|NB].
  - right. fold (final pts) in *. split; [lra|reflexivity].
  - assert (HB : (S b' < length pts)%nat) by lia. destruct B3 as [B3|B3]; [lia|]. left. exists b'. split; [exact HB|]. split; [exact B2|]. split; [exact B3|].
    destruct (Qeq_bool (fst (corner pts b')) x) eqn:EQ; [apply Qeq_bool_iff in EQ; rewrite EQ; field; lra|]. ring.
Qed.

(** ** Springs *)
Lemma same_build : build_by interp = build.
Proof. reflexivity. Qed.
Lemma same_winkler : winkler_by interp = winkler_model.
Proof. reflexivity. Qed.

Section Springs.
Variable f : Q -> curve -> Q.
Hypothesis NP : np_interp f.

Lemma f_order : forall c x, c <> [] -> ordered c -> f x c == interp x c.
Proof using NP. intros c x NE OR. apply in_order; auto. Qed.
Lemma f_flat : forall c x, c <> [] -> flat c -> f x c == interp x c.
Proof using NP. intros c x NE FL. apply flat_same; auto. Qed.

Lemma resistance_same : forall c d, c <> [] -> ordered c -> resistance_by f c d == resistance c d.
Proof using NP. intros c d NE OR. unfold resistance_by, resistance. destruct (Qltb _ d); [reflexivity|]. apply f_order; auto. Qed.

Lemma lateral_same : forall k d c, c <> [] -> ordered c -> t3 (lateral_terms_by f k d c) (lateral_terms k d c).
Proof using NP.
  intros k d c NE OR. unfold lateral_terms_by, lateral_terms. destruct (_ || _)%bool; [repeat split; reflexivity|].
  destruct k; (split; [|split]); cbn [fst snd]; try reflexivity; apply resistance_same; auto.
Qed.
Lemma base_same : forall u c k, c <> [] -> ordered c -> req Qeq (base_spring_by f u c k) (base_spring u c k).
Proof using NP. intros u c k NE OR. unfold base_spring_by, base_spring. destruct (Qeq_bool _ 0); [reflexivity|]. apply ratio_comp, lateral_same; auto. Qed.
Lemma py_same : forall u c k, c <> [] -> ordered c -> req Qeq (py_spring_by f u c k) (py_spring u c k).
Proof using NP. intros u c k NE OR. unfold py_spring_by, py_spring. destruct (Qeq_bool _ 0); [reflexivity|]. apply ratio_comp, lateral_same; auto. Qed.

Lemma axial_same : forall k d c, c <> [] -> ordered (rev c) -> t3 (axial_terms_by f k d c) (axial_terms k d c).
Proof using NP.
  intros k d c NE OR. assert (NR : rev c <> []) by (intros E; apply NE; rewrite <- (rev_involutive c), E; reflexivity). unfold axial_terms_by, axial_terms. cbv zeta. destruct (_ || _)%bool; [repeat split; reflexivity|].
  destruct k; (split; [|split]); cbn [fst snd]; try reflexivity; apply f_order; auto.
Qed.
Lemma base_axial_same : forall u c k, c <> [] -> ordered (rev c) -> req Qeq (base_axial_spring_by f u c k) (base_axial_spring u c k).
Proof using NP. intros u c k NE OR. unfold base_axial_spring_by, base_axial_spring. destruct (Qeq_bool _ 0); [reflexivity|]. apply ratio_comp, axial_same; auto. Qed.
Lemma tz_same : forall u c k, c <> [] -> ordered (rev c) -> req Qeq (tz_spring_by f u c k) (tz_spring u c k).
Proof using NP. intros u c k NE OR. unfold tz_spring_by, tz_spring. destruct (Qeq_bool _ 0); [reflexivity|]. apply ratio_comp, axial_same; auto. Qed.

(** *** rotational springs *)
Lemma interp_more : forall pp a b x, length a = length pp -> length b = length pp -> (forall k, (k < length pp)%nat -> nth k a 0 <= nth k b 0) -> interp x (combine pp a) <= interp x (combine pp b).
Proof using.
  clear. induction pp as [|x0 pp IH]; intros a b x LA LB H; [cbn; lra|]. destruct a as [|a0 a]; [discriminate|]. destruct b as [|b0 b]; [discriminate|].
  assert (H0 : a0 <= b0) by (apply (H 0%nat); cbn; lia). assert (HT : forall k, (k < length pp)%nat -> nth k a 0 <= nth k b 0) by (intros k K; apply (H (S k)); cbn; lia).
  injection LA as LA. injection LB as LB. destruct pp as [|x1 pp]; [exact H0|]. destruct a as [|a1 a]; [discriminate|]. destruct b as [|b1 b]; [discriminate|].
  assert (H1 : a1 <= b1) by (apply (HT 0%nat); cbn; lia). pose proof (IH (a1 :: a) (b1 :: b) x LA LB HT) as I'. cbn [combine] in *. rewrite !interp_step.
  destruct (Qltb x x1) eqn:L1; [|exact I']. destruct (Qltb x x0) eqn:L0; [exact H0|]. apply Qltb_true in L1. apply Qltb_false in L0.
  assert (P : 0 < x1 - x0) by lra. set (t := (x - x0) / (x1 - x0)).
  assert (T0 : 0 <= t) by (apply Qle_shift_div_l; lra). assert (T1 : t <= 1) by (apply Qle_shift_div_r; lra).
  setoid_replace (a0 + (a1 - a0) / (x1 - x0) * (x - x0)) with (a0 * (1 - t) + a1 * t) by (unfold t; field; lra). setoid_replace (b0 + (b1 - b0) / (x1 - x0) * (x - x0)) with (b0 * (1 - t) + b1 * t) by (unfold t; field; lra).
  assert (a0 * (1 - t) <= b0 * (1 - t)) by (apply Qmult_le_compat_r; lra). assert (a1 * t <= b1 * t) by (apply Qmult_le_compat_r; lra). lra.
Qed.

Lemma nth_fst : forall (col : curve) k, nth k (map fst col) 0 = fst (corner col k).
Proof using. clear. intros col k. change 0 with (fst (0, 0)) at 1. apply map_nth. Qed.

Lemma mt_ordered : forall p pp cols, rotations_in_order cols (length pp) -> ordered (SpringModel.mt_curve p pp cols).
Proof using.
  clear. intros p pp cols (LC & PO & OR). apply ordered_nth. unfold SpringModel.mt_curve. set (g := fun col => (interp p (combine pp (map fst col)), interp p (combine pp (map snd col)))).
  assert (NT : forall i, (i < length (tl cols))%nat -> corner (map g (tl cols)) i = g (nth (S i) cols [])).
  { intros i Hi. rewrite (nth_indep _ (0, 0) (g [])) by (rewrite map_length; auto). rewrite map_nth. destruct cols as [|c0 cols]; [cbn in Hi; lia|reflexivity]. }
  assert (LT : length (tl cols) = (length cols - 1)%nat) by (destruct cols; cbn; lia).
  intros i j L H. assert (HL : (j < S (length (tl cols)))%nat) by (cbn [length] in H; rewrite map_length in H; exact H). clear H. destruct j as [|j]; [assert (i = 0%nat) by lia; subst; lra|]. change (corner ((0, 0) :: map g (tl cols)) (S j)) with (corner (map g (tl cols)) j). rewrite (NT j) by lia. destruct i as [|i].
  - cbn [nth fst]. unfold g. cbn [fst]. apply interp_nonneg. intros q I. destruct q as [a b]. apply in_combine_r in I. apply in_map_iff in I. destruct I as (q & <- & I). cbn [snd]. apply (PO (nth (S j) cols [])); [apply nth_In; lia|exact I].
  - change (corner ((0, 0) :: map g (tl cols)) (S i)) with (corner (map g (tl cols)) i). rewrite (NT i) by lia. unfold g. cbn [fst]. apply interp_more; [rewrite map_length; apply LC, nth_In; lia|rewrite map_length; apply LC, nth_In; lia|].
    intros k K. rewrite !nth_fst. apply OR; lia.
Qed.

Lemma column_same : forall p pp (ys : list Q), pp <> [] -> length ys = length pp -> (nondecreasing pp \/ forall y y', In y ys -> In y' ys -> y == y') -> f p (combine pp ys) == interp p (combine pp ys).
Proof using NP.
  intros p pp ys NE LN H. assert (NC : combine pp ys <> []) by (destruct pp; [contradiction|]; destruct ys; [discriminate|discriminate]).
  destruct H as [ND|EV]; [apply f_order; [exact NC|apply combine_ordered; exact ND]|]. apply f_flat; [exact NC|]. intros [a b] [a' b'] I I'. apply in_combine_r in I. apply in_combine_r in I'. apply EV; auto.
Qed.

Lemma both_maps : forall (A B C : Type) (R : B -> C -> Prop) (g : A -> B) (h : A -> C) l, (forall x, In x l -> R (g x) (h x)) -> Forall2 R (map g l) (map h l).
Proof using. clear. intros A B C R g h l. induction l as [|x l IH]; intros H; constructor; [apply H; left; reflexivity|apply IH; intros; apply H; right; auto]. Qed.

Lemma mt_curve_same : forall p pp cols, searchable_mt pp cols -> Forall2 qp (mt_curve_by f p pp cols) (SpringModel.mt_curve p pp cols).
Proof using NP.
  intros p pp cols ((LC & _) & NE & SE). unfold mt_curve_by, SpringModel.mt_curve. constructor; [apply qp_refl|].
  assert (IN : forall col, In col (tl cols) -> In col cols) by (destruct cols; [intros col []|intros col I; right; exact I]).
  apply both_maps. intros col I. apply IN in I. split; cbn [fst snd]; apply column_same; auto; try (rewrite map_length; apply LC; auto).
  - destruct SE as [ND|EV]; [left; exact ND|right]. intros y y' Y Y'. apply in_map_iff in Y. apply in_map_iff in Y'. destruct Y as (q & <- & Y), Y' as (q' & <- & Y'). apply (EV col I); auto.
  - destruct SE as [ND|EV]; [left; exact ND|right]. intros y y' Y Y'. apply in_map_iff in Y. apply in_map_iff in Y'. destruct Y as (q & <- & Y), Y' as (q' & <- & Y'). apply (EV col I); auto.
Qed.

Lemma ordered_qp : forall c c', Forall2 qp c c' -> ordered c' -> ordered c.
Proof using.
  clear. intros c c' H. induction H as [|[x0 y0] [x0' y0'] t t' [E1 E2] Ht IH]; intros OR; [exact Logic.I|]. destruct Ht as [|[x1 y1] [x1' y1'] t t' [E3 E4] Ht]; [exact Logic.I|].
  destruct OR as [A B]. split; [cbn in *; lra|apply IH; exact B].
Qed.

Lemma moment_same : forall c c' d, Forall2 qp c c' -> c <> [] -> ordered c' -> moment_at_by f c d == moment_at c' d.
Proof using NP.
  intros c c' d H NE OR. transitivity (moment_at c d); [|apply moment_at_comp; [reflexivity|exact H]]. unfold moment_at_by, moment_at. destruct (Qltb _ d); [reflexivity|]. apply f_order; [exact NE|]. apply (ordered_qp c c'); auto.
Qed.

Lemma mt_terms_same : forall k d c c', Forall2 qp c c' -> c <> [] -> ordered c' -> t3 (mt_terms_by f k d c) (mt_terms k d c').
Proof using NP.
  intros k d c c' HC NE OR. unfold mt_terms_by, mt_terms.
  destruct (nth_qp c c' 0 HC) as [A0 B0]. destruct (nth_qp c c' 1 HC) as [A1 B1]. fold (pt c 0) (pt c' 0) in *. fold (pt c 1) (pt c' 1) in *.
  destruct (_ || _)%bool; [split; [|split]; cbn [fst snd]; auto; rewrite A0, A1; reflexivity|].
  assert (MD : forall x y, x == y -> moment_at_by f c x == moment_at c' y) by (intros x y E; transitivity (moment_at c' x); [apply moment_same; auto|apply moment_at_comp; [exact E|apply qp_list_refl]]).
  destruct k; (split; [|split]); cbn [fst snd]; auto; try reflexivity; try (apply MD; rewrite ?A1; reflexivity). rewrite A1. reflexivity.
Qed.

Lemma mt_same : forall u p p' pp cols k, p == p' -> searchable_mt pp cols -> req Qeq (mt_spring_by f u p pp cols k) (mt_spring u p' pp cols k).
Proof using NP.
  intros u p p' pp cols k EP SE. unfold mt_spring_by, mt_spring. destruct (Qeq_bool (qsum _) 0); [reflexivity|].
  assert (HC : Forall2 qp (mt_curve_by f p pp cols) (SpringModel.mt_curve p' pp cols)).
  { pose proof (mt_curve_same p pp cols SE) as A. pose proof (mt_curve_comp p p' pp cols EP) as B. revert A B. generalize (mt_curve_by f p pp cols) (SpringModel.mt_curve p pp cols) (SpringModel.mt_curve p' pp cols).
    clear. intros a b c A. revert c. induction A as [|x y l l' [X Y] A IH]; intros c B; inversion B as [|y' z m m' [X' Y'] B']; subst; constructor; [split; [rewrite X; exact X'|rewrite Y; exact Y']|apply IH; exact B']. }
  assert (T : t3 (mt_terms_by f k (Qabs u) (mt_curve_by f p pp cols)) (mt_terms k (Qabs u) (SpringModel.mt_curve p' pp cols))) by (apply mt_terms_same; [exact HC|discriminate|apply mt_ordered; apply SE]).
  destruct (mt_terms_by f k (Qabs u) _) as [[dt m0] m1]. destruct (mt_terms k (Qabs u) _) as [[dt' m0'] m1'].
  destruct T as (E1 & E2 & E3). cbn in E1, E2, E3. rewrite (Qeqb_comp dt dt' 0 0 E1) by reflexivity.
  destruct (Qeq_bool dt' 0); unfold req; [reflexivity|]. rewrite E1, E2, E3. reflexivity.
Qed.

(** ** The stiffness matrix *)
Record searchable (M : wmodel) : Prop := {
  se_py : forall py e j, w_py M = Some py -> (e < w_n M)%nat -> (j < 2)%nat -> py e j <> [] /\ ordered (py e j);
  se_tz : forall tz e j, w_tz M = Some tz -> (e < w_n M)%nat -> (j < 2)%nat -> tz e j <> [] /\ ordered (rev (tz e j));
  se_mt : forall py mt e j, w_py M = Some py -> w_mt M = Some mt -> (e < w_n M)%nat -> (j < 2)%nat -> searchable_mt (map snd (py e j)) (mt e j);
  se_hb : forall c, w_hb M = Some c -> c <> [] /\ ordered c;
  se_mb : forall c, w_mb M = Some c -> c <> [] /\ ordered c;
  se_qz : forall c, w_qz M = Some c -> c <> [] /\ ordered (rev c) }.

Lemma elements_same : forall M u k, searchable M -> req elems_eq (soil_elements_by f M u k) (soil_elements M u k).
Proof using NP.
  intros M u k SE. unfold soil_elements_by, soil_elements. apply (req_bind _ _ elems_eq).
  - unfold opt_res. destruct (w_py M) as [py|] eqn:EP; [|intros e i j; reflexivity]. eapply req_bind.
    + apply collect_comp. intros e He. apply both_comp. intros j Hj. apply py_same; apply (se_py M SE py e j EP He Hj).
    + intros l l' HL e. destruct (kpair_comp l l' e HL). apply madd_comp; [intros i j; reflexivity|apply elem_py_comp; auto].
  - intros k1 k1' H1. apply (req_bind _ _ elems_eq).
    + unfold opt_res. destruct (w_tz M) as [tz|] eqn:ET; [|exact H1]. eapply req_bind.
      * apply collect_comp. intros e He. apply both_comp. intros j Hj. apply tz_same; apply (se_tz M SE tz e j ET He Hj).
      * intros l l' HL e. destruct (kpair_comp l l' e HL). apply madd_comp; [apply H1|apply elem_tz_comp; auto].
    + intros k2 k2' H2. unfold opt_res. destruct (w_mt M) as [mt|] eqn:EM; [|exact H2]. destruct (w_py M) as [py|] eqn:EP; [|reflexivity]. eapply req_bind.
      * apply collect_comp. intros e He. apply both_comp. intros j Hj. eapply req_bind; [apply py_same; apply (se_py M SE py e j EP He Hj)|].
        intros x y E. apply mt_same; [rewrite E; reflexivity|apply (se_mt M SE py mt e j EP EM He Hj)].
      * intros l l' HL e. destruct (kpair_comp l l' e HL). apply madd_comp; [apply H2|apply mt_matrix_comp; auto].
Qed.

Lemma base_by : forall M p o g g' u k K K', (forall c, o = Some c -> req Qeq (g (u (size M - p)%nat) c k) (g' (u (size M - p)%nat) c k)) -> same_all K K' ->
  req same_all (add_base M p o g u k K) (add_base M p o g' u k K').
Proof using.
  clear. intros M p o g g' u k K K' H HK. unfold add_base, opt_res. destruct o as [c|]; [|exact HK]. eapply req_bind; [apply H; reflexivity|].
  intros x y E i j. unfold add_diag. destruct (_ && _)%bool; rewrite (HK i j); [rewrite E|]; reflexivity.
Qed.

Lemma build_same : forall M u k, searchable M -> req same_all (build_by f M u k) (build M u k).
Proof using NP.
  intros M u k SE. unfold build_by, build. eapply req_bind; [apply elements_same; exact SE|]. intros a b E.
  eapply req_bind; [apply base_by; [|apply jit_build_comp, E]; intros c EC; apply base_same; apply (se_hb M SE c EC)|]. intros K1 K1' E1.
  eapply req_bind; [apply base_by; [|exact E1]; intros c EC; apply base_same; apply (se_mb M SE c EC)|]. intros K2 K2' E2.
  apply base_by; [|exact E2]. intros c EC. apply base_axial_same; apply (se_qz M SE c EC).
Qed.
End Springs.

(** ** The analysis *)
Definition same_vectors (n : nat) (x y : option vec) : Prop := match x, y with Some v, Some w => veq n v w | None, None => True | _, _ => False end.
Definition same_outcome (n : nat) (o o' : outcome) : Prop :=
  same_vectors n (o_d o) (o_d o') /\ same_vectors n (o_Q o) (o_Q o') /\ o_iter o = o_iter o' /\ Forall2 (veq n) (o_hist o) (o_hist o').

Lemma analysis_same : forall f solve M F U0 r max_iter, np_interp f -> solver_ok solve -> searchable M ->
  req (same_outcome (size M)) (winkler_model solve M F U0 r max_iter) (winkler_by f solve M F U0 r max_iter).
Proof.
  intros f solve M F U0 r mi NP SO SE. unfold winkler_model, winkler_by. set (one := fun _ : nat => 1).
  assert (HB : forall d d' k, disps (size M) one d d' -> req (stiffs (size M) one one) (build M d k) (build_by f M d' k)).
  { intros d d' k HD. assert (V : veq (size M) d d') by (intros i Hi; rewrite (HD i Hi); unfold one; ring).
    pose proof (build_comp M d d' k V) as A. pose proof (build_same f NP M d' k SE) as B.
    destruct (build M d k) as [K|e], (build M d' k) as [K1|e1], (build_by f M d' k) as [K2|e2]; cbn [req] in *; try contradiction; [|congruence].
    intros i j Hi Hj. unfold one. rewrite (B i j), (A i j). ring. }
  pose proof (twin_winkler (size M) one one) as TW. specialize (TW ltac:(intros; unfold one; discriminate) ltac:(intros; unfold one; discriminate) solve solve (supports_of r U0) (supports_of r U0) ltac:(auto) SO SO
    (build M) (build_by f M) F F U0 U0 1 ltac:(intros; unfold one; reflexivity) ltac:(reflexivity) HB ltac:(intros i Hi; unfold one; ring) ltac:(intros i Hi; unfold one; ring) mi).
  destruct (winkler solve (size M) (build M) F U0 _ mi) as [o|e], (winkler solve (size M) (build_by f M) F U0 _ mi) as [o'|e']; cbn [req] in *; try contradiction; [|exact TW].
  destruct TW as (D & R & I & _ & _ & H).
  assert (DV : forall v v', disps (size M) one v v' -> veq (size M) v v') by (intros v v' X i Hi; rewrite (X i Hi); unfold one; ring).
  assert (LV : forall v v', loads (size M) one v v' -> veq (size M) v v') by (intros v v' X i Hi; rewrite (X i Hi); unfold one; ring).
  unfold same_outcome, same_vectors. split; [|split; [|split]].
  - destruct (o_d o), (o_d o'); cbn in D; auto.
  - destruct (o_Q o), (o_Q o'); cbn in R; auto.
  - exact I.
  - induction H; constructor; auto.
Qed.
