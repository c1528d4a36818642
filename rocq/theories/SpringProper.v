(** Spring stiffness and system matrix depend on the values of the displacements only, not on how the
    rational numbers are written; without displacement they do not depend on the kind of stiffness. *)
From Coq Require Import List Bool Arith ZArith QArith Qabs Qminmax Lia Lqa Setoid Morphisms.
From Verif Require Import Base LinAlg PileModel BeamModel BeamProofs SolveModel SolveSpec SolveProofs SpringModel SpringSpec SpringProofs SoilProofs.
Import ListNotations.
Local Open Scope Q_scope.

Definition req {A : Type} (R : A -> A -> Prop) (a b : res A) : Prop :=
  match a, b with Ok x, Ok y => R x y | Err e, Err e' => e = e' | _, _ => False end.

Definition qp (a b : Q * Q) : Prop := fst a == fst b /\ snd a == snd b.

Lemma req_bind : forall A B (R : A -> A -> Prop) (S' : B -> B -> Prop) a b f g, req R a b ->
  (forall x y, R x y -> req S' (f x) (g y)) -> req S' (bind a f) (bind b g).
Proof. intros A B R S' [x|e] [y|e'] f g H H'; cbn in *; auto; contradiction. Qed.

Lemma Qltb_comp : forall x x' y y', x == x' -> y == y' -> Qltb x y = Qltb x' y'.
Proof.
  intros x x' y y' H H'. destruct (Qltb x' y') eqn:E; [apply Qltb_true in E; apply Qltb_true|apply Qltb_false in E; apply Qltb_false]; lra.
Qed.

Lemma Qeqb_comp : forall x x' y y', x == x' -> y == y' -> Qeq_bool x y = Qeq_bool x' y'.
Proof. intros x x' y y' H H'. rewrite H, H'. reflexivity. Qed.

Lemma interp_step : forall x x0 y0 x1 y1 t, interp x ((x0, y0) :: (x1, y1) :: t) =
  if Qltb x x1 then (if Qltb x x0 then y0 else y0 + (y1 - y0) / (x1 - x0) * (x - x0)) else interp x ((x1, y1) :: t).
Proof. reflexivity. Qed.

Lemma interp_comp : forall c c' x x', x == x' -> Forall2 qp c c' -> interp x c == interp x' c'.
Proof.
  intros c c' x x' Hx H. induction H as [|[x0 y0] [x0' y0'] t t' [E1 E2] Ht IH]; [reflexivity|]. cbn in E1, E2.
  destruct Ht as [|[x1 y1] [x1' y1'] t t' [E3 E4] Ht]; [exact E2|]. cbn in E3, E4. rewrite !interp_step.
  rewrite (Qltb_comp x x' x1 x1' Hx E3), (Qltb_comp x x' x0 x0' Hx E1).
  destruct (Qltb x' x1'); [destruct (Qltb x' x0'); [exact E2|]|exact IH].
  rewrite E1, E2, E3, E4, Hx. reflexivity.
Qed.

Lemma qp_refl : forall p, qp p p.
Proof. intros p; split; reflexivity. Qed.
Lemma qp_list_refl : forall c, Forall2 qp c c.
Proof. induction c; constructor; auto using qp_refl. Qed.

Definition t3 (a b : Q * Q * Q) : Prop := fst (fst a) == fst (fst b) /\ snd (fst a) == snd (fst b) /\ snd a == snd b.

Lemma ratio_comp : forall a b, t3 a b -> req Qeq (ratio a) (ratio b).
Proof.
  intros [[dx p0] p1] [[dx' p0'] p1'] (E1 & E2 & E3). cbn in E1, E2, E3. unfold ratio.
  rewrite (Qeqb_comp dx dx' 0 0 E1) by reflexivity. destruct (Qeq_bool dx' 0); unfold req; [reflexivity|]. rewrite E1, E2, E3. reflexivity.
Qed.

Lemma resistance_comp : forall c d d', d == d' -> resistance c d == resistance c d'.
Proof.
  intros c d d' H. unfold resistance. rewrite (Qltb_comp _ (qmax (map fst c)) d d') by (auto; reflexivity).
  destruct (Qltb _ d'); [reflexivity|]. apply interp_comp; auto using qp_list_refl.
Qed.

Lemma lateral_terms_comp : forall k c d d', d == d' -> t3 (lateral_terms k d c) (lateral_terms k d' c).
Proof.
  intros k c d d' H. unfold lateral_terms. rewrite (Qeqb_comp d d' 0 0 H) by reflexivity.
  destruct (_ || Qeq_bool d' 0)%bool; [repeat split; reflexivity|].
  destruct k; repeat split; cbn; try reflexivity; try assumption; try (apply resistance_comp; auto).
  - rewrite H. reflexivity.
  - rewrite H. reflexivity.
Qed.

Lemma base_spring_comp : forall c k u u', u == u' -> req Qeq (base_spring u c k) (base_spring u' c k).
Proof.
  intros c k u u' H. unfold base_spring. destruct (Qeq_bool _ 0); [reflexivity|]. apply ratio_comp, lateral_terms_comp. rewrite H. reflexivity.
Qed.

Lemma py_spring_comp : forall c k u u', u == u' -> req Qeq (py_spring u c k) (py_spring u' c k).
Proof.
  intros c k u u' H. unfold py_spring. destruct (Qeq_bool _ 0); [reflexivity|]. apply ratio_comp, lateral_terms_comp. rewrite H. reflexivity.
Qed.

Lemma axial_terms_comp : forall k c d d', d == d' -> t3 (axial_terms k d c) (axial_terms k d' c).
Proof.
  intros k c d d' H. unfold axial_terms. rewrite (Qeqb_comp d d' 0 0 H) by reflexivity.
  destruct (_ || Qeq_bool d' 0)%bool; [repeat split; reflexivity|].
  destruct k; repeat split; cbn; try reflexivity; try assumption; try (apply interp_comp; auto using qp_list_refl).
  - rewrite H. reflexivity.
  - rewrite (Qltb_comp 0 0 d d') by (auto; reflexivity). destruct (Qltb 0 d'); rewrite H; reflexivity.
Qed.

Lemma base_axial_spring_comp : forall c k u u', u == u' -> req Qeq (base_axial_spring u c k) (base_axial_spring u' c k).
Proof. intros c k u u' H. unfold base_axial_spring. destruct (Qeq_bool _ 0); [reflexivity|]. apply ratio_comp, axial_terms_comp, H. Qed.

Lemma tz_spring_comp : forall c k u u', u == u' -> req Qeq (tz_spring u c k) (tz_spring u' c k).
Proof. intros c k u u' H. unfold tz_spring. destruct (Qeq_bool _ 0); [reflexivity|]. apply ratio_comp, axial_terms_comp, H. Qed.

Lemma mt_curve_comp : forall p p' pp cols, p == p' -> Forall2 qp (mt_curve p pp cols) (mt_curve p' pp cols).
Proof.
  intros p p' pp cols H. unfold mt_curve. constructor; [apply qp_refl|]. induction (tl cols) as [|col t IH]; constructor; auto.
  split; cbn; apply interp_comp; auto using qp_list_refl.
Qed.

Lemma nth_qp : forall c c' i, Forall2 qp c c' -> qp (nth i c (0, 0)) (nth i c' (0, 0)).
Proof. intros c c' i H. revert i. induction H; destruct i; cbn; auto using qp_refl. Qed.

Lemma last_qp : forall c c', Forall2 qp c c' -> qp (last_pt c) (last_pt c').
Proof.
  intros c c' H. unfold last_pt. induction H as [|x y t t' E Ht IH]; [apply qp_refl|]. destruct Ht; [exact E|]. exact IH.
Qed.

Lemma moment_at_comp : forall c c' d d', d == d' -> Forall2 qp c c' -> moment_at c d == moment_at c' d'.
Proof.
  intros c c' d d' H HC. unfold moment_at. destruct (last_qp c c' HC) as [E1 E2].
  rewrite (Qltb_comp (fst (last_pt c)) (fst (last_pt c')) d d' E1 H). destruct (Qltb _ d'); [exact E2|]. apply interp_comp; auto.
Qed.

Lemma mt_terms_comp : forall k c c' d d', d == d' -> Forall2 qp c c' -> t3 (mt_terms k d c) (mt_terms k d' c').
Proof.
  intros k c c' d d' H HC. unfold mt_terms. rewrite (Qeqb_comp d d' 0 0 H) by reflexivity.
  destruct (nth_qp c c' 0 HC) as [A0 B0]. destruct (nth_qp c c' 1 HC) as [A1 B1]. fold (pt c 0) (pt c' 0) in *. fold (pt c 1) (pt c' 1) in *.
  destruct (_ || Qeq_bool d' 0)%bool; [split; [|split]; cbn [fst snd]; auto; rewrite A0, A1; reflexivity|].
  destruct k; (split; [|split]); cbn [fst snd]; auto; try (apply moment_at_comp; auto).
  - rewrite H, A1. reflexivity.
  - rewrite H, A1. reflexivity.
Qed.

Lemma mt_spring_comp : forall pp cols k u u' p p', u == u' -> p == p' -> req Qeq (mt_spring u p pp cols k) (mt_spring u' p' pp cols k).
Proof.
  intros pp cols k u u' p p' H HP. unfold mt_spring. destruct (Qeq_bool (qsum _) 0); [reflexivity|].
  assert (T : t3 (mt_terms k (Qabs u) (mt_curve p pp cols)) (mt_terms k (Qabs u') (mt_curve p' pp cols))).
  { apply mt_terms_comp; [rewrite H; reflexivity|apply mt_curve_comp; auto]. }
  destruct (mt_terms k (Qabs u) _) as [[dt m0] m1]. destruct (mt_terms k (Qabs u') _) as [[dt' m0'] m1'].
  destruct T as (E1 & E2 & E3). cbn in E1, E2, E3. rewrite (Qeqb_comp dt dt' 0 0 E1) by reflexivity.
  destruct (Qeq_bool dt' 0); unfold req; [reflexivity|]. rewrite E1, E2, E3. reflexivity.
Qed.

Lemma collect_comp : forall n (f g : nat -> res (Q * Q)), (forall e, (e < n)%nat -> req qp (f e) (g e)) -> req (Forall2 qp) (collect n f) (collect n g).
Proof.
  induction n as [|n IH]; intros f g H; cbn [collect]; [constructor|]. eapply req_bind; [apply IH; intros; apply H; lia|].
  intros l l' HL. eapply req_bind; [apply H; lia|]. intros x y HX. cbn. apply Forall2_app; auto.
Qed.

Lemma both_comp : forall (f g : nat -> res Q), (forall j, (j < 2)%nat -> req Qeq (f j) (g j)) -> req qp (both f) (both g).
Proof.
  intros f g H. unfold both. eapply req_bind; [apply H; lia|]. intros x y E. eapply req_bind; [apply H; lia|]. intros x' y' E'. split; auto.
Qed.

Definition same_upto (n : nat) (K K' : mat) : Prop := forall i j, (i < n)%nat -> (j < n)%nat -> K i j == K' i j.
Definition same_all (K K' : mat) : Prop := forall i j, K i j == K' i j.

Lemma elem_py_comp : forall L a b a' b', a == a' -> b == b' -> same_all (elem_py L a b) (elem_py L a' b').
Proof. intros L a b a' b' H H' i j. unfold elem_py. cbv zeta. rewrite H, H'. reflexivity. Qed.
Lemma elem_tz_comp : forall L a b a' b', a == a' -> b == b' -> same_all (elem_tz L a b) (elem_tz L a' b').
Proof. intros L a b a' b' H H' i j. unfold elem_tz. cbv zeta. rewrite H, H'. reflexivity. Qed.
Lemma mt_matrix_comp : forall c a b a' b', a == a' -> b == b' -> same_all (mt_matrix c a b) (mt_matrix c a' b').
Proof. intros [[[A B] C] D] a b a' b' H H' i j. unfold mt_matrix. rewrite H, H'. reflexivity. Qed.
Lemma madd_comp : forall a b a' b', same_all a a' -> same_all b b' -> same_all (madd a b) (madd a' b').
Proof. intros a b a' b' H H' i j. unfold madd. rewrite (H i j), (H' i j). reflexivity. Qed.

Lemma spring_disp_comp : forall n u u' c e j, veq (3 * n + 3) u u' -> (e < n)%nat -> (j < 2)%nat -> (c < 3)%nat -> spring_disp n u c e j == spring_disp n u' c e j.
Proof.
  intros n u u' c e j H He Hj Hc. rewrite !spring_disp_node by lia. apply H. unfold spring_node. destruct (_ && _)%bool; lia.
Qed.

Definition elems_eq (a b : nat -> mat) : Prop := forall e, same_all (a e) (b e).

Section Build.
Variables (M : wmodel) (u u' : vec) (k : kind).
Hypothesis H : veq (size M) u u'.

Lemma kpair_comp : forall l l' e, Forall2 qp l l' -> qp (kpair l e) (kpair l' e).
Proof. intros. apply nth_qp; auto. Qed.

Lemma soil_elements_comp : req elems_eq (soil_elements M u k) (soil_elements M u' k).
Proof.
  unfold soil_elements. apply (req_bind _ _ elems_eq).
  - unfold opt_res. destruct (w_py M) as [py|]; [|intros e i j; reflexivity]. eapply req_bind.
    + apply collect_comp. intros e He. apply both_comp. intros j Hj. apply py_spring_comp, spring_disp_comp; auto.
    + intros l l' HL e. destruct (kpair_comp l l' e HL). apply madd_comp; [intros i j; reflexivity|apply elem_py_comp; auto].
  - intros k1 k1' H1. apply (req_bind _ _ elems_eq).
    + unfold opt_res. destruct (w_tz M) as [tz|]; [|exact H1]. eapply req_bind.
      * apply collect_comp. intros e He. apply both_comp. intros j Hj. apply tz_spring_comp, spring_disp_comp; auto; lia.
      * intros l l' HL e. destruct (kpair_comp l l' e HL). apply madd_comp; [apply H1|apply elem_tz_comp; auto].
    + intros k2 k2' H2. unfold opt_res. destruct (w_mt M) as [mt|]; [|exact H2]. destruct (w_py M) as [py|]; [|reflexivity]. eapply req_bind.
      * apply collect_comp. intros e He. apply both_comp. intros j Hj. eapply req_bind; [apply py_spring_comp, spring_disp_comp; auto|].
        intros x y E. apply mt_spring_comp; [apply spring_disp_comp; auto|].
        apply Qmult_comp; [exact E|apply spring_disp_comp; auto].
      * intros l l' HL e. destruct (kpair_comp l l' e HL). apply madd_comp; [apply H2|apply mt_matrix_comp; auto].
Qed.

Lemma jit_build_comp : forall a b, elems_eq a b -> same_all (jit_build (w_n M) a) (jit_build (w_n M) b).
Proof. intros a b E i j. unfold jit_build. apply sum_ext. intros e He. unfold block. destruct (_ && _)%bool; [apply E|reflexivity]. Qed.

Lemma add_base_comp : forall p o f K K', (1 <= p <= 3)%nat -> (forall c x y, x == y -> req Qeq (f x c k) (f y c k)) -> same_all K K' ->
  req same_all (add_base M p o f u k K) (add_base M p o f u' k K').
Proof.
  intros p o f K K' Hp Hf HK. unfold add_base, opt_res. destruct o as [c|]; [|exact HK]. eapply req_bind.
  - apply Hf, H. unfold size. lia.
  - intros x y E i j. unfold add_diag. destruct (_ && _)%bool; rewrite (HK i j); [rewrite E|]; reflexivity.
Qed.

Lemma build_comp : req same_all (build M u k) (build M u' k).
Proof.
  unfold build. eapply req_bind; [apply soil_elements_comp|]. intros a b E.
  eapply req_bind; [apply add_base_comp; [lia| |apply jit_build_comp, E]; intros; apply base_spring_comp; auto|]. intros K1 K1' E1.
  eapply req_bind; [apply add_base_comp; [lia| |exact E1]; intros; apply base_spring_comp; auto|]. intros K2 K2' E2.
  apply add_base_comp; [lia| |exact E2]. intros; apply base_axial_spring_comp; auto.
Qed.
End Build.

Section Rest.
Variables (M : wmodel) (k k' : kind).
Definition rest : vec := fun _ => 0.

Lemma component_rest : forall n c e j, (e < n)%nat -> (j < 2)%nat -> spring_disp n rest c e j = 0.
Proof. intros n c e j He Hj. rewrite spring_disp_node by auto. reflexivity. Qed.

Lemma collect_ext : forall A n (f g : nat -> res A), (forall e, (e < n)%nat -> f e = g e) -> collect n f = collect n g.
Proof. intros A n f g. induction n as [|n IH]; intros E; [reflexivity|]. cbn [collect]. rewrite IH by (intros; apply E; lia). rewrite E by lia. reflexivity. Qed.

Lemma lateral_rest : forall c, lateral_terms k (Qabs 0) c = lateral_terms k' (Qabs 0) c.
Proof. intros c. unfold lateral_terms. rewrite !orb_true_r. reflexivity. Qed.
Lemma axial_rest : forall c, axial_terms k 0 c = axial_terms k' 0 c.
Proof. intros c. unfold axial_terms. rewrite !orb_true_r. reflexivity. Qed.
Lemma mt_rest : forall c, mt_terms k (Qabs 0) c = mt_terms k' (Qabs 0) c.
Proof. intros c. unfold mt_terms. rewrite !orb_true_r. reflexivity. Qed.

Lemma base_rest : forall c, base_spring 0 c k = base_spring 0 c k'.
Proof. intros c. unfold base_spring. rewrite lateral_rest. reflexivity. Qed.
Lemma base_axial_rest : forall c, base_axial_spring 0 c k = base_axial_spring 0 c k'.
Proof. intros c. unfold base_axial_spring. rewrite axial_rest. reflexivity. Qed.
Lemma py_rest : forall c, py_spring 0 c k = py_spring 0 c k'.
Proof. intros c. unfold py_spring. rewrite lateral_rest. reflexivity. Qed.
Lemma tz_rest : forall c, tz_spring 0 c k = tz_spring 0 c k'.
Proof. intros c. unfold tz_spring. rewrite axial_rest. reflexivity. Qed.

Lemma py_stiffness_rest : forall py, py_stiffness M py rest k = py_stiffness M py rest k'.
Proof. intros py. apply collect_ext. intros e He. unfold both. rewrite !component_rest by (auto; lia). rewrite !(py_rest (py e _)). reflexivity. Qed.
Lemma tz_stiffness_rest : forall tz, tz_stiffness M tz rest k = tz_stiffness M tz rest k'.
Proof. intros tz. apply collect_ext. intros e He. unfold both. rewrite !component_rest by (auto; lia). rewrite !(tz_rest (tz e _)). reflexivity. Qed.
Lemma mt_stiffness_rest : forall py mt, mt_stiffness M py mt rest k = mt_stiffness M py mt rest k'.
Proof.
  intros py mt. apply collect_ext. intros e He. unfold both. rewrite !component_rest by (auto; lia).
  unfold mt_spring. destruct (py_spring 0 (py e 0%nat) Secant); cbn [bind]; [|reflexivity]. rewrite mt_rest.
  destruct (py_spring 0 (py e 1%nat) Secant); cbn [bind]; [|reflexivity]. rewrite mt_rest. reflexivity.
Qed.

(** Without displacement initial, secant and tangent stiffness are the same. *)
Lemma build_rest : build M rest k = build M rest k'.
Proof.
  unfold build, soil_elements, add_base, opt_res, rest.
  destruct (w_py M) as [py|], (w_tz M) as [tz|], (w_mt M) as [mt|], (w_hb M) as [hb|], (w_mb M) as [mb|], (w_qz M) as [qz|];
    try reflexivity;
    change (fun _ : nat => 0) with rest;
    rewrite ?py_stiffness_rest, ?tz_stiffness_rest, ?mt_stiffness_rest, ?base_rest, ?base_axial_rest; reflexivity.
Qed.
End Rest.
