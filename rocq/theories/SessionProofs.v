From Coq Require Import List Bool Arith ZArith QArith Qabs Qminmax Permutation Lia Lqa.
From Verif Require Import Base LinAlg PileModel StressModel GetterModel GetterProofs SolveModel SolveSpec SpringModel SpringProofs SpringProper WinklerModel ResultModel CreateModel BCModel BCSpec BCProofs WholeModel WholeSpec WholeProofs SessionModel SessionSpec.
Import ListNotations.
Local Open Scope Q_scope.

Lemma session_app : forall solve fr l l' st, session solve fr (l ++ l') st =
  let '(a, s) := session solve fr l st in let '(b, s') := session solve fr l' s in (a ++ b, s').
Proof.
  intros solve fr l l'. induction l as [|o l IH]; intros st; cbn [app session].
  - destruct (session solve fr l' st); reflexivity.
  - destruct (step solve fr o st) as [a s1]. rewrite IH. destruct (session solve fr l s1) as [r s2]. destruct (session solve fr l' s2). reflexivity.
Qed.

Lemma session_length : forall solve fr l st, length (fst (session solve fr l st)) = length l.
Proof.
  intros solve fr l. induction l as [|o l IH]; intros st; [reflexivity|]. cbn [session]. destruct (step solve fr o st) as [a s1].
  specialize (IH s1). destruct (session solve fr l s1) as [r s2]. cbn in *. lia.
Qed.

Lemma answer_at : forall solve fr l o l' st, nth_error (fst (session solve fr (l ++ o :: l') st)) (length l) = Some (fst (step solve fr o (snd (session solve fr l st)))).
Proof.
  intros solve fr l o l' st. rewrite session_app. pose proof (session_length solve fr l st) as L. destruct (session solve fr l st) as [a s]. cbn [fst snd] in *.
  cbn [session]. destruct (step solve fr o s) as [x s1]. destruct (session solve fr l' s1) as [r s2]. cbn [fst].
  rewrite nth_error_app2 by lia. rewrite L, Nat.sub_diag. reflexivity.
Qed.

(** the tables a program asks for, in order *)
Fixpoint tables (l : list op) : list (getter * layout) :=
  match l with [] => [] | Table g k :: t => (g, k) :: tables t | _ :: t => tables t end.

Lemma readings_touched : forall l, readings Lateral l = touched Lateral (tables l) /\ readings Axial l = touched Axial (tables l).
Proof.
  induction l as [|o l [A B]]; [split; reflexivity|]. unfold readings in *. cbn [fold_right]. rewrite A, B.
  destruct o as [c|[] []| | |]; cbn; auto.
Qed.

Definition elev (fr : frame) (i : nat) : Q := nth i (fr_nodes fr) 0.

Lemma session_state : forall solve fr l st, fr_soil fr = true ->
  snd (session solve fr l st) = {| st_bcs := run (setters l) (st_bcs st); st_springs := snd (calls (fr_n fr) spring_dim (elev fr) (tables l) (st_springs st)) |}.
Proof.
  intros solve fr l st HS. revert st. induction l as [|o l IH]; intros st; [destruct st; reflexivity|]. cbn [session].
  destruct (step solve fr o st) as [a s1] eqn:E. specialize (IH s1). destruct (session solve fr l s1) as [r s2]. cbn [snd] in *. rewrite IH. clear IH.
  destruct o as [c|g k| | |]; cbn [step] in E; try (injection E as <- <-; reflexivity).
  unfold table_state in E. rewrite HS in E. fold (elev fr) in E. cbn [tables calls setters].
  destruct (GetterModel.call (fr_n fr) spring_dim (elev fr) g k (st_springs st)) as [t s'] eqn:C. injection E as <- <-. cbn [st_bcs st_springs].
  fold (elev fr). destruct (calls (fr_n fr) spring_dim (elev fr) (tables l) s'); reflexivity.
Qed.

Lemma session_state_no_soil : forall solve fr l st, fr_soil fr = false ->
  snd (session solve fr l st) = {| st_bcs := run (setters l) (st_bcs st); st_springs := st_springs st |}.
Proof.
  intros solve fr l st HS. revert st. induction l as [|o l IH]; intros st; [destruct st; reflexivity|]. cbn [session].
  destruct (step solve fr o st) as [a s1] eqn:E. specialize (IH s1). destruct (session solve fr l s1) as [r s2]. cbn [snd] in *. rewrite IH. clear IH.
  destruct o as [c|g k| | |]; cbn [step] in E; try (injection E as <- <-; reflexivity).
  unfold table_state in E. rewrite HS in E. injection E as <- <-. reflexivity.
Qed.

Lemma untouched : forall n dim z l s, touched Lateral l = O -> touched Axial l = O -> snd (calls n dim z l s) = s.
Proof.
  intros n dim z l. induction l as [|[g k] t IH]; intros s HL HA; [reflexivity|]. cbn [touched] in HL, HA. cbn [calls].
  destruct (GetterModel.call n dim z g k s) as [r s1] eqn:C.
  assert (E : s1 = s). { destruct g, k; cbn in HL, HA, C; try discriminate; injection C as _ <-; reflexivity. }
  subst s1. specialize (IH s ltac:(lia) ltac:(lia)). destruct (calls n dim z t s). cbn in *. exact IH.
Qed.

Lemma session_untouched : forall solve fr l st, readings Lateral l = O -> readings Axial l = O ->
  snd (session solve fr l st) = {| st_bcs := run (setters l) (st_bcs st); st_springs := st_springs st |}.
Proof.
  intros solve fr l st HL HA. destruct (fr_soil fr) eqn:HS; [|apply session_state_no_soil; exact HS].
  rewrite session_state by exact HS. destruct (readings_touched l) as [A B]. rewrite untouched by congruence. reflexivity.
Qed.

(** ** tables of boundary conditions from the values in force *)
Lemma holds_sends : forall nodes l k i a q, (exists b, In b l /\ sends nodes k i a b q) <-> (exists e, maps_to nodes e i /\ holds l k e a q /\ ~ q == 0).
Proof.
  intros nodes l k i a q. split.
  - intros (b & Hb & K & M & G & NZ). exists (bc_elev b). split; [exact M|]. split; [|exact NZ]. exists b. split; [exact Hb|]. split; [split; [exact K|reflexivity]|exact G].
  - intros (e & M & (b & Hb & (K & E) & G) & NZ). exists b. split; [exact Hb|]. split; [exact K|]. split; [|split; [exact G|exact NZ]].
    destruct M as (z & N & C & F). exists z. split; [exact N|]. split; [rewrite E; exact C|]. intros j y Hj Hy. rewrite E. exact (F j y Hj Hy).
Qed.

Lemma sent_last : forall nodes k l i a b q, separate nodes l -> In b l -> sends nodes k i a b q -> last_sent nodes k l i a q.
Proof.
  intros nodes k l i a b q SP Hb HS. apply in_split in Hb as (l1 & l2 & ->). exists l1, b, l2. split; [reflexivity|]. split; [exact HS|].
  intros b' q' Hb' HS'. destruct HS as (K & M & _). destruct HS' as (K' & M' & _). unfold separate in SP.
  induction l1 as [|x l1 IH]; cbn [app] in SP; inversion SP as [|x0 y0 HF HO]; subst.
  - rewrite Forall_forall in HF. exact (HF b' Hb' (eq_sym K') i M M').
  - apply IH; exact HO.
Qed.

Lemma column_of_values : forall cast nodes k l l' a, separate nodes l -> separate nodes l' ->
  (forall i q, (exists b, In b l /\ sends nodes k i a b q) <-> (exists b, In b l' /\ sends nodes k i a b q)) ->
  col a (apply_bc cast nodes k l (zeros nodes)) = col a (apply_bc cast nodes k l' (zeros nodes)).
Proof.
  intros cast nodes k l l' a S1 S2 H.
  assert (LE : forall x, length (col a (apply_bc cast nodes k x (zeros nodes))) = length nodes)
    by (intros x; rewrite apply_bc_col_length, zeros_col, map_length; reflexivity).
  apply (nth_ext _ _ 0 0); [rewrite !LE; reflexivity|]. intros i Hi. rewrite LE in Hi.
  destruct (apply_bc_column cast nodes k l a i Hi) as [(q & (l1 & b & l2 & EL & HS & _) & V)|(N & V)].
  - destruct (proj1 (H i q)) as (b' & Hb' & HS'). { exists b. split; [rewrite EL; apply in_or_app; right; left; reflexivity|exact HS]. }
    pose proof (apply_bc_sent cast nodes k l' a i q Hi (sent_last nodes k l' i a b' q S2 Hb' HS')) as V'.
    rewrite (nth_error_nth _ _ 0 V), (nth_error_nth _ _ 0 V'). reflexivity.
  - assert (N' : forall b q, In b l' -> ~ sends nodes k i a b q).
    { intros b q Hb HS. destruct (proj2 (H i q)) as (b' & Hb' & HS'); [exists b; auto|]. exact (N b' q Hb' HS'). }
    pose proof (apply_bc_not_sent cast nodes k l' a i Hi N') as V'. rewrite (nth_error_nth _ _ 0 V), (nth_error_nth _ _ 0 V'). reflexivity.
Qed.

Lemma table_of_values : forall cast nodes k l l', separate nodes l -> separate nodes l' -> (forall e a q, holds l k e a q <-> holds l' k e a q) ->
  apply_bc cast nodes k l (zeros nodes) = apply_bc cast nodes k l' (zeros nodes).
Proof.
  intros cast nodes k l l' S1 S2 H.
  assert (C : forall a, col a (apply_bc cast nodes k l (zeros nodes)) = col a (apply_bc cast nodes k l' (zeros nodes))).
  { intros a. apply column_of_values; auto. intros i q. rewrite !holds_sends. split; intros (e & M & X & NZ); exists e; (split; [exact M|]); (split; [|exact NZ]); apply H; exact X. }
  pose proof (C AX) as X. pose proof (C AY) as Y. pose proof (C AZ) as Z.
  destruct (apply_bc cast nodes k l (zeros nodes)), (apply_bc cast nodes k l' (zeros nodes)). cbn in X, Y, Z. subst. reflexivity.
Qed.

Lemma solve_of_values : forall solve fr s l l', (forall k, validate_bc l k = Ok tt) -> (forall k, validate_bc l' k = Ok tt) ->
  separate (fr_nodes fr) l -> separate (fr_nodes fr) l' -> (forall k e a q, holds l k e a q <-> holds l' k e a q) ->
  solve_state solve fr {| st_bcs := l; st_springs := s |} = solve_state solve fr {| st_bcs := l'; st_springs := s |}.
Proof.
  intros solve fr s l l' V V' S1 S2 H. unfold solve_state, global_forces, global_disp, global_restrained. cbn [st_bcs st_springs].
  rewrite !V, !V'. cbn [bind].
  rewrite (table_of_values int_cast _ Force l l' S1 S2 (H Force)), (table_of_values (fun q => q) _ Displacement l l' S1 S2 (H Displacement)),
    (table_of_values (fun _ => 1) _ Fixation l l' S1 S2 (H Fixation)). reflexivity.
Qed.

(** ** springs with all resistances multiplied by one factor *)
Section Scale.
Variable w : Q.
Hypothesis Hw : 0 <= w.

Definition scaled_pt (p p' : Q * Q) : Prop := fst p' == fst p /\ snd p' == w * snd p.
Definition scaled (c c' : curve) : Prop := Forall2 scaled_pt c c'.

Lemma scaled_qsum : forall c c' (f : Q -> Q), (forall x y, x == y -> f x == f y) -> scaled c c' -> qsum (map (fun p => f (fst p)) c') == qsum (map (fun p => f (fst p)) c).
Proof. intros c c' f Hf H. induction H as [|p p' t t' [E _] _ IH]; [reflexivity|]. cbn [map qsum]. rewrite (Hf _ _ E), IH. reflexivity. Qed.

Lemma scaled_qmax : forall c c', scaled c c' -> qmax (map fst c') == qmax (map fst c).
Proof.
  intros c c' H. induction H as [|p p' t t' [E _] Ht IH]; [reflexivity|]. destruct Ht as [|q q' t t' HQ Ht]; [exact E|].
  change (qmax (map fst (p' :: q' :: t'))) with (Qmax (fst p') (qmax (map fst (q' :: t')))).
  change (qmax (map fst (p :: q :: t))) with (Qmax (fst p) (qmax (map fst (q :: t)))). rewrite E, IH. reflexivity.
Qed.

Lemma scaled_interp : forall c c' x x', x' == x -> scaled c c' -> interp x' c' == w * interp x c.
Proof.
  intros c c' x x' Hx H. induction H as [|[x0 y0] [x0' y0'] t t' [E1 E2] Ht IH]; [cbn; ring|]. cbn in E1, E2.
  destruct Ht as [|[x1 y1] [x1' y1'] t t' [E3 E4] Ht]; [exact E2|]. cbn in E3, E4. rewrite !interp_step.
  rewrite (Qltb_comp x' x x1' x1 Hx E3), (Qltb_comp x' x x0' x0 Hx E1). destruct (Qltb x x1); [|exact IH].
  destruct (Qltb x x0); [exact E2|]. rewrite E1, E2, E3, E4, Hx. unfold Qdiv. ring.
Qed.

Lemma scaled_nth : forall c c' i, scaled c c' -> scaled_pt (nth i c (0, 0)) (nth i c' (0, 0)).
Proof. intros c c' i H. revert i. induction H; destruct i; cbn; auto; split; cbn; try reflexivity; ring. Qed.

Lemma scaled_last : forall c c', scaled c c' -> scaled_pt (last_pt c) (last_pt c').
Proof.
  intros c c' H. unfold last_pt. induction H as [|x y t t' E Ht IH]; [split; cbn; [reflexivity|ring]|]. destruct Ht; [exact E|]. exact IH.
Qed.

Lemma scaled_rev : forall c c', scaled c c' -> scaled (rev c) (rev c').
Proof. intros c c' H. induction H as [|x y t t' E Ht IH]; [constructor|]. cbn [rev]. apply Forall2_app; [exact IH|]. constructor; [exact E|constructor]. Qed.

Lemma scaled_length : forall c c', scaled c c' -> length c' = length c.
Proof. intros c c' H. induction H; cbn; auto. Qed.

Lemma scaled_resistance : forall c c' d d', d' == d -> scaled c c' -> resistance c' d' == w * resistance c d.
Proof.
  intros c c' d d' Hd H. unfold resistance. rewrite (Qltb_comp (qmax (map fst c')) (qmax (map fst c)) d' d (scaled_qmax c c' H) Hd).
  destruct (Qltb _ d); [apply scaled_last; exact H|apply scaled_interp; auto].
Qed.

Definition scaled3 (a b : Q * Q * Q) : Prop := fst (fst b) == fst (fst a) /\ snd (fst b) == w * snd (fst a) /\ snd b == w * snd a.

Lemma scaled_ratio : forall a b, scaled3 a b -> times w (ratio b) (ratio a).
Proof.
  intros [[dx p0] p1] [[dx' p0'] p1'] (E1 & E2 & E3). cbn in E1, E2, E3. unfold ratio.
  rewrite (Qeqb_comp dx' dx 0 0 E1) by reflexivity. destruct (Qeq_bool dx 0); [reflexivity|]. unfold times.
  assert (E : (p1' - p0') / dx' == w * ((p1 - p0) / dx)) by (rewrite E1, E2, E3; unfold Qdiv; ring).
  rewrite E, Qabs_Qmult, (Qabs_pos w Hw). reflexivity.
Qed.

Lemma Qmin_eq : forall a b c d, a == c -> b == d -> Qmin a b == Qmin c d.
Proof. intros a b c d H H'. rewrite H, H'. reflexivity. Qed.

Lemma scaled_lateral_terms : forall k c c' d d', d' == d -> scaled c c' -> scaled3 (lateral_terms k d c) (lateral_terms k d' c').
Proof.
  intros k c c' d d' Hd H. unfold lateral_terms. rewrite (Qeqb_comp d' d 0 0 Hd) by reflexivity.
  destruct (scaled_nth c c' 0 H) as [A0 B0]. destruct (scaled_nth c c' 1 H) as [A1 B1]. fold (pt c 0) (pt c' 0) in *. fold (pt c 1) (pt c' 1) in *.
  destruct (_ || Qeq_bool d 0)%bool; [split; [cbn; rewrite A0, A1; reflexivity|split; cbn; [exact B0|exact B1]]|].
  destruct k; (split; [|split]); cbn [fst snd]; try exact Hd; try exact B0; try (apply scaled_resistance; auto);
    try (apply Qmin_eq; [reflexivity|exact Hd]); rewrite (Qmin_eq (1#2000) d' (1#2000) d) by (auto; reflexivity); rewrite Hd; reflexivity.
Qed.

Lemma scaled_py : forall k c c' u, scaled c c' -> times w (py_spring u c' k) (py_spring u c k).
Proof.
  intros k c c' u H. unfold py_spring. pose proof (scaled_qsum c c' (fun x => x) ltac:(auto) H) as E. cbn in E.
  rewrite (Qeqb_comp (qsum (map fst c')) (qsum (map fst c)) 0 0) by (exact E || reflexivity). destruct (Qeq_bool _ 0); [unfold times; ring|].
  apply scaled_ratio, scaled_lateral_terms; [reflexivity|exact H].
Qed.

Lemma scaled_axial_terms : forall k c c' d, scaled c c' -> scaled3 (axial_terms k d c) (axial_terms k d c').
Proof.
  intros k c c' d H. unfold axial_terms. rewrite (scaled_length c c' H). set (i := zero_index (length c)).
  destruct (scaled_nth c c' i H) as [A0 B0]. destruct (scaled_nth c c' (S i) H) as [A1 B1]. fold (pt c i) (pt c' i) in *. fold (pt c (S i)) (pt c' (S i)) in *.
  destruct (_ || Qeq_bool d 0)%bool; [split; [cbn; rewrite A0, A1; reflexivity|split; cbn; [exact B0|exact B1]]|].
  destruct k; (split; [|split]); cbn [fst snd]; try reflexivity; try exact B0; apply scaled_interp; try reflexivity; apply scaled_rev; exact H.
Qed.

Lemma scaled_tz : forall k c c' u, scaled c c' -> times w (tz_spring u c' k) (tz_spring u c k).
Proof.
  intros k c c' u H. unfold tz_spring. pose proof (scaled_qsum c c' Qabs (fun x y E => Qabs_wd x y E) H) as E.
  rewrite (Qeqb_comp (qsum (map (fun p => Qabs (fst p)) c')) (qsum (map (fun p => Qabs (fst p)) c)) 0 0) by (exact E || reflexivity). destruct (Qeq_bool _ 0); [unfold times; ring|].
  apply scaled_ratio, scaled_axial_terms; exact H.
Qed.
End Scale.

(** ** moments are looked up with resistances that are scaled alike *)
Lemma Qltb_scale : forall w x y, 0 < w -> Qltb (w * x) (w * y) = Qltb x y.
Proof.
  intros w x y Hw. destruct (Qltb x y) eqn:E.
  - apply Qltb_true in E. apply Qltb_true. apply Qmult_lt_l; auto.
  - apply Qltb_false in E. apply Qltb_false. apply Qmult_le_l; auto.
Qed.

Lemma interp_rescaled : forall w x pp pp' ys, 0 < w -> Forall2 (fun p p' => p' == w * p) pp pp' -> interp (w * x) (combine pp' ys) == interp x (combine pp ys).
Proof.
  intros w x pp pp' ys Hw H. revert ys. induction H as [|x0 x0' t t' E1 Ht IH]; intros ys; [reflexivity|]. destruct ys as [|y0 ys]; [reflexivity|]. cbn [combine].
  destruct Ht as [|x1 x1' t t' E2 Ht]; [reflexivity|]. destruct ys as [|y1 ys]; [reflexivity|]. cbn [combine]. rewrite !interp_step.
  rewrite (Qltb_comp (w * x) (w * x) x1' (w * x1)), (Qltb_comp (w * x) (w * x) x0' (w * x0)) by (assumption || reflexivity). rewrite !Qltb_scale by exact Hw.
  destruct (Qltb x x1) eqn:L1; [|exact (IH (y1 :: ys))]. destruct (Qltb x x0) eqn:L0; [reflexivity|].
  apply Qltb_true in L1. apply Qltb_false in L0. rewrite E1, E2. setoid_replace (w * x1 - w * x0) with (w * (x1 - x0)) by ring. field. split; lra.
Qed.

Lemma mt_rescaled : forall w u p p' pp pp' cols k, 0 < w -> p' == w * p -> Forall2 (fun a a' => a' == w * a) pp pp' -> times 1 (mt_spring u p' pp' cols k) (mt_spring u p pp cols k).
Proof.
  intros w u p p' pp pp' cols k Hw HP HF. unfold mt_spring. destruct (Qeq_bool (qsum _) 0); [unfold times; ring|].
  assert (C : Forall2 qp (mt_curve p' pp' cols) (mt_curve p pp cols)).
  { unfold mt_curve. constructor; [apply qp_refl|]. induction (tl cols) as [|col t IH]; constructor; auto.
    split; cbn [fst snd]; rewrite (interp_comp _ _ p' (w * p) HP (qp_list_refl _)); apply interp_rescaled; auto. }
  pose proof (mt_terms_comp k _ _ (Qabs u) (Qabs u) ltac:(reflexivity) C) as T.
  destruct (mt_terms k (Qabs u) (mt_curve p' pp' cols)) as [[a b] c]. destruct (mt_terms k (Qabs u) (mt_curve p pp cols)) as [[a' b'] c'].
  destruct T as (T1 & T2 & T3). cbn in T1, T2, T3. rewrite (Qeqb_comp a a' 0 0 T1) by reflexivity. destruct (Qeq_bool a' 0); [reflexivity|]. unfold times. rewrite T1, T2, T3. ring.
Qed.
