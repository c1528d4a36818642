(** Lemmas: axial capacity in stronger soil. *)
From Coq Require Import List Bool Arith ZArith QArith Qabs Qminmax Reals Qreals Permutation Lia Lqa Lra.
From Verif Require Import Base PileModel PileSpec MeshModel MeshSpec StressModel StressSpec StressProps WeightProofs ShaftProofs GridProofs
  CreateModel CreateProofs CreateProps AxialModel AxialSpec AxialProofs AxialProps CapacityModel CapacitySpec CapacityProofs CapacityProps FirmSpec.
Import ListNotations.
Local Open Scope R_scope.

(** ** Overburden *)
Section Overburden.
Local Open Scope Q_scope.
Ltac one_max a b := let m := fresh "m" in let E := fresh "E" in let H := fresh "H" in
  pose proof (Q.max_spec a b) as H; set (m := Qmax a b) in *; clearbody m; destruct H as [[? E]|[? E]].
Ltac one_min a b := let m := fresh "m" in let E := fresh "E" in let H := fresh "H" in
  pose proof (Q.min_spec a b) as H; set (m := Qmin a b) in *; clearbody m; destruct H as [[? E]|[? E]].
Ltac minmax := repeat match goal with
  | |- context [Qmax ?a ?b] => one_max a b | |- context [Qmin ?a ?b] => one_min a b
  | _ : context [Qmax ?a ?b] |- _ => one_max a b | _ : context [Qmin ?a ?b] |- _ => one_min a b end.
Definition load (water z : Q) (l : layer) : Q := l_weight l * dry_above water z l + (l_weight l - 10) * wet_above water z l.
Definition above (z : Q) (l : layer) : Q := height (Qmax z (l_bottom l)) (l_top l).
Lemma dry_nn : forall w z l, 0 <= dry_above w z l. Proof. intros. unfold dry_above, height. apply Q.le_max_l. Qed.
Lemma wet_nn : forall w z l, 0 <= wet_above w z l. Proof. intros. unfold wet_above, height. apply Q.le_max_l. Qed.
Lemma whole : forall w z l, dry_above w z l + wet_above w z l == above z l.
Proof. intros w z l. unfold dry_above, wet_above, above, height. set (a := Qmax z (l_bottom l)). clearbody a. minmax; Lqa.lra. Qed.
Lemma wet_le : forall w w' z l, w' <= w -> wet_above w' z l <= wet_above w z l.
Proof. intros w w' z l H. unfold wet_above, height. set (a := Qmax z (l_bottom l)). clearbody a. minmax; Lqa.lra. Qed.
Lemma load_eq : forall w z l, load w z l == l_weight l * above z l - 10 * wet_above w z l.
Proof. intros w z l. unfold load. rewrite <- (whole w z l). ring. Qed.
Lemma same_extent : forall z l l', l_top l' = l_top l -> l_bottom l' = l_bottom l -> (forall w, wet_above w z l' = wet_above w z l) /\ above z l' = above z l.
Proof. intros z l l' T B. unfold wet_above, above. rewrite T, B. auto. Qed.
Lemma load_le : forall w w' z l l', l_top l' = l_top l -> l_bottom l' = l_bottom l -> l_weight l <= l_weight l' -> w' <= w -> load w z l <= load w' z l'.
Proof.
  intros w w' z l l' T B WG W. destruct (same_extent z l l' T B) as [E1 E2]. rewrite !load_eq, E1, E2. pose proof (wet_le w w' z l W).
  assert (0 <= above z l) by (unfold above, height; apply Q.le_max_l). assert (l_weight l * above z l <= l_weight l' * above z l) by (apply Qmult_le_compat_r; auto). Lqa.lra.
Qed.
Lemma load_nn : forall w z l, 10 < l_weight l -> 0 <= load w z l.
Proof. intros w z l H. unfold load. pose proof (dry_nn w z l). pose proof (wet_nn w z l). assert (0 <= l_weight l * dry_above w z l) by (apply Qmult_le_0_compat; Lqa.lra).
  assert (0 <= (l_weight l - 10) * wet_above w z l) by (apply Qmult_le_0_compat; Lqa.lra). Lqa.lra. Qed.
Lemma load_zero : forall w w' z l l', l_top l' = l_top l -> l_bottom l' = l_bottom l -> 10 < l_weight l -> load w z l <= 0 -> load w' z l' <= 0.
Proof.
  intros w w' z l l' T B H Z. destruct (same_extent z l l' T B) as [E1 E2]. pose proof (dry_nn w z l). pose proof (wet_nn w z l). pose proof (wet_nn w' z l). pose proof (dry_nn w' z l).
  assert (A : above z l <= 0).
  { rewrite <- (whole w z l). unfold load in Z. assert (0 <= (l_weight l - 10) * dry_above w z l) by (apply Qmult_le_0_compat; Lqa.lra). assert (0 <= (l_weight l - 10) * wet_above w z l) by (apply Qmult_le_0_compat; Lqa.lra).
    assert (D : dry_above w z l <= 0) by Lqa.lra. apply Qnot_lt_le. intros P. assert (0 < wet_above w z l) by Lqa.lra. assert (0 < (l_weight l - 10) * wet_above w z l) by (apply Qmult_lt_0_compat; Lqa.lra). Lqa.lra. }
  pose proof (whole w' z l) as W1. rewrite load_eq, E1, E2. assert (EA : above z l == 0) by Lqa.lra. rewrite EA. Lqa.lra.
Qed.
Lemma overburden_cons : forall l t w z, overburden (l :: t) w z == load w z l + overburden t w z.
Proof. intros. unfold overburden. cbn [map]. apply Qsum_cons. Qed.
Definition lighter (l l' : layer) : Prop := l_top l' = l_top l /\ l_bottom l' = l_bottom l /\ l_weight l <= l_weight l'.
Lemma overburden_le : forall ls ls' w w' z, Forall2 lighter ls ls' -> w' <= w -> overburden ls w z <= overburden ls' w' z.
Proof. intros ls ls' w w' z F W. induction F as [|l l' t t' (T & B & WG) F IH]; [apply Qle_refl|]. rewrite !overburden_cons. pose proof (load_le w w' z l l' T B WG W). Lqa.lra. Qed.
Lemma overburden_ge0 : forall ls w z, (forall l, In l ls -> 10 < l_weight l) -> 0 <= overburden ls w z.
Proof. intros ls w z. induction ls as [|l t IH]; intros H; [apply Qle_refl|]. rewrite overburden_cons. pose proof (load_nn w z l (H l (or_introl eq_refl))). pose proof (IH (fun l I => H l (or_intror I))). Lqa.lra. Qed.
Lemma overburden_zero : forall ls ls' w w' z, Forall2 lighter ls ls' -> (forall l, In l ls -> 10 < l_weight l) -> overburden ls w z <= 0 -> overburden ls' w' z <= 0.
Proof.
  intros ls ls' w w' z F. induction F as [|l l' t t' (T & B & WG) F IH]; intros H Z; [apply Qle_refl|]. rewrite overburden_cons in *.
  pose proof (load_nn w z l (H l (or_introl eq_refl))). pose proof (overburden_ge0 t w z (fun l I => H l (or_intror I))).
  pose proof (load_zero w w' z l l' T B (H l (or_introl eq_refl)) ltac:(Lqa.lra)). pose proof (IH (fun l I => H l (or_intror I)) ltac:(Lqa.lra)). Lqa.lra.
Qed.
End Overburden.

(** ** Friction and bearing *)
Lemma between_le : forall a b a' b' f, 0 <= f <= 1 -> a <= a' -> b <= b' -> between a b f <= between a' b' f.
Proof.
  intros a b a' b' f F A B. unfold between. replace (a + (b - a) * f) with (a * (1 - f) + b * f) by ring. replace (a' + (b' - a') * f) with (a' * (1 - f) + b' * f) by ring.
  assert (a * (1 - f) <= a' * (1 - f)) by (apply Rmult_le_compat_r; lra). assert (b * f <= b' * f) by (apply Rmult_le_compat_r; lra). lra.
Qed.
Lemma friction_le : forall s s' sig sig' f, admissible s -> admissible s' -> firmer_axial s s' -> 0 <= f <= 1 -> 0 <= sig <= sig' -> (sig = 0 -> sig' = 0) -> unit_friction s sig f <= unit_friction s' sig' f.
Proof.
  intros s s' sig sig' f A A' F HF HS Z. destruct s as [c|s], s' as [c'|s']; cbn [firmer_axial] in F; try contradiction; cbn [admissible unit_friction] in *.
  - destruct A as (_ & _ & _ & T & B & _), F as (F1 & F2 & _). apply friction_mono.
    + destruct (Req_EM_T sig 0); lra.
    + apply between_pos; auto.
    + destruct (Req_EM_T sig 0) as [E|E]; destruct (Req_EM_T sig' 0) as [E'|E']; try lra; specialize (Z E); contradiction.
    + apply between_le; auto.
    + lra.
  - destruct A as (_ & K & _ & T & B & _), A' as (_ & _ & _ & T' & B' & _), F as (F1 & F2 & F3 & _).
    apply (C50_sand_friction sig _ (sa_K s) ltac:(lra) (between_range 0 90 _ _ f HF T B) K); [lra|apply between_le; auto|apply (between_range 0 90 _ _ f HF T' B')|exact F3].
Qed.
Lemma bearing_le : forall s s' sig sig' f, admissible s -> firmer_axial s s' -> 0 <= f <= 1 -> 0 <= sig <= sig' -> 0 <= unit_bearing s sig f <= unit_bearing s' sig' f.
Proof.
  intros s s' sig sig' f A F HF HS. destruct s as [c|s], s' as [c'|s']; cbn [firmer_axial] in F; try contradiction; cbn [admissible unit_bearing] in *.
  - destruct A as (_ & _ & _ & T & B & _), F as (F1 & F2 & _). pose proof (between_pos _ _ f HF T B). pose proof (between_le _ _ _ _ f HF F1 F2). lra.
  - destruct F as (F1 & F2 & _). destruct (C50_end_bearing sig (between (sa_delta_top s) (sa_delta_bottom s) f) ltac:(lra)) as (B0 & _ & _ & MO & _). split; [apply B0|]. apply MO; [lra|apply between_le; auto].
Qed.
Lemma plug_same : forall s s', firmer_axial s s' -> soil_plug s' = soil_plug s.
Proof. intros [c|s] [c'|s'] F; cbn in *; try contradiction; tauto. Qed.
Lemma factors_le : forall s s', admissible s -> firmer_axial s s' -> 0 <= friction_factor s <= friction_factor s' /\ 0 <= tension_factor s <= tension_factor s' /\ 0 <= bearing_factor s <= bearing_factor s'.
Proof.
  intros [c|s] [c'|s'] A F; cbn [firmer_axial] in F; try contradiction; cbn [admissible] in A; unfold friction_factor, tension_factor, bearing_factor;
    destruct A as ((t & z & E & _ & T & _) & _ & A); rewrite E in *; cbn [factor] in *; repeat split; try tauto; lra.
Qed.
Lemma times_le : forall a b a' b', 0 <= a <= a' -> 0 <= b <= b' -> 0 <= a * b <= a' * b'.
Proof. intros a b a' b' A B. split; [apply Rmult_le_pos; lra|apply Rmult_le_compat; lra]. Qed.
Lemma line_le : forall comp s s' sig sig' f co co', admissible s -> admissible s' -> firmer_axial s s' -> 0 <= f <= 1 -> 0 <= sig <= sig' -> (sig = 0 -> sig' = 0) -> 0 <= co <= co' ->
  line_capacity comp s sig f co co <= line_capacity comp s' sig' f co' co'.
Proof.
  intros comp s s' sig sig' f co co' A A' F HF HS Z C. unfold line_capacity. rewrite (plug_same _ _ F). destruct (factors_le s s' A F) as (F1 & F2 & F3).
  pose proof (conj (CapacityProofs.friction_nonneg s sig f A (proj1 HS) HF) (friction_le s s' sig sig' f A A' F HF HS Z)) as U.
  apply times_le; [apply times_le; [apply times_le; auto|destruct comp; lra]|]. unfold sliding_perimeter. destruct (plugged comp (soil_plug s)); lra.
Qed.

(** ** Layers *)
Lemma layer_pair : forall xs xs' e, Forall2 firmer_layer xs xs' -> match layer_of xs e, layer_of xs' e with Some y, Some y' => firmer_layer y y' | None, None => True | _, _ => False end.
Proof.
  intros xs xs' e F. induction F as [|x x' t t' E F IH]; [exact Logic.I|]. unfold layer_of in *. cbn [find]. destruct E as (T & B & R). rewrite T, B.
  destruct (Qle_bool (l_bottom (x_layer x)) (snd e) && Qle_bool (fst e) (l_top (x_layer x))); [split; [exact T|split; [exact B|exact R]]|exact IH].
Qed.
Lemma lighter_layers : forall xs xs', Forall2 firmer_layer xs xs' -> Forall2 lighter (map x_layer xs) (map x_layer xs').
Proof. intros xs xs' F. induction F as [|x x' t t' (T & B & W & _) F IH]; cbn [map]; constructor; auto. split; auto. Qed.
Lemma layer_in : forall xs e y, layer_of xs e = Some y -> In y xs /\ (l_bottom (x_layer y) <= snd e)%Q /\ (fst e <= l_top (x_layer y))%Q.
Proof. intros xs e y E. unfold layer_of in E. apply find_some in E. destruct E as [I V]. apply andb_prop in V. destruct V as [V1 V2]. apply Qle_bool_iff in V1, V2. auto. Qed.
Lemma stress_pair : forall xs xs' w w' z, Forall2 firmer_layer xs xs' -> (forall y, In y xs -> (10 < l_weight (x_layer y))%Q) -> (w' <= w)%Q ->
  let sig := Q2R (overburden (map x_layer xs) w z) in let sig' := Q2R (overburden (map x_layer xs') w' z) in 0 <= sig <= sig' /\ (sig = 0 -> sig' = 0).
Proof.
  intros xs xs' w w' z F W L. cbv zeta. pose proof (lighter_layers _ _ F) as LL. assert (WW : forall l, In l (map x_layer xs) -> (10 < l_weight l)%Q) by (intros l I; apply in_map_iff in I; destruct I as (y & <- & I); auto).
  pose proof (overburden_ge0 (map x_layer xs) w z WW) as P. pose proof (overburden_le _ _ w w' z LL L) as M. split; [split; [apply Q2R_nn; exact P|apply Qle_Rle; exact M]|].
  intros Z. rewrite <- Q2R_0 in Z. apply eqR_Qeq in Z. pose proof (overburden_zero _ _ w w' z LL WW ltac:(Lqa.lra)) as Z'. rewrite <- Q2R_0. apply Qeq_eqR. Lqa.lra.
Qed.

Lemma wsum_le : forall cap cap' n, (forall i j, (i < n)%nat -> (j < 2)%nat -> cap i j <= cap' i j) -> forall infl i, (forall x, In x infl -> (0 <= x)%Q) -> (i + length infl <= S n)%nat -> wsum cap i infl <= wsum cap' i infl.
Proof.
  intros cap cap' n H. induction infl as [|it t IH]; intros i P L; [cbn; lra|]. destruct t as [|ib t]; [cbn; lra|].
  change (wsum cap i (it :: ib :: t)) with (Q2R it * cap i 0%nat + Q2R ib * cap i 1%nat + wsum cap (S i) (ib :: t)). change (wsum cap' i (it :: ib :: t)) with (Q2R it * cap' i 0%nat + Q2R ib * cap' i 1%nat + wsum cap' (S i) (ib :: t)).
  cbn [length] in *. pose proof (IH (S i) ltac:(intros; apply P; right; auto) ltac:(lia)). assert (Q2R it * cap i 0%nat <= Q2R it * cap' i 0%nat) by (apply Rmult_le_compat_l; [apply Q2R_nn, P; left; auto|apply H; lia]).
  assert (Q2R ib * cap i 1%nat <= Q2R ib * cap' i 1%nat) by (apply Rmult_le_compat_l; [apply Q2R_nn, P; right; left; auto|apply H; lia]). lra.
Qed.

(** ** Two models on one mesh *)
Section Two.
Variables (l p l' p' : list section) (b b' : Q) (dt dq dt' dq' : draw) (ta fp ta' fp' : Q) (xs xs' : list axial_layer) (sd sd' : list (@slayer values)) (st st' : setting) (x x' : list Q) (c c' : Q) (m : list Q) (co co' : nat -> Q).
Hypothesis S1 : in_soil l p b dt dq ta fp xs sd st x c m co.
Hypothesis S2 : in_soil l' p' b' dt' dq' ta' fp' xs' sd' st' x' c' m co'.
Hypothesis FL : Forall2 firmer_layer xs xs'.
Hypothesis WT : (water st' <= water st)%Q.
Hypothesis CO : forall i, (i < length (elems st))%nat -> (co i <= co' i)%Q.

Lemma same_elems : elems st' = elems st.
Proof using S1 S2. destruct (nodes_two _ _ _ _ _ _ _ _ _ _ _ _ _ _ S1) as [_ E]. destruct (nodes_two _ _ _ _ _ _ _ _ _ _ _ _ _ _ S2) as [_ E']. congruence. Qed.
Lemma fraction01 : forall y e z, In e (elems st) -> layer_of xs e = Some y -> (snd e <= z)%Q -> (z <= fst e)%Q -> (snd e < fst e)%Q ->
  0 <= Q2R ((l_top (x_layer y) - z) / (l_top (x_layer y) - l_bottom (x_layer y)))%Q <= 1.
Proof using Type.
  intros y e z I E Z1 Z2 Z3. apply layer_in in E. destruct E as (_ & V1 & V2). assert (HP : (0 < l_top (x_layer y) - l_bottom (x_layer y))%Q) by Lqa.lra. split.
  - apply Q2R_nn. apply Qle_shift_div_l; auto. Lqa.lra.
  - replace 1 with (Q2R 1) by (unfold Q2R; cbn; lra). apply Qle_Rle. apply Qle_shift_div_r; auto. Lqa.lra.
Qed.
Lemma end_le : forall comp i j, (i < length (elems st))%nat -> (j < 2)%nat -> end_capacity comp xs st co co i j <= end_capacity comp xs' st' co' co' i j.
Proof using S1 S2 FL WT CO.
  intros comp i j Hi Hj. assert (SE := same_elems). unfold end_capacity. rewrite SE. set (e := nth i (elems st) (0, 0)%Q). assert (IE : In e (elems st)) by (apply nth_In; exact Hi).
  assert (LT : (snd e < fst e)%Q) by (apply (own_layer _ _ _ _ _ _ _ _ _ _ _ _ _ _ S1 i Hi)). set (z := if Nat.eqb j 0 then fst e else snd e).
  assert (ZZ : (snd e <= z)%Q /\ (z <= fst e)%Q) by (unfold z; destruct (Nat.eqb j 0); split; Lqa.lra). pose proof (layer_pair xs xs' e FL) as LP.
  destruct (layer_of xs e) as [y|] eqn:Ey; destruct (layer_of xs' e) as [y'|] eqn:Ey'; try contradiction; [|lra]. destruct LP as (T & B & _ & SO).
  assert (F01 := fraction01 y e z IE Ey (proj1 ZZ) (proj2 ZZ) LT). destruct S1 as (_ & W1 & _ & _ & OW & AD & _), S2 as (_ & W2 & _ & _ & OW2 & AD2 & _).
  destruct (layer_in _ _ _ Ey) as (Iy & _). destruct (layer_in _ _ _ Ey') as (Iy' & _). destruct (stress_pair xs xs' (water st) (water st') z FL W1 WT) as [SP SZ].
  destruct (OW i Hi) as (_ & C0 & _). assert (CN : 0 <= Q2R (co i) <= Q2R (co' i)) by (split; [apply Q2R_pos in C0; lra|apply Qle_Rle; auto]).
  destruct (x_soil y) as [s|] eqn:Es.
  - destruct (SO s eq_refl) as (s' & Es' & FS). rewrite Es', T, B. apply line_le; auto; [apply (AD y); auto|apply (AD2 y'); auto].
  - destruct (x_soil y') as [s'|] eqn:Es'; [|lra]. rewrite T, B. apply line_nonneg; auto; try lra. apply (AD2 y'); auto.
Qed.

Lemma shaft_firmer : distributed_axial st = true -> distributed_axial st' = true ->
  exists r t r' t', shaft_resistance (nodes_of m) (create_springs st (map (with_springs dt dq ta fp) xs)) = Ok (Some (r, t)) /\
    shaft_resistance (nodes_of m) (create_springs st' (map (with_springs dt' dq' ta' fp') xs')) = Ok (Some (r', t')) /\ r <= r' /\ t <= t'.
Proof using S1 S2 FL WT CO.
  intros DA DA'. destruct (nodes_two _ _ _ _ _ _ _ _ _ _ _ _ _ _ S1) as [L E]. assert (SE := same_elems).
  unfold shaft_resistance. destruct (nodes_of m) as [|a [|b0 r]] eqn:EN; cbn [length] in L; try lia. rewrite influence_eq.
  assert (NN : forall v, In v ((Qabs (b0 - a) / 2)%Q :: infl_from (a :: b0 :: r)) -> (0 <= v)%Q) by (intros v [<-|I]; [apply half_nn|eapply infl_nn; eauto]).
  assert (LN : (0 + length ((Qabs (b0 - a) / 2)%Q :: infl_from (a :: b0 :: r)) <= S (length (elems st)))%nat). { rewrite E, pairs_length. cbn [length]. rewrite infl_length. cbn [length]. lia. }
  rewrite (shaft_from_sum _ (length (elems st)) (end_capacity true xs st co co) (end_capacity false xs st co co)); [| |exact NN|exact LN].
  2:{ intros i j Hi Hj. apply (stored_capacity _ _ _ _ _ _ _ _ _ _ _ _ _ _ S1 DA); auto. }
  rewrite (shaft_from_sum _ (length (elems st)) (end_capacity true xs' st' co' co') (end_capacity false xs' st' co' co')); [| |exact NN|exact LN].
  2:{ intros i j Hi Hj. apply (stored_capacity _ _ _ _ _ _ _ _ _ _ _ _ _ _ S2 DA'); auto. rewrite SE. exact Hi. }
  do 4 eexists. split; [reflexivity|]. split; [reflexivity|]. split; apply wsum_le with (n := length (elems st)); auto; intros; apply end_le; auto.
Qed.

Lemma tip_firmer : base_axial st = true -> base_axial st' = true -> (0 <= ta <= ta')%Q -> (0 <= fp <= fp')%Q ->
  exists r r', tip_resistance (create_springs st (map (with_springs dt dq ta fp) xs)) = Ok (Some r) /\ tip_resistance (create_springs st' (map (with_springs dt' dq' ta' fp') xs')) = Ok (Some r') /\ r <= r'.
Proof using S1 S2 FL WT.
  intros BA BA' TA FP. clear CO. do 2 eexists. split; [apply (C102_tip_resistance _ _ _ _ _ _ _ _ _ _ _ _ _ _ S1 BA); Lqa.lra|]. split; [apply (C102_tip_resistance _ _ _ _ _ _ _ _ _ _ _ _ _ _ S2 BA'); Lqa.lra|].
  assert (SE := same_elems). unfold tip_capacity. rewrite SE. set (e := last (elems st) (0, 0)%Q).
  destruct (nodes_two _ _ _ _ _ _ _ _ _ _ _ _ _ _ S1) as [L E]. assert (NE : elems st <> []) by (intros Z; rewrite Z in E; apply (f_equal (@length _)) in E; rewrite pairs_length in E; cbn [length] in E; lia).
  assert (IE : exists i, (i < length (elems st))%nat /\ nth i (elems st) (0, 0)%Q = e).
  { exists (length (elems st) - 1)%nat. split; [destruct (elems st); [congruence|cbn [length]; lia]|]. unfold e. generalize (elems st). intros l0. induction l0 as [|y t IH]; [reflexivity|]. destruct t as [|y' t]; [reflexivity|]. cbn [length Nat.sub] in *. rewrite Nat.sub_0_r in *. exact IH. }
  destruct IE as (i & Hi & Ei). assert (IE : In e (elems st)) by (rewrite <- Ei; apply nth_In; exact Hi). assert (LT : (snd e < fst e)%Q) by (rewrite <- Ei; apply (own_layer _ _ _ _ _ _ _ _ _ _ _ _ _ _ S1 i Hi)).
  assert (TE : (tip st == snd e)%Q /\ (tip st' == snd e)%Q).
  { destruct S1 as (F1 & _), S2 as (F2 & _). destruct (C66_base_springs_partial _ _ _ _ _ _ _ _ _ _ F1) as (T1 & _). destruct (C66_base_springs_partial _ _ _ _ _ _ _ _ _ _ F2) as (T2 & _). rewrite SE in T2. split; symmetry; assumption. }
  destruct TE as [T1 T2]. pose proof (layer_pair xs xs' e FL) as LP.
  destruct (layer_of xs e) as [y|] eqn:Ey; destruct (layer_of xs' e) as [y'|] eqn:Ey'; try contradiction; [|lra]. destruct LP as (T & B & _ & SO).
  assert (F01 := fraction01 y e (tip st) IE Ey ltac:(Lqa.lra) ltac:(Lqa.lra) LT). assert (OC : (overburden (map x_layer xs') (water st') (tip st') == overburden (map x_layer xs') (water st') (tip st))%Q) by (apply StressProofs.overburden_comp; Lqa.lra).
  assert (FC : (((l_top (x_layer y) - tip st') / (l_top (x_layer y) - l_bottom (x_layer y))) == ((l_top (x_layer y) - tip st) / (l_top (x_layer y) - l_bottom (x_layer y))))%Q) by (rewrite T1, T2; reflexivity).
  destruct S1 as (_ & W1 & _ & _ & OW & AD & _), S2 as (_ & W2 & _ & _ & OW2 & AD2 & _). destruct (layer_in _ _ _ Ey) as (Iy & _). destruct (layer_in _ _ _ Ey') as (Iy' & _).
  destruct (stress_pair xs xs' (water st) (water st') (tip st) FL W1 WT) as [SP SZ]. rewrite (Qeq_eqR _ _ OC).
  assert (AR : forall q : bool, 0 <= Q2R (if q then fp else ta) <= Q2R (if q then fp' else ta')) by (intros [|]; (split; [apply Q2R_nn|apply Qle_Rle]; Lqa.lra)).
  destruct (x_soil y) as [s|] eqn:Es.
  - destruct (SO s eq_refl) as (s' & Es' & FS). rewrite Es', T, B, (plug_same _ _ FS), (Qeq_eqR _ _ FC). destruct (factors_le s s' (AD y s Iy Es) FS) as (_ & _ & F3).
    apply times_le; [apply times_le; [apply bearing_le; auto; apply (AD y); auto|exact F3]|apply AR].
  - destruct (x_soil y') as [s'|] eqn:Es'; [|lra]. rewrite T, B, (Qeq_eqR _ _ FC). assert (A' := AD2 y' s' Iy' Es'). pose proof (Q2R_nn fp' ltac:(Lqa.lra)). pose proof (Q2R_nn ta' ltac:(Lqa.lra)).
    assert (0 <= Q2R (if plugged true (soil_plug s') then fp' else ta')) by (destruct (plugged true (soil_plug s')); auto).
    assert (BF : 0 <= bearing_factor s') by (destruct s'; cbn in A'; tauto). apply Rmult_le_pos; [apply Rmult_le_pos; [|exact BF]|auto].
    destruct s' as [cl|sa]; cbn [admissible unit_bearing] in *; [destruct A' as (_ & _ & _ & St & Sb & _); pose proof (between_pos _ _ _ F01 St Sb); lra|]. apply C50_end_bearing. lra.
Qed.
End Two.
