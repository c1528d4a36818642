(** Only the springs of the elements matter: what an analysis, a table and a resistance read of the
    arrays lies within their range. *)
From Coq Require Import List Bool Arith ZArith QArith Qabs Qminmax Lia FunctionalExtensionality.
From Verif Require Import Base LinAlg PileModel StressModel SolveModel GetterModel SpringModel SpringProper WinklerModel ResultModel SessionModel SplitSpec DatumSpec.
Import ListNotations.
Local Open Scope Q_scope.

Definition in_range {A : Type} (n : nat) (f f' : nat -> nat -> A) : Prop := forall e j, (e < n)%nat -> (j < 2)%nat -> f e j = f' e j.
Definition opt_range {A : Type} (n : nat) (f f' : option (nat -> nat -> A)) : Prop :=
  match f, f' with Some f, Some f' => in_range n f f' | None, None => True | _, _ => False end.
(** Models that differ outside the range only *)
Definition range_model (M M' : wmodel) : Prop :=
  w_n M' = w_n M /\ w_mech M' = w_mech M /\ w_L M' = w_L M /\ w_mtc M' = w_mtc M /\ w_hb M' = w_hb M /\ w_mb M' = w_mb M /\ w_qz M' = w_qz M /\
  opt_range (w_n M) (w_py M) (w_py M') /\ opt_range (w_n M) (w_tz M) (w_tz M') /\ opt_range (w_n M) (w_mt M) (w_mt M').

Lemma collect_range : forall A n (f g : nat -> res A), (forall e, (e < n)%nat -> f e = g e) -> collect n f = collect n g.
Proof. intros A n f g H. induction n as [|n IH]; [reflexivity|]. cbn [collect]. rewrite IH by (intros; apply H; lia). rewrite (H n) by lia. reflexivity. Qed.
Lemma both_range : forall A (f g : nat -> res A), (forall j, (j < 2)%nat -> f j = g j) -> both f = both g.
Proof. intros A f g H. unfold both. rewrite (H 0%nat), (H 1%nat) by lia. reflexivity. Qed.

Section Range.
Variables (M M' : wmodel).
Hypothesis RM : range_model M M'.
Lemma py_range : forall f f' u k, in_range (w_n M) f f' -> py_stiffness M' f' u k = py_stiffness M f u k.
Proof using RM. intros f f' u k H. destruct RM as (N & _). unfold py_stiffness. rewrite N. apply collect_range. intros e I. apply both_range. intros j J. rewrite (H e j I J). reflexivity. Qed.
Lemma tz_range : forall f f' u k, in_range (w_n M) f f' -> tz_stiffness M' f' u k = tz_stiffness M f u k.
Proof using RM. intros f f' u k H. destruct RM as (N & _). unfold tz_stiffness. rewrite N. apply collect_range. intros e I. apply both_range. intros j J. rewrite (H e j I J). reflexivity. Qed.
Lemma mt_range : forall f f' g g' u k, in_range (w_n M) f f' -> in_range (w_n M) g g' -> mt_stiffness M' f' g' u k = mt_stiffness M f g u k.
Proof using RM. intros f f' g g' u k H G. destruct RM as (N & _). unfold mt_stiffness. rewrite N. apply collect_range. intros e I. apply both_range. intros j J. rewrite (H e j I J), (G e j I J). reflexivity. Qed.

Lemma soil_range : forall u k, soil_elements M' u k = soil_elements M u k.
Proof using RM.
  intros u k. pose proof py_range as P. pose proof tz_range as T. pose proof mt_range as R. destruct RM as (N & E1 & E2 & E3 & _ & _ & _ & HP & HT & HM).
  unfold soil_elements. rewrite E1, E2, E3.
  destruct (w_py M) as [f|], (w_py M') as [f'|]; cbn [opt_range opt_res] in *; try contradiction; [rewrite (P f f' u k HP)|];
  (destruct (w_tz M) as [g|], (w_tz M') as [g'|]; cbn [opt_range opt_res] in *; try contradiction; [rewrite (T g g' u k HT)|]);
  (destruct (w_mt M) as [h|], (w_mt M') as [h'|]; cbn [opt_range opt_res] in *; try contradiction); try rewrite (R f f' h h' u k HP HM); reflexivity.
Qed.
Lemma build_range : build M' = build M.
Proof using RM.
  apply functional_extensionality. intros u. apply functional_extensionality. intros k. unfold build. rewrite soil_range. destruct RM as (N & _ & _ & _ & HB & MB & QZ & _).
  unfold add_base, size. rewrite N, HB, MB, QZ. reflexivity.
Qed.
Lemma winkler_range : forall solve F U r mi, winkler_model solve M' F U r mi = winkler_model solve M F U r mi.
Proof using RM. intros. unfold winkler_model. rewrite build_range. unfold size. destruct RM as (-> & _). reflexivity. Qed.

Lemma list_range : forall n e j, In (e, j) (spring_list n) -> (e < n)%nat /\ (j < 2)%nat.
Proof using. clear. intros n e j I. unfold spring_list in I. apply in_flat_map in I. destruct I as (i & A & B). apply in_seq in A. destruct B as [B|[B|[]]]; injection B as <- <-; lia. Qed.
Lemma mob_range : forall z f f' g g' u, in_range (w_n M) f f' -> in_range (w_n M) g g' -> springs_mob M' z f' g' u = springs_mob M z f g u.
Proof using RM.
  intros z f f' g g' u H G. unfold springs_mob. destruct u as [u|].
  - rewrite (py_range f f' u Secant H), (mt_range f f' g g' u Secant H G). destruct (py_stiffness M f u Secant) as [lp|]; cbn [bind]; [|reflexivity]. destruct (mt_stiffness M f g u Secant) as [lm|]; cbn [bind]; [|reflexivity].
    destruct RM as (-> & _). f_equal. apply map_ext_in. intros [e j] I. apply list_range in I. rewrite (H e j), (G e j) by tauto. reflexivity.
  - destruct RM as (-> & _). f_equal. apply map_ext_in. intros [e j] I. apply list_range in I. rewrite (H e j), (G e j) by tauto. reflexivity.
Qed.
Lemma result_range : forall z f f' g g' hb mb o, in_range (w_n M) f f' -> in_range (w_n M) g g' -> result_of M' z f' g' hb mb o = result_of M z f g hb mb o.
Proof using RM. intros z f f' g g' hb mb o H G. unfold result_of. rewrite (mob_range z f f' g g' (o_d o) H G). unfold size. destruct RM as (-> & -> & -> & _). reflexivity. Qed.
End Range.

(** The springs of the elements agree *)
Definition springs_range (n : nat) (s s' : GetterModel.springs) : Prop := forall e j v, (e < n)%nat -> (j < 2)%nat -> s_p s e j v = s_p s' e j v /\ s_y s e j v = s_y s' e j v.
Definition state_range (n : nat) (s s' : spring_state) : Prop := springs_range n (g_py s) (g_py s') /\ springs_range n (g_tz s) (g_tz s') /\ g_mt s' = g_mt s.

Lemma curve_range : forall n s s', springs_range n s s' -> in_range n (spring_curve s) (spring_curve s').
Proof. intros n s s' H e j I J. unfold spring_curve. apply map_ext. intros v. destruct (H e j v I J) as [-> ->]. reflexivity. Qed.
Lemma when_range : forall A n b (f f' : nat -> nat -> A), in_range n f f' -> opt_range n (when b f) (when b f').
Proof. intros A n [] f f' H; [exact H|exact Logic.I]. Qed.
Lemma model_range : forall fr s s', state_range (fr_n fr) s s' -> range_model (as_model fr s) (as_model fr s').
Proof.
  intros fr s s' (P & T & R). unfold range_model, as_model. cbn [w_n w_mech w_L w_py w_tz w_mt w_mtc w_hb w_mb w_qz]. repeat split; try reflexivity.
  - apply when_range, curve_range, P.
  - apply when_range, curve_range, T.
  - rewrite R. apply when_range. intros e j _ _. reflexivity.
Qed.
Lemma solve_range : forall solve fr bcs s s', state_range (fr_n fr) s s' -> solve_state solve fr {| st_bcs := bcs; st_springs := s' |} = solve_state solve fr {| st_bcs := bcs; st_springs := s |}.
Proof.
  intros solve fr bcs s s' H. pose proof (model_range fr s s' H) as RM. destruct H as (P & T & R). unfold solve_state. cbn [st_bcs st_springs].
  destruct (BCModel.global_forces _ bcs) as [tf|]; cbn [bind]; [|reflexivity]. destruct (BCModel.global_disp _ bcs) as [td|]; cbn [bind]; [|reflexivity]. destruct (BCModel.global_restrained _ bcs) as [tr|]; cbn [bind]; [|reflexivity].
  unfold when, solve_model. destruct (fr_soil fr); [|reflexivity]. unfold winkler_result. rewrite (winkler_range _ _ RM).
  destruct (winkler_model _ _ _ _ _ _) as [w|]; cbn [bind]; [|reflexivity].
  cbn [arrays_of a_py a_mt a_hb a_mb]. rewrite R, (result_range _ _ RM _ _ _ (moment_columns (g_mt s)) (moment_columns (g_mt s)) _ _ w (curve_range _ _ _ P)); [reflexivity|]. intros e j _ _. reflexivity.
Qed.
Lemma shaft_range : forall fr bcs s s', state_range (fr_n fr) s s' -> shaft_state fr {| st_bcs := bcs; st_springs := s' |} = shaft_state fr {| st_bcs := bcs; st_springs := s |}.
Proof.
  intros fr bcs s s' (_ & T & _). unfold shaft_state. cbn [st_springs]. pose proof (curve_range _ _ _ T) as C.
  assert (E : forall f, extreme_friction f (fr_n fr) (g_tz s') = extreme_friction f (fr_n fr) (g_tz s)).
  { intros f. unfold extreme_friction. apply map_ext_in. intros e I. apply in_seq in I. rewrite (C e 0%nat), (C e 1%nat) by lia. reflexivity. }
  rewrite !E. reflexivity.
Qed.

(** ** Tables *)
Section Tables.
Variables (n : nat) (z z' : nat -> Q).
Hypothesis POS : (0 < n)%nat.
Hypothesis DIFF : forall i j, (i <= n)%nat -> (j <= n)%nat -> z' i - z' j = z i - z j.
Lemma gradient_range : forall i, (i <= n)%nat -> GetterModel.gradient n z' i = GetterModel.gradient n z i.
Proof using POS DIFF.
  intros i I. unfold GetterModel.gradient. destruct (Nat.eqb_spec i 0); [rewrite DIFF by lia; reflexivity|]. destruct (Nat.eqb_spec i n); [rewrite DIFF by lia; reflexivity|]. rewrite DIFF by lia. reflexivity.
Qed.
Lemma influence_range : forall i, (i <= n)%nat -> GetterModel.influence n z' i = GetterModel.influence n z i.
Proof using POS DIFF. intros i I. unfold GetterModel.influence. rewrite gradient_range by exact I. reflexivity. Qed.
Variables (s s' : GetterModel.springs).
Hypothesis SR : springs_range n s s'.
Lemma weighted_range : springs_range n (weighted n z s) (weighted n z' s').
Proof using POS DIFF SR.
  intros e j v I J. unfold weighted. cbn [s_p s_y]. destruct (SR e j v I J) as [-> ->]. rewrite influence_range; [split; reflexivity|]. destruct (Nat.eqb j 0); lia.
Qed.
End Tables.
Lemma lumped_range : forall n z z' s s', (0 < n)%nat -> (forall i j, (i <= n)%nat -> (j <= n)%nat -> z' i - z' j = z i - z j) -> springs_range n s s' ->
  forall i v, (i <= n)%nat -> lumped_rows n z' s' i v = lumped_rows n z s i v.
Proof.
  intros n z z' s s' POS DIFF SR i v I. unfold lumped_rows. destruct (Nat.eqb_spec i 0); [destruct (SR 0%nat 0%nat v) as [-> ->]; [lia|lia|reflexivity]|]. destruct (Nat.eqb_spec i n); [destruct (SR (n - 1)%nat 1%nat v) as [-> ->]; [lia|lia|reflexivity]|].
  rewrite !(influence_range n z z' POS DIFF) by lia. destruct (SR (i - 1)%nat 1%nat v) as [-> ->]; [lia|lia|]. destruct (SR i 0%nat v) as [-> ->]; [lia|lia|]. reflexivity.
Qed.
Lemma distributed_range : forall n z z' s s', (0 < n)%nat -> (forall i j, (i <= n)%nat -> (j <= n)%nat -> z' i - z' j = z i - z j) -> springs_range n s s' ->
  forall i v, (i <= n)%nat -> distributed_rows n z' s' i v = distributed_rows n z s i v.
Proof.
  intros n z z' s s' POS DIFF SR i v I. unfold distributed_rows. destruct (Nat.eqb_spec i 0); [destruct (SR 0%nat 0%nat v) as [-> ->]; [lia|lia|reflexivity]|]. destruct (Nat.eqb_spec i n); [destruct (SR (n - 1)%nat 1%nat v) as [-> ->]; [lia|lia|reflexivity]|].
  rewrite !(influence_range n z z' POS DIFF) by lia. destruct (SR (i - 1)%nat 1%nat v) as [-> ->]; [lia|lia|]. destruct (SR i 0%nat v) as [-> ->]; [lia|lia|]. reflexivity.
Qed.
(** Two tables with the same entries in the rows of the nodes *)
Lemma call_range : forall n dim z z' g k s s', ((0 < n)%nat -> forall i j, (i <= n)%nat -> (j <= n)%nat -> z' i - z' j = z i - z j) -> state_range n s s' ->
  alike_res (table_up n) (fst (GetterModel.call n dim z g k s)) (fst (GetterModel.call n dim z' g k s')) /\ state_range n (snd (GetterModel.call n dim z g k s)) (snd (GetterModel.call n dim z' g k s')).
Proof.
  intros n dim z z' g k s s' DIFF (P & T & R). unfold state_range, table_up.
  assert (W : forall a a', springs_range n a a' -> springs_range n (weighted n z a) (weighted n z' a')).
  { intros a a' H e j v I J. apply weighted_range; auto; [|apply DIFF]; lia. }
  destruct k, g; cbn [GetterModel.call get_lumped get_distributed fst snd alike_res both_or_none g_py g_tz g_mt]; (split; [try reflexivity; try exact Logic.I|refine (conj _ (conj _ _)); solve [assumption|apply W; assumption]]);
    intros i v POS I; try (apply lumped_range; auto); try (apply distributed_range; auto).
  rewrite R. apply W. intros e j w _ _. split; reflexivity.
Qed.
