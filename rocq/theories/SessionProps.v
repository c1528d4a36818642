(** Properties C91 and C92: programs that set, read and analyse one model. *)
From Coq Require Import List Bool Arith ZArith QArith Qabs Qminmax Lia Lqa.
From Verif Require Import Base LinAlg PileModel MeshSpec BeamModel StressModel GetterModel SolveModel SolveSpec SolveProofs SpringModel SpringSpec WinklerModel ResultModel CreateModel BCModel BCSpec BCProofs WholeModel WholeSpec WholeProofs SessionModel SessionSpec SessionProofs SessionWitness.
Import ListNotations.
Local Open Scope Q_scope.

(** C91: full statement: whatever was asked of a model before, an analysis gives what a fresh model
    with the values last set would give.  It holds of programs that ask for no table of axial or
    lateral springs (C92 is about the others); any other operation may stand anywhere, analyses
    included. *)
Theorem C91_as_if_fresh_partial : forall solve fr before after s, readings Lateral before = O -> readings Axial before = O ->
  nth_error (fst (session solve fr (before ++ Solve :: after) {| st_bcs := []; st_springs := s |})) (length before) =
  Some (Analysis (solve_state solve fr {| st_bcs := run (setters before) []; st_springs := s |})).
Proof. intros solve fr before after s HL HA. rewrite answer_at, session_untouched by auto. reflexivity. Qed.
Print Assumptions C91_as_if_fresh_partial.

(** Only the values in force count: not the order of the calls, nor values overwritten since. *)
Theorem C91_values_in_force_partial : forall solve fr l l' after after' s, readings Lateral l = O -> readings Axial l = O -> readings Lateral l' = O -> readings Axial l' = O ->
  same_values (setters l) (setters l') -> separate (fr_nodes fr) (run (setters l) []) -> separate (fr_nodes fr) (run (setters l') []) ->
  nth_error (fst (session solve fr (l ++ Solve :: after) {| st_bcs := []; st_springs := s |})) (length l) =
  nth_error (fst (session solve fr (l' ++ Solve :: after') {| st_bcs := []; st_springs := s |})) (length l').
Proof.
  intros solve fr l l' a a' s H1 H2 H3 H4 SV S1 S2. rewrite !C91_as_if_fresh_partial by auto. do 2 f_equal.
  apply solve_of_values; auto using run_never_conflicts. intros k e ax q. rewrite !last_write_wins. apply SV.
Qed.
Print Assumptions C91_values_in_force_partial.

(** Neither an analysis nor the shaft or tip resistance changes the model: asked again, they answer
    the same, also after tables have been read. *)
Theorem C91_asking_changes_nothing : forall solve fr l o st, o = Solve \/ o = Shaft \/ o = Tip ->
  snd (session solve fr (l ++ [o]) st) = snd (session solve fr l st) /\
  nth_error (fst (session solve fr (l ++ [o; o]) st)) (length l) = nth_error (fst (session solve fr (l ++ [o; o]) st)) (S (length l)).
Proof.
  intros solve fr l o st Ho.
  assert (K : forall s, snd (step solve fr o s) = s) by (intros s; destruct Ho as [->|[->| ->]]; reflexivity).
  assert (ST : snd (session solve fr (l ++ [o]) st) = snd (session solve fr l st)).
  { rewrite session_app. destruct (session solve fr l st) as [a s]. cbn [session snd]. pose proof (K s) as E. destruct (step solve fr o s). exact E. }
  split; [exact ST|]. rewrite (answer_at solve fr l o [o] st).
  pose proof (answer_at solve fr (l ++ [o]) o [] st) as A. rewrite app_length, Nat.add_1_r, <- app_assoc in A. cbn [app] in A. rewrite A, ST. reflexivity.
Qed.
Print Assumptions C91_asking_changes_nothing.

(** A model without soil answers every request for springs with None, and nothing but the setters
    matters. *)
Theorem C91_without_soil : forall solve fr l st, fr_soil fr = false ->
  (forall before g k after, l = before ++ Table g k :: after -> nth_error (fst (session solve fr l st)) (length before) = Some (Springs (Ok None))) /\
  (forall before after, l = before ++ Solve :: after -> nth_error (fst (session solve fr l st)) (length before) =
     Some (Analysis (solve_state solve fr {| st_bcs := run (setters before) (st_bcs st); st_springs := st_springs st |}))).
Proof.
  intros solve fr l st HS. split.
  - intros b g k a ->. rewrite answer_at. cbn [step]. unfold table_state. rewrite HS. reflexivity.
  - intros b a ->. rewrite answer_at, session_state_no_soil by exact HS. reflexivity.
Qed.
Print Assumptions C91_without_soil.

Definition ex_before : list op := [Set_ (SetPointload 0 (Some 3) None None); Solve; Table Rotational Lumped; Set_ (SetSupport (-2) None (Some 1) None); Shaft; Set_ (SetPointload 0 (Some 10) (Some (-10)) None)].
Definition ex_other : list op := [Set_ (SetSupport (-2) None (Some 1) None); Tip; Set_ (SetPointload 0 None (Some (-10)) None); Set_ (SetPointload 0 (Some 10) None None)].

Lemma last_given_decide : forall h k e a q, last_given h k e a q <-> holds (run h []) k e a q.
Proof. intros. symmetry. apply last_write_wins. Qed.

Example C91_example : readings Lateral ex_before = O /\ readings Axial ex_before = O /\ readings Lateral ex_other = O /\ readings Axial ex_other = O /\
  same_values (setters ex_before) (setters ex_other) /\
  separate (fr_nodes ex_frame) (run (setters ex_before) []) /\ separate (fr_nodes ex_frame) (run (setters ex_other) []).
Proof.
  assert (R1 : run (setters ex_before) [] = [mkBC Force 0 None (Some 10) (Some (-10)); mkBC Fixation (-2) None None (Some 1)]) by reflexivity.
  assert (R2 : run (setters ex_other) [] = [mkBC Fixation (-2) None None (Some 1); mkBC Force 0 None (Some 10) (Some (-10))]) by reflexivity.
  repeat split; try reflexivity.
  - intros H. apply last_given_decide in H. apply last_given_decide. rewrite R1 in H. rewrite R2. destruct H as (b & [<-|[<-|[]]] & X); eexists; (split; [|exact X]); cbn; auto.
  - intros H. apply last_given_decide in H. apply last_given_decide. rewrite R2 in H. rewrite R1. destruct H as (b & [<-|[<-|[]]] & X); eexists; (split; [|exact X]); cbn; auto.
  - rewrite R1. repeat constructor. intros E. discriminate E.
  - rewrite R2. repeat constructor. intros E. discriminate E.
Qed.

(** C92: full statement: an analysis does not depend on the spring tables read before it.  Each table
    of axial or lateral springs multiplies the resistances that later analyses use by half the
    lengths of the elements at the node; the moment springs stay as they were. *)
Theorem C92_springs_after_reading_partial : forall solve fr l st e j, fr_soil fr = true -> strictly_descending (fr_nodes fr) -> (e < fr_n fr)%nat -> (j < 2)%nat ->
  let s := st_springs st in let s' := st_springs (snd (session solve fr l st)) in let w := half_lengths (fr_nodes fr) (e + j) in
  0 < w /\
  (forall u k, times (power w (readings Lateral l)) (py_spring u (spring_curve (g_py s') e j) k) (py_spring u (spring_curve (g_py s) e j) k)) /\
  (forall u k, times (power w (readings Axial l)) (tz_spring u (spring_curve (g_tz s') e j) k) (tz_spring u (spring_curve (g_tz s) e j) k)) /\
  (forall y r k, times 1 (bind (py_spring y (spring_curve (g_py s') e j) Secant) (fun ks => mt_spring r (ks * y) (map snd (spring_curve (g_py s') e j)) (moment_columns (g_mt s') e j) k))
                         (bind (py_spring y (spring_curve (g_py s) e j) Secant) (fun ks => mt_spring r (ks * y) (map snd (spring_curve (g_py s) e j)) (moment_columns (g_mt s) e j) k))).
Proof.
  intros solve fr l st e j HS D He Hj s s' w. destruct (session_scaled solve fr l st e j HS D He Hj) as (A & B & C). fold s s' w in A, B, C.
  assert (L2 : (2 <= length (fr_nodes fr))%nat) by (unfold fr_n in He; lia).
  assert (P : 0 < w) by (apply half_pos; auto; lia).
  pose proof (power_pos w (readings Lateral l) P) as PL. pose proof (power_pos w (readings Axial l) P) as PA.
  split; [exact P|]. split; [intros u k; apply scaled_py; [lra|exact A]|]. split; [intros u k; apply scaled_tz; [lra|exact B]|].
  intros y r k. pose proof (scaled_py (power w (readings Lateral l)) ltac:(lra) Secant _ _ y A) as SP. rewrite C.
  destruct (py_spring y (spring_curve (g_py s') e j) Secant) as [x|]; destruct (py_spring y (spring_curve (g_py s) e j) Secant) as [x'|]; cbn [times bind] in SP |- *; try contradiction; [|exact SP].
  apply (mt_rescaled (power w (readings Lateral l))); [exact PL| |].
  - rewrite SP. ring.
  - clear - A. induction A as [|p p' t t' [_ E] _ IH]; constructor; auto.
Qed.
Print Assumptions C92_springs_after_reading_partial.

(** Load the pile, analyse, look at the table of the lateral springs, analyse again: the head moves
    more than half as much again. *)
Theorem C92_deflection_after_reading_refuted : exists fr s load w1 w2 t r1 r2 rows1 rows2,
  fst (session gauss_solver fr [Set_ load; Solve; Table Lateral Lumped; Solve] {| st_bcs := []; st_springs := s |}) =
    [Done; Analysis (Ok (Some w1)); Springs (Ok (Some t)); Analysis (Ok (Some w2))] /\
  deflection w1 = Some (r1 :: rows1) /\ deflection w2 = Some (r2 :: rows2) /\ fst r1 == fst r2 /\ 0 < snd r1 /\ (3#2) * snd r1 < snd r2.
Proof.
  destruct analysed_twice as (w1 & w2 & t & r1 & r2 & rows1 & rows2 & A & B & C & F & D & E).
  exists ex_frame, ex_springs, ex_load, w1, w2, t. unfold deflection, column. rewrite B, C. cbn [option_map map].
  exists (fst r1, second3 r1), (fst r2, second3 r2), (map (fun r => (fst r, second3 r)) rows1), (map (fun r => (fst r, second3 r)) rows2).
  split; [exact A|]. split; [reflexivity|]. split; [reflexivity|]. split; [exact F|]. split; [exact D|exact E].
Qed.
Print Assumptions C92_deflection_after_reading_refuted.

(** Piles of [n] equal elements of length [h] with the same friction everywhere: the shaft resistance
    n h f becomes (n - 1/2) h^2 f once the table of the axial springs has been read. *)
Theorem C92_shaft_after_reading_refuted : forall solve fr st h f k, fr_soil fr = true -> uniform_mesh (fr_nodes fr) h -> (3 <= length (fr_nodes fr))%nat -> 0 <= f ->
  friction_everywhere (fr_n fr) (g_tz (st_springs st)) f -> (k = Lumped \/ k = Distributed) ->
  exists c t x c' t', fst (session solve fr [Shaft; Table Axial k; Shaft] st) = [Number2 (Some (c, t)); Springs x; Number2 (Some (c', t'))] /\
    let n := inject_Z (Z.of_nat (fr_n fr)) in c == n * h * f /\ c' == (n - (1#2)) * h * h * f.
Proof.
  intros solve fr st h f k HS U L Hf FR Hk. destruct (shaft_defined fr st HS ltac:(lia)) as (c & t & E).
  set (st' := snd (session solve fr [Table Axial k] st)). destruct (shaft_defined fr st' HS ltac:(lia)) as (c' & t' & E').
  pose proof (uniform_shaft fr st h f c t U L Hf FR E) as A. pose proof (uniform_shaft_after solve fr st h f k st' c' t' HS U L Hf FR Hk eq_refl E') as A'.
  exists c, t, (fst (table_state fr Axial k st)), c', t'. split.
  - cbn [session step]. rewrite E. unfold st' in E'. cbn [session step] in E'. destruct (table_state fr Axial k st) as [x s1]. cbn [fst snd] in E' |- *. rewrite E'. reflexivity.
  - cbv zeta. rewrite A, A'. split; ring.
Qed.
Print Assumptions C92_shaft_after_reading_refuted.

Example C92_example : fr_soil ex_frame = true /\ strictly_descending (fr_nodes ex_frame) /\ fr_n ex_frame = 2%nat /\ uniform_mesh (fr_nodes ex_frame) 1 /\
  friction_everywhere (fr_n ex_frame) (g_tz ex_springs) 70.
Proof.
  assert (U : uniform_mesh (fr_nodes ex_frame) 1).
  { split; [reflexivity|]. intros [|[|[|i]]] u v H H'; cbn in H, H'; try discriminate; try (destruct i; discriminate); injection H as <-; injection H' as <-; reflexivity. }
  split; [reflexivity|]. split; [exact (uniform_descending _ _ U)|]. split; [reflexivity|]. split; [exact U|]. intros e j _ _. vm_compute. reflexivity.
Qed.
